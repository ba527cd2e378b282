(** Properties C28-C36, C39: the Monte Carlo samplers.  Each statement is closed by a lemma of
    the proof files; the [_case] examples show that the hypotheses can be met. *)
From Coq Require Import String Reals Lra Lia List ZArith Arith.
From Coq Require Import Floats.SpecFloat.
From Verif Require Import Num Monad NumR NumF64 Spin Config Chain Langevin SpecVec SpecChain SpecMC Samples
  ProofsSpin ProofsF64 ProofsMCR ProofsMCR4 ProofsMCR5 ProofsMCR6 ProofsMCR8 ProofsMCR9 ProofsMCF64 ProofsMC ProofsDyn ProofsMCR3.
Import ListNotations.
Local Open Scope list_scope.
Local Open Scope R_scope.

(** * C28 *)
Theorem C28_plain : forall n s sc, wf n s sc -> (2 <= n)%nat ->
  metropolis_for n (fun c => INR n * val (mc_total_energy ERNum (fin c))) (metropolis_update ERNum) sc.
Proof. exact plain_step_mc. Qed.
Print Assumptions C28_plain.
Example C28_plain_case : wf 4 4 (ex_chain 4 Dxyplane) /\ (2 <= 4)%nat /\ unit_draw 0 /\ unit_draw (1/2).
Proof. split; [apply (ex_wf 4); lia|]. unfold unit_draw. repeat split; try lia; lra. Qed.

(** * C29 *)
Theorem C29_frame : forall (N : NumOps) n s (sc : chain (num N)) k d, wf n s sc -> (2 <= n)%nat ->
  exists sp', sample N k d sc = Ok (mkChain (j_couple sc) (static_h sc) sp' (t sc) (vars sc) (has_file sc))
    /\ length sp' = n /\ forall p, p <> (d_idx d mod n)%nat -> nth_error sp' p = nth_error (spins sc) p.
Proof. exact sample_frame. Qed.
Print Assumptions C29_frame.
Theorem C29_frame_many : forall (N : NumOps) n s l (sc : chain (num N)), wf n s sc -> (2 <= n)%nat ->
  exists sp', samples N l sc = Ok (mkChain (j_couple sc) (static_h sc) sp' (t sc) (vars sc) (has_file sc))
    /\ length sp' = n /\ forall p, (forall kd, In kd l -> p <> (d_idx (snd kd) mod n)%nat) -> nth_error sp' p = nth_error (spins sc) p.
Proof. exact samples_frame. Qed.
Print Assumptions C29_frame_many.
Theorem C29_unit : forall n s (l : list (sampler * (nat * (R * R * R)))) sc, wf n s sc -> (2 <= n)%nat -> unit_spins sc ->
  Forall (fun x => let '(_, (_, (_, u2, _))) := x in unit_draw u2) l ->
  exists sc', samples ERNum (map (fun x => let '(k, (d, (u1, u2, u))) := x in (k, draw d u1 u2 u)) l) (fin sc) = Ok (fin sc')
     /\ wf n s sc' /\ unit_spins sc'.
Proof. exact samples_unit. Qed.
Print Assumptions C29_unit.
Theorem C29_langevin_frame : forall (N : NumOps) n s (lc : lchain (num N)) (d : mcdraw N), wf n s (base lc) -> (2 <= n)%nat ->
  forall f, f = lmetropolis_update N \/ f = lmetropolis_update_magnus N ->
  exists sp', f d lc = Ok (mkL (mkChain (j_couple (base lc)) (static_h (base lc)) sp' (t (base lc)) (vars (base lc)) (has_file (base lc))) (gamma lc))
    /\ length sp' = n /\ forall p, p <> (d_idx d mod n)%nat -> nth_error sp' p = nth_error (spins (base lc)) p.
Proof. exact lplain_frame. Qed.
Print Assumptions C29_langevin_frame.
Theorem C29_langevin_unit : forall n s sc g d u1 u2 u, wf n s sc -> (2 <= n)%nat -> unit_draw u2 -> unit_spins sc ->
  forall f, f = lmetropolis_update ERNum \/ f = lmetropolis_update_magnus ERNum ->
  exists sc', f (draw d u1 u2 u) (lfin sc g) = Ok (lfin sc' g) /\ unit_spins sc' /\ wf n s sc'.
Proof. exact lsample_unit. Qed.
Print Assumptions C29_langevin_unit.
Example C29_case : wf 4 3 (ex_chain 3 Dnone) /\ unit_spins (ex_chain 3 Dnone) /\
  Forall (fun x : sampler * (nat * (R * R * R)) => let '(_, (_, (_, u2, _))) := x in unit_draw u2)
    [(Plain, (7%nat, (1/2, 1/4, 0))); (MagFull, (2%nat, (0, 0, 1/3)))].
Proof.
  split; [apply (ex_wf 3); lia|]. split; [apply ex_unit|].
  repeat constructor; lra.
Qed.

(** * C30: p and p' are the lengths of the sets of u in [0,1) that accept the move and the reverse move *)
Theorem C30_detailed_balance : forall n s sc d u1 u2 d' v1 v2, wf n s sc -> (2 <= n)%nat -> 0 <= beta (vars sc) ->
  unit_draw u1 -> unit_draw u2 -> unit_draw v1 -> unit_draw v2 ->
  (d mod n = d' mod n)%nat -> uniform_dir v1 v2 = S_ sc (d mod n) -> uniform_dir u1 u2 <> S_ sc (d mod n) ->
  let c' := moved sc (d mod n) (uniform_dir u1 u2) in
  exists p p', 0 < p <= 1 /\ 0 < p' <= 1 /\
    (forall u, unit_draw u -> (metropolis_update ERNum (draw d u1 u2 u) (fin sc) = Ok (fin c') <-> u < p)) /\
    (forall u, unit_draw u -> (metropolis_update ERNum (draw d' v1 v2 u) (fin c') = Ok (fin sc) <-> u < p')) /\
    p * exp (- (beta (vars sc) * (INR n * val (mc_total_energy ERNum (fin sc)))))
    = p' * exp (- (beta (vars sc) * (INR n * val (mc_total_energy ERNum (fin c'))))).
Proof. exact plain_balance. Qed.
Print Assumptions C30_detailed_balance.
(** The reverse proposal exists: spin 0 of the sample chain is e_x, proposed by (0, 1/2); the move is to e_z *)
Example C30_case : let sc := ex_chain 4 Dxyplane in
  wf 4 4 sc /\ 0 <= beta (vars sc) /\ uniform_dir 0 (1/2) = S_ sc (4 mod 4) /\ uniform_dir 0 0 <> S_ sc (4 mod 4).
Proof.
  intro sc. split; [apply (ex_wf 4); lia|]. split; [cbn; lra|]. split; [apply uniform_dir_x|].
  unfold uniform_dir. cbn. intro Q. injection Q. intros. lra.
Qed.

(** * C31 *)
Theorem C31_direction : forall u1 u2, unit_draw u1 -> unit_draw u2 ->
  propose ERNum (Some u1) (Some u2) = fin3 (uniform_dir u1 u2) /\ unit3 (uniform_dir u1 u2).
Proof. exact propose_all. Qed.
Print Assumptions C31_direction.
Theorem C31_area : forall u1 u2, 0 < u2 < 1 ->
  exists a b, has_velocity (fun x => uniform_dir x u2) u1 a /\ has_velocity (fun x => uniform_dir u1 x) u2 b /\
    cross a b = vscale (- (4 * PI)) (uniform_dir u1 u2) /\ norm (cross a b) = 4 * PI.
Proof. exact uniform_dir_area. Qed.
Print Assumptions C31_area.
Theorem C31_reachable : forall v, unit3 v -> vz v <> -1 ->
  exists u1 u2, unit_draw u1 /\ unit_draw u2 /\ uniform_dir u1 u2 = v.
Proof. exact reachable. Qed.
Print Assumptions C31_reachable.
Theorem C31_south_pole_never : forall u1 u2, unit_draw u2 -> vz (uniform_dir u1 u2) <> -1.
Proof. exact south_unreachable. Qed.
Print Assumptions C31_south_pole_never.
Example C31_case : unit3 (mk3 (3/5) 0 (-4/5)) /\ vz (mk3 (3/5) 0 (-4/5)) <> -1 /\ unit_draw (9/10).
Proof. unfold unit3, dot, unit_draw. cbn. repeat split; lra. Qed.

(** * C32 *)
Theorem C32_step : forall n s sc, wf n s sc -> (2 <= n)%nat -> tau (vars sc) <> 0 ->
  metropolis_for n (fun c => lab_energy n (omega sc) (S_ c) (J_ c)) (metropolis_update_maglab ERNum) sc.
Proof. exact maglab_step. Qed.
Print Assumptions C32_step.
Theorem C32_reported_if_isotropic : forall n s sc, wf n s sc -> (2 <= n)%nat -> tau (vars sc) <> 0 -> isotropic_xy n sc ->
  metropolis_for n (Emaglab n) (metropolis_update_maglab ERNum) sc.
Proof. exact maglab_iso. Qed.
Print Assumptions C32_reported_if_isotropic.
Theorem C32_reported_refuted : exists sc u, wf 4 4 sc /\ unit_spins sc /\ tau (vars sc) <> 0 /\ unit_draw u /\
  ~ metropolis_step 4 (Emaglab 4) (metropolis_update_maglab ERNum) sc 0 0 (1 / 2) u.
Proof. exact maglab_refuted. Qed.
Print Assumptions C32_reported_refuted.
Example C32_case : let sc := ex_chain 3 Dxyplane in wf 4 3 sc /\ (2 <= 4)%nat /\ tau (vars sc) <> 0.
Proof. intro sc. split; [apply (ex_wf 3); lia|]. split; [lia|cbn; lra]. Qed.
Example C32_iso_case : wf 10 6 ten_chain /\ tau (vars ten_chain) <> 0 /\ isotropic_xy 10 ten_chain.
Proof.
  split; [apply ten_wf|]. split; [cbn; lra|]. intros i Hi. do 10 (destruct i as [|i]; [reflexivity|]). lia.
Qed.

(** * C33 *)
Theorem C33_step : forall n s sc, wf n s sc -> (3 <= n)%nat -> tau (vars sc) <> 0 ->
  metropolis_for n (fun c => rot_energy 1 1 n s (omega sc) (S_ c) (J_ c)) (metropolis_update_rot_magnus ERNum) sc.
Proof. exact rot_step. Qed.
Print Assumptions C33_step.
Theorem C33_reported : forall n s sc, wf n s sc -> (2 <= n)%nat -> tau (vars sc) <> 0 ->
  mc_system_energy_rot ERNum (fin sc) = Ok (Some (rot_energy 2 3 n s (omega sc) (S_ sc) (J_ sc) / INR n)).
Proof. exact rot_energy_value. Qed.
Print Assumptions C33_reported.
Theorem C33_reported_if_isotropic : forall n s sc, wf n s sc -> (3 <= n)%nat -> tau (vars sc) <> 0 -> isotropic_xy n sc ->
  metropolis_for n (Erot n) (metropolis_update_rot_magnus ERNum) sc.
Proof. exact rot_iso. Qed.
Print Assumptions C33_reported_if_isotropic.
Theorem C33_reported_refuted : exists sc u, wf 4 4 sc /\ unit_spins sc /\ tau (vars sc) <> 0 /\ unit_draw u /\
  ~ metropolis_step 4 (Erot 4) (metropolis_update_rot_magnus ERNum) sc 0 0 (1 / 2) u.
Proof. exact rot_refuted. Qed.
Print Assumptions C33_reported_refuted.

(** * C34 *)
Theorem C34_no_energy : forall n s sc, wf n s sc -> (3 <= n)%nat -> (1 <= s)%nat -> tau (vars sc) <> 0 -> 0 < beta (vars sc) ->
  ((s < n)%nat /\ (vx (J_ sc (s - 1)) <> 0 \/ vz (J_ sc (s - 1)) <> 0)) \/
  (s = n /\ vx (J_ sc (n - 1)) + vz (J_ sc (n - 1)) <> 0) ->
  ~ samples_some_energy n (metropolis_update_magnus ERNum) sc /\
  forall g, ~ samples_some_energy n (lmagnus g) sc.
Proof. exact no_energy_magnus. Qed.
Print Assumptions C34_no_energy.
(** Away from the two end sites of the subsystem it is a Metropolis step for an energy without a linear term *)
Theorem C34_bulk : forall n s sc, wf n s sc -> (3 <= n)%nat -> (1 <= s)%nat -> tau (vars sc) <> 0 ->
  forall d u1 u2 u, unit_draw u1 -> unit_draw u2 -> unit_draw u ->
  (d mod n <> 0)%nat -> (d mod n <> s - 1)%nat ->
  metropolis_step n (fun c => magnus_energy n s (omega sc) (S_ c) (J_ c)) (metropolis_update_magnus ERNum) sc d u1 u2 u.
Proof. exact magnus_bulk. Qed.
Print Assumptions C34_bulk.
Example C34_case : let sc := ex_chain 3 Dxyplane in wf 4 3 sc /\ tau (vars sc) <> 0 /\ 0 < beta (vars sc) /\ vx (J_ sc (3 - 1)) <> 0.
Proof. intro sc. split; [apply (ex_wf 3); lia|]. cbn. repeat split; lra. Qed.
Example C34_ring_case : let sc := ex_chain 4 Dxyplane in wf 4 4 sc /\ vx (J_ sc (4 - 1)) + vz (J_ sc (4 - 1)) <> 0.
Proof. intro sc. split; [apply (ex_wf 4); lia|]. cbn. lra. Qed.
Example C34_bulk_case : (5 mod 4 <> 0)%nat /\ (5 mod 4 <> 3 - 1)%nat.
Proof. cbn. lia. Qed.

(** * C35 *)
Theorem C35_no_energy : forall n s sc, wf n s sc -> (6 <= n)%nat -> (3 <= s)%nat -> tau (vars sc) <> 0 -> 0 < beta (vars sc) ->
  vx (J_ sc 0) <> 0 -> vx (J_ sc 2) <> 0 ->
  ~ samples_some_energy n (metropolis_update_mag_full ERNum) sc.
Proof. exact magfull_none. Qed.
Print Assumptions C35_no_energy.
Theorem C35_antisymmetric : forall n s sc, wf n s sc -> (3 <= n)%nat -> tau (vars sc) <> 0 ->
  exists D, (forall sp, length sp = n -> uses_change n D (metropolis_update_mag_full ERNum) (with_spins sc sp)) /\
    forall sp i v, length sp = n -> (i < n)%nat ->
      let c := with_spins sc sp in D (moved c i v) i (S_ c i) = - D c i v.
Proof. exact magfull_change. Qed.
Print Assumptions C35_antisymmetric.
Example C35_case : wf 10 6 ten_chain /\ tau (vars ten_chain) <> 0 /\ 0 < beta (vars ten_chain) /\
  vx (J_ ten_chain 0) <> 0 /\ vx (J_ ten_chain 2) <> 0.
Proof. split; [apply ten_wf|]. cbn. repeat split; lra. Qed.

(** * C36 *)
Theorem C36_rejects : forall L, l_exp L S754_nan = S754_nan ->
  forall n s (sc : chain f64) k d, wf n s sc -> (2 <= n)%nat ->
  (let i := (d_idx d mod n)%nat in
   some_nan (spin_at sc ((i + (n - 1)) mod n)) \/ some_nan (spin_at sc i) \/ some_nan (spin_at sc ((i + 1) mod n))) ->
  sample (F64 L) k d sc = Ok sc.
Proof. exact sample_nan_mod. Qed.
Print Assumptions C36_rejects.
Theorem C36_frozen : forall L, l_exp L S754_nan = S754_nan ->
  forall n s i l (sc : chain f64), wf n s sc -> (2 <= n)%nat -> (i < n)%nat -> some_nan (spin_at sc i) ->
  exists sc', samples (F64 L) l sc = Ok sc' /\ wf n s sc' /\
    spin_at sc' i = spin_at sc i /\ spin_at sc' ((i + (n - 1)) mod n) = spin_at sc ((i + (n - 1)) mod n) /\
    spin_at sc' ((i + 1) mod n) = spin_at sc ((i + 1) mod n).
Proof. exact samples_nan_mod. Qed.
Print Assumptions C36_frozen.
Definition nan_chain : chain f64 :=
  let o := f_ofZ 1 in let z := S754_zero false in
  mkChain [mk3 o o o; mk3 o o o; mk3 o o o] [mk3 z z z; mk3 z z z; mk3 z z z]
    [mk3 z z o; mk3 z S754_nan o; mk3 o z z] z
    (mkConfig 3 3 o o 1 o 2 o o [z; z; z] [o; o; o] o o 2 o "log"%string false 0 o 1000 o Dnone true) true.
Definition nan_libm : libm := mkLibm (fun x => x) (fun x => x) (fun x => x) (fun x => x) (fun x => x) (fun x => x) (fun x => x)
  (fun _ _ => (S754_nan, S754_nan)).
Example C36_case : wf 3 3 nan_chain /\ some_nan (spin_at nan_chain 1) /\ l_exp nan_libm S754_nan = S754_nan.
Proof. split; [constructor; cbn; auto; lia|]. split; [right; left; reflexivity|reflexivity]. Qed.

(** * C39 *)
Theorem C39_step : forall n s sc g, wf n s sc -> (2 <= n)%nat ->
  metropolis_for n (fun c => exchange_energy n (S_ c) (J_ c)) (lplain g) sc.
Proof. exact lplain_step'. Qed.
Print Assumptions C39_step.
(** not the reported energy, at any scale: the closing bond is sampled but not reported ... *)
Theorem C39_closing_bond_refuted : forall g, exists sc, wf 4 4 sc /\ unit_spins sc /\
  forall K, exists u, unit_draw u /\
  ~ metropolis_step 4 (fun c => K * val (system_energy ERNum (fin c))) (lplain g) sc 0 0 (1 / 2) u.
Proof. exact closing_refuted. Qed.
Print Assumptions C39_closing_bond_refuted.
(** ... and fields are reported but not sampled *)
Theorem C39_fields_refuted : forall g, exists sc, wf 4 4 sc /\ unit_spins sc /\
  forall K, 0 < K -> exists u, unit_draw u /\
  ~ metropolis_step 4 (fun c => K * val (system_energy ERNum (fin c))) (lplain g) sc 0 0 (1 / 2) u.
Proof. exact fields_refuted. Qed.
Print Assumptions C39_fields_refuted.
