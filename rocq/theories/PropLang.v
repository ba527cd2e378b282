(** Theorems about the Langevin step: properties C37 and C38.
    [lfin sc g] is the chain [sc] of real data with bath coupling [g], seen in exact arithmetic
    with NaN.  Results of the form [Ok (lfin sc' g')] say that no NaN was produced. *)
From Coq Require Import Reals List ZArith Lra Lia.
From Verif Require Import Num Monad NumR Spin Config Chain Langevin SpecVec SpecChain SpecMC SpecLang Samples
  ProofsSpin ProofsDyn4 ProofsLang ProofsLangE.
Import ListNotations.
Local Open Scope R_scope.

(** * C37 *)
(** Any number type, any draws: only spins and clock change; the last spin of an odd chain is
    frozen.  [lsigma] is the standard deviation sqrt(2 gamma dt / beta). *)
Theorem C37_frame : forall (N : NumOps) n s zs (sc : lchain (num N)), wf n s (base sc) -> (2 <= n)%nat ->
  hs_ok (vars (base sc)) ->
  nfinite N (nsqrt N (ndiv N (nmul N (nmul N (nofZ N 2) (gamma sc)) (c_dt (vars (base sc)))) (beta (vars (base sc))))) = true ->
  exists sp', lruns N zs sc = Ok (mkL (mkChain (j_couple (base sc)) (static_h (base sc)) sp'
     (Nat.iter (length zs) (fun x => nadd N x (c_dt (vars (base sc)))) (t (base sc))) (vars (base sc)) (has_file (base sc)))
     (gamma sc)) /\ length sp' = n /\
     forall p, (2 * (n / 2) <= p)%nat -> nth_error sp' p = nth_error (spins (base sc)) p.
Proof. exact lruns_frame. Qed.
Print Assumptions C37_frame.
(** Whatever the chain contains, a finite spin after the step is a unit vector *)
Theorem C37_unit : forall n s zl zr (c c' : lchain (num ERNum)), wf n s (base c) -> (2 <= n)%nat ->
  hs_ok (vars (base c)) -> lupdate ERNum zl zr c = Ok c' ->
  forall p v, (p < 2 * (n / 2))%nat -> nth p (spins (base c')) nan3 = fin3 v -> unit3 v.
Proof. exact lupdate_unit. Qed.
Print Assumptions C37_unit.
(** No bath: the open-chain energy is conserved whatever the draws *)
Theorem C37_energy_conserved : forall n s x zs sc sc' g', wf n s sc -> (2 <= n)%nat -> (n mod 2 = 0)%nat ->
  drive_ok (vars sc) -> unit_spins sc -> undriven (vars sc) ->
  lrun zs (lfin sc 0) = Ok (lfin sc' g') ->
  open_energy n (S_ sc') (J_ sc') (B_ sc' s x) = open_energy n (S_ sc) (J_ sc) (B_ sc s x).
Proof. exact lrun_conserve. Qed.
Print Assumptions C37_energy_conserved.
(** Static fields stronger than couplings and drive: quiet runs of every length succeed *)
Theorem C37_strong_field : forall n s Jm, (2 <= n)%nat -> (n mod 2 = 0)%nat -> 0 <= Jm ->
  forall g zs, Forall (quiet g) zs -> forall sc, wf n s sc -> drive_ok (vars sc) -> unit_spins sc ->
  (forall i, (i < n)%nat -> Rabs (vx (J_ sc i)) <= Jm /\ Rabs (vy (J_ sc i)) <= Jm /\ Rabs (vz (J_ sc i)) <= Jm) ->
  (forall i, (i < n)%nat -> 2 * Jm + drive_amp (vars sc) < norm (h_ sc i)) ->
  c_dt (vars sc) <> 0 -> beta (vars sc) <> 0 -> 0 <= 2 * g * c_dt (vars sc) / beta (vars sc) ->
  exists sc', lrun zs (lfin sc g) = Ok (lfin sc' g) /\ unit_spins sc'.
Proof. exact lrun_strong. Qed.
Print Assumptions C37_strong_field.
(** Where the step panics *)
Theorem C37_panic_noise : forall n s zl zr sc g, wf n s sc -> drive_ok (vars sc) ->
  beta (vars sc) = 0 \/ 2 * g * c_dt (vars sc) / beta (vars sc) < 0 ->
  lupdate ERNum zl zr (lfin sc g) = Panic Unwrap.
Proof. exact lupdate_negative. Qed.
Print Assumptions C37_panic_noise.
Theorem C37_panic_short : forall (N : NumOps) n s zl zr (sc : lchain (num N)), wf n s (base sc) -> (n < 2)%nat ->
  hs_ok (vars (base sc)) -> exists p, lupdate N zl zr sc = Panic p.
Proof. exact lupdate_short. Qed.
Print Assumptions C37_panic_short.
Example C37_case : forall s dr g zs, (s <= 4)%nat -> 0 <= g -> Forall (quiet g) zs ->
  wf 4 s (strong_chain (Z.of_nat s) dr) /\ unit_spins (strong_chain (Z.of_nat s) dr) /\
  drive_ok (vars (strong_chain (Z.of_nat s) dr)) /\
  exists sc', lrun zs (lfin (strong_chain (Z.of_nat s) dr) g) = Ok (lfin sc' g) /\ unit_spins sc'.
Proof.
  intros s dr g zs H Hg Hz. split; [apply strong_wf; exact H|]. split; [apply ex_unit|]. split; [apply ex_drive|].
  apply strong_lruns; assumption.
Qed.
Example C37_case_draws : Forall (quiet 0) [(fin3 (mk3 1 2 3), fin3 (mk3 (-1) 0 5)); (fin3 (mk3 0 2 0), fin3 (mk3 1 1 1))].
Proof. repeat constructor; eexists; eexists; (split; [reflexivity|left; reflexivity]). Qed.

(** * C38 *)
(** The energy -S.Omega of an end spin rotated for a time [d] without noise: exact change *)
Theorem C38_exact : forall g dt d j so h s s', unit3 s -> dt <> 0 ->
  rotate ERNum (fin3 s) (end_omega ERNum (Some g) (Some dt) (fin3 vzero) (fin3 j) (fin3 so) (fin3 h) (fin3 s)) (Some d) = fin3 s' ->
  let om := vsub (vhad j so) h in
  let f := norm (damped g s om) in
  dot s' om - dot s om =
    g * (dot om om - dot s om * dot s om) / f * (sin (f * d) - (1 - cos (f * d)) * (g * dot s om) / f).
Proof. exact end_exact. Qed.
Print Assumptions C38_exact.
Theorem C38_never_raises : forall g dt d j so h s s', unit3 s -> dt <> 0 -> 0 <= g -> 0 <= d ->
  let om := vsub (vhad j so) h in
  norm (damped g s om) * d <= PI / 2 -> g * norm om * d <= 1 ->
  rotate ERNum (fin3 s) (end_omega ERNum (Some g) (Some dt) (fin3 vzero) (fin3 j) (fin3 so) (fin3 h) (fin3 s)) (Some d) = fin3 s' ->
  - dot s' om <= - dot s om.
Proof. exact end_le. Qed.
Print Assumptions C38_never_raises.
Theorem C38_strictly_lowers : forall g dt d j so h s, unit3 s -> dt <> 0 -> 0 < g -> 0 < d ->
  let om := vsub (vhad j so) h in
  cross s om <> vzero -> norm (damped g s om) * d < PI / 2 -> g * norm om * d < 1 ->
  exists s', rotate ERNum (fin3 s) (end_omega ERNum (Some g) (Some dt) (fin3 vzero) (fin3 j) (fin3 so) (fin3 h) (fin3 s)) (Some d) = fin3 s' /\
  unit3 s' /\ - dot s' om < - dot s om.
Proof. exact end_lt. Qed.
Print Assumptions C38_strictly_lowers.
(** The whole chain: with zero noise and a small step the open-chain energy never rises *)
Theorem C38_chain : forall n s x Jm Hm k sc sc' g g', wf n s sc -> (2 <= n)%nat -> (n mod 2 = 0)%nat ->
  drive_ok (vars sc) -> unit_spins sc -> undriven (vars sc) -> 0 <= g -> 0 < c_dt (vars sc) -> 0 <= Jm ->
  (forall i, i = 0%nat \/ i = (n - 2)%nat ->
     Rabs (vx (J_ sc i)) <= Jm /\ Rabs (vy (J_ sc i)) <= Jm /\ Rabs (vz (J_ sc i)) <= Jm) ->
  norm (B_ sc s x 0) <= Hm -> norm (B_ sc s x (n - 1)) <= Hm ->
  sqrt (1 + g * g) * (Jm + Hm) * c_dt (vars sc) <= PI / 2 -> g * (Jm + Hm) * c_dt (vars sc) <= 1 ->
  lrun (repeat (fin3 vzero, fin3 vzero) k) (lfin sc g) = Ok (lfin sc' g') ->
  open_energy n (S_ sc') (J_ sc') (B_ sc' s x) <= open_energy n (S_ sc) (J_ sc) (B_ sc s x).
Proof. exact lrun_dissipate_b. Qed.
Print Assumptions C38_chain.
(** Without the bound on the step the claim is false *)
Theorem C38_long_step_refuted : exists g dt j so h s s', unit3 s /\ 0 < g /\ 0 < dt /\
  rotate ERNum (fin3 s) (end_omega ERNum (Some g) (Some dt) (fin3 vzero) (fin3 j) (fin3 so) (fin3 h) (fin3 s)) (Some dt) = fin3 s' /\
  - dot s (vsub (vhad j so) h) < - dot s' (vsub (vhad j so) h).
Proof. exact long_step. Qed.
Print Assumptions C38_long_step_refuted.
(** The bounds hold for a spin at right angles to a unit field with gamma = 1, dt = 1/10 ... *)
Example C38_case : let s := mk3 1 0 0 in let om := vsub (vhad (mk3 1 1 1) (mk3 0 0 1)) vzero in
  unit3 s /\ cross s om <> vzero /\ norm (damped 1 s om) * (1/10) < PI / 2 /\ 1 * norm om * (1/10) < 1.
Proof.
  cbv zeta. pose proof PI2_3_2 as HPI. split; [unfold unit3, dot; cbn; ring|]. split.
  { intro E. apply (f_equal vy) in E. cbn in E. lra. }
  split.
  - apply Rle_lt_trans with (2 * (1/10)); [|unfold Rdiv in *; lra]. apply Rmult_le_compat_r; [lra|].
    apply ProofsLangR.norm_le; [lra|]. unfold dot; cbn. lra.
  - apply Rle_lt_trans with (1 * 2 * (1/10)); [|lra]. apply Rmult_le_compat_r; [lra|].
    apply Rmult_le_compat_l; [lra|]. apply ProofsLangR.norm_le; [lra|]. unfold dot; cbn. lra.
Qed.
(** ... and for the sample chain with its step 1/50 *)
Example C38_case_chain : let sc := strong_chain 4 Dnone in
  undriven (vars sc) /\ 0 < c_dt (vars sc) /\
  (forall i, i = 0%nat \/ i = (4 - 2)%nat ->
     Rabs (vx (J_ sc i)) <= 2 /\ Rabs (vy (J_ sc i)) <= 2 /\ Rabs (vz (J_ sc i)) <= 2) /\
  norm (B_ sc 4 0 0) <= 20 /\ norm (B_ sc 4 0 (4 - 1)) <= 20 /\
  sqrt (1 + 1 * 1) * (2 + 20) * c_dt (vars sc) <= PI / 2 /\ 1 * (2 + 20) * c_dt (vars sc) <= 1.
Proof.
  cbv zeta. pose proof PI2_3_2 as HPI. split; [left; reflexivity|]. split; [cbn; lra|]. split.
  { intros i [-> | ->]; cbn; repeat split; apply Rabs_le; lra. }
  split; [apply ProofsLangR.norm_le; [lra|]; unfold dot; cbn; lra|].
  split; [apply ProofsLangR.norm_le; [lra|]; unfold dot; cbn; lra|].
  split; [|cbn; lra].
  assert (sqrt (1 + 1 * 1) <= 2).
  { apply Rsqr_incr_0_var; [|lra]. unfold Rsqr. rewrite sqrt_sqrt; lra. }
  cbn. lra.
Qed.
