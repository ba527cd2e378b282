(** The concrete case shown beside the theorems about whole invocations. *)
From Coq Require Import String SpecFloat Reals Lra Lia List ZArith Arith Bool.
From Verif Require Import Num Monad NumR NumF64 Spin Config Chain Langevin Fit Files Toml Writers Average Runs Main SpecVec SpecChain SpecTotal SpecToml SpecWriters SpecRuns SpecFit SpecMain SpecReady
  ProofsRunSamples ProofsReady.
Import ListNotations.
Local Close Scope R_scope.
Local Open Scope nat_scope.

(** Draws that are all one half, messages in the order of the threads *)
Definition ex_draws (N : NumOps) : draws N :=
  let h := nlit N 5 1 in mkDraws (mkNewDraw (fun _ => (h, h, h)) (fun _ => mk3 h h h) (fun _ => mk3 h h h)) (fun k => mkDraw k h h h).
Definition ex_rng (N : NumOps) : rng N :=
  let z := nofZ N 0 in mkRng N (fun _ => ex_draws N) (fun _ _ => (mk3 z z z, mk3 z z z)) (fun l => concat l) (fun l => concat l) (fun l => concat l) (fun _ => ""%string).
Definition ex_world (N : NumOps) : world N := mkWorld N (fun _ => ex_rng N) (fun _ => ex_draws N).

(** A command line with -b 2, -t 8, --steps 2 and every mode that is sure to complete:
    config-desc, ext, n-steps 4 20, adiab_full 5, rot, maglab, fit, fit-effective, high-freq, adiabatic 6, dynhist 3, magnus 7,
    singletraj 2, mc, mcprofile, mcfull, langevin 1, response *)
Definition ex_all (N : NumOps) : args (num N) :=
  let e := nopp N (nlit N 66 2) in
  mkArgs (Some (nofZ N 8)) false (Some (nofZ N 2)) true true false true None (Some (Some 3%Z)) (Some (Some 2%Z)) (Some None) (Some (Some 7%Z))
    true (Some [nofZ N 4; nofZ N 20]) (Some (nofZ N 6)) (Some (nofZ N 5)) (Some e) true (Some e) (Some 2%Z) (Some e) (Some e) true false (Some e).
Definition ex_empty (N : NumOps) : fs (num N) := mkFs Missing [].
Definition ex_fuel : nat := Z.to_nat 30000.

Lemma ex_all_selected N : selected (ex_all N) =
  [Mdesc; Mext; Mtau; Madiab2; Mrot; Mmaglab; Mfit; Mfiteff; Mhigh; Madiabatic; Mdynhist; Mmagnus; Mtraj; Mmc; Mmcprofile; Mmcfull; Mlangevin; Mresponse].
Proof. reflexivity. Qed.

Definition steps N (m : Z) (dt x : num N) : num N := Z.iter m (fun y => nadd N y dt) x.
Lemma steps_iter N m dt x : Nat.iter (Z.to_nat m) (fun y => nadd N y dt) x = steps N m dt x.
Proof. destruct m as [|p|p]; [reflexivity| |reflexivity]. cbn [steps Z.to_nat]. unfold steps. cbn [Z.iter]. symmetry. apply Pos2Nat.inj_iter. Qed.
Definition endsb N (x dt tmax : num N) (m fuel : Z) : bool := (m <=? fuel)%Z && negb (nltb N (steps N m dt x) tmax).
Lemma endsb_ends N x dt tmax m fuel : endsb N x dt tmax m fuel = true -> ends N x dt tmax (Z.to_nat fuel).
Proof.
  unfold endsb. intros H. apply andb_prop in H. destruct H as [A B]. exists (Z.to_nat m). split; [lia|]. rewrite steps_iter. now apply negb_true_iff in B.
Qed.
Definition periodb N (dt x : num N) : bool :=
  let q := ndiv N x dt in ((1 <=? ntou64 N q) && (99 * ntou64 N q <? 2 ^ 64) && (1 <=? ntou64 N (nround N q)))%Z.
Lemma periodb_ok N dt x : periodb N dt x = true -> period_ok N dt x.
Proof. unfold periodb, period_ok. cbv zeta. intros H. apply andb_prop in H. destruct H as [H C]. apply andb_prop in H. destruct H as [A B]. lia. Qed.
Definition trajb N (r dt x : num N) (samples : Z) (m fuel : Z) : bool :=
  endsb N (steps N (ntou64 N (ndiv N (nmul N (nofZ N 30) x) dt)) dt (nopp N r)) dt (nmul N (nadd N (nofZ N samples) (nofZ N 30)) x) m fuel.
Lemma trajb_ends N r dt x samples m fuel : trajb N r dt x samples m fuel = true -> traj_ends N r dt x samples (Z.to_nat fuel).
Proof. unfold trajb, traj_ends. intros H. apply endsb_ends in H. rewrite steps_iter. exact H. Qed.

Lemma ex_msgs N : forall ws, interleaving ws (r_msgs N (w_rng N (ex_world N) Mmcprofile) ws).
Proof. intros ws. exact (concat_interleaving ws). Qed.
Lemma ex_ready L : ready (F64 L) ex_fuel (ex_world (F64 L)) (ex_all (F64 L)) (config_default (F64 L)).
Proof.
  constructor.
  - auto.
  - discriminate.
  - assert (A : nfinite (F64 L) (nlit (F64 L) 1 3) = true) by (vm_compute; reflexivity).
    assert (B : nfinite (F64 L) (nofZ (F64 L) 0) = true) by (vm_compute; reflexivity).
    unfold conf_ok, config_default. cbn [hsize ssize runs threads mc_points jvar hvar hfield hs length]. repeat split; try exact A; try exact B; lia.
  - cbn. lia.
  - intros z H. injection H as <-. lia.
  - unfold ex_fuel. lia.
  - intros o b H1 H2. injection H1 as <-. injection H2 as <-. vm_compute. reflexivity.
  - assert (G : forall x, periodb (F64 L) (c_dt (config_default (F64 L))) x = true -> trajb (F64 L) (trel (config_default (F64 L))) (c_dt (config_default (F64 L))) x 2 900 30000 = true ->
      period_ok (F64 L) (c_dt (config_default (F64 L))) x /\
      forall o, a_singletraj (ex_all (F64 L)) = Some o -> traj_ends (F64 L) (trel (config_default (F64 L))) (c_dt (config_default (F64 L))) x (match o with Some z => Z.of_nat (Z.to_nat z) | None => 1000 end) ex_fuel).
    { intros x P1 P2. split; [exact (periodb_ok _ _ _ P1)|]. intros o H. injection H as <-. exact (trajb_ends _ _ _ _ _ _ _ P2). }
    intros x [->|[H|H]]; [|injection H as <-|injection H as <-]; apply G; vm_cast_no_check (eq_refl true).
  - intros l x H. injection H as <-. intros [<-|[<-|[]]]; apply endsb_ends with (m := 401%Z); vm_cast_no_check (eq_refl true).
  - apply endsb_ends with (m := 12801%Z). vm_cast_no_check (eq_refl true).
  - intros _. apply endsb_ends with (m := 25601%Z). vm_cast_no_check (eq_refl true).
  - exact (ex_msgs (F64 L)).
Qed.
Lemma ex_read L : exists f, read_config (F64 L) (ex_empty (F64 L)) = Ok (config_default (F64 L), f).
Proof. eexists. vm_compute. reflexivity. Qed.
Lemma ex_all_runs L : exists st, main (F64 L) ex_fuel (ex_world (F64 L)) (ex_all (F64 L)) (ex_empty (F64 L)) = Ok st.
Proof. destruct (ex_read L) as [f E]. exact (ready_completes _ _ _ _ _ _ _ (binary64 L) E (ex_ready L)). Qed.

(** `-t 8 -b 2`, without and with -l *)
Definition ex_some (N : NumOps) (l : option (option (num N))) : args (num N) :=
  mkArgs (Some (nofZ N 8)) false (Some (nofZ N 2)) false false false false None None None l None
    false None None None None false None None None None false false None.
Lemma ex_some_ready L l : l = None \/ l = Some None -> ready (F64 L) ex_fuel (ex_world (F64 L)) (ex_some (F64 L) l) (config_default (F64 L)).
Proof.
  intros Hl. pose proof (ex_ready L) as [R1 R2 R3 R4 R5 R6 R7 R8 R9 R10 R11 R12]. constructor.
  - auto.
  - discriminate.
  - exact R3.
  - exact R4.
  - intros z H. discriminate H.
  - exact R6.
  - intros o b H1 H2. destruct Hl as [->| ->]; [discriminate H1|]. exact (R7 o b H1 H2).
  - intros x [Hx|[H|H]]; try discriminate H. destruct (R8 x (or_introl Hx)) as [A _]. split; [exact A|]. intros o H. discriminate H.
  - intros l' x H. discriminate H.
  - exact R10.
  - intros H. discriminate H.
  - exact R12.
Qed.
Lemma ex_some_runs L l : l = None \/ l = Some None -> exists st, main (F64 L) ex_fuel (ex_world (F64 L)) (ex_some (F64 L) l) (ex_empty (F64 L)) = Ok st.
Proof. intros Hl. destruct (ex_read L) as [f E]. exact (ready_completes _ _ _ _ _ _ _ (binary64 L) E (ex_some_ready L l Hl)). Qed.

Lemma trace_split {A B} (l : list (A * B)) p m q m' r : map fst l = p ++ m :: q ++ m' :: r ->
  exists l1 c l2 c', l = l1 ++ (m, c) :: l2 /\ map fst l1 = p /\ In (m', c') l2.
Proof.
  revert p; induction l as [|[x c] l IH]; intros p H; [destruct p; discriminate H|]. destruct p as [|y p]; cbn in H; injection H as -> H.
  - assert (I : In m' (map fst l)) by (rewrite H; apply in_app_iff; right; left; reflexivity). apply in_map_iff in I. destruct I as ([z c'] & E & I). cbn in E. subst z.
    exists [], c, l, c'. repeat split. exact I.
  - destruct (IH p H) as (l1 & c1 & l2 & c2 & -> & <- & I). exists ((y, c) :: l1), c1, l2, c2. repeat split. exact I.
Qed.

(** `-b 2 -M` *)
Definition ex_mc (N : NumOps) : args (num N) :=
  mkArgs None false (Some (nofZ N 2)) true false false false None None None None None
    false None None None None false None None None None false false None.
Lemma ex_mc_runs L : exists st, main (F64 L) ex_fuel (ex_world (F64 L)) (ex_mc (F64 L)) (ex_empty (F64 L)) = Ok st.
Proof.
  destruct (ex_read L) as [f E]. refine (ready_completes _ _ _ _ _ _ _ (binary64 L) E _).
  pose proof (ex_ready L) as [R1 R2 R3 R4 R5 R6 R7 R8 R9 R10 R11 R12]. constructor.
  - auto.
  - discriminate.
  - exact R3.
  - exact R4.
  - intros z H. discriminate H.
  - exact R6.
  - intros o b H1 H2. discriminate H1.
  - intros x [Hx|[H|H]]; try discriminate H. subst x. split; [|intros o H; discriminate H]. apply periodb_ok. vm_cast_no_check (eq_refl true).
  - intros l' x H. discriminate H.
  - exact R10.
  - intros H. discriminate H.
  - exact R12.
Qed.
