(** Response runs: chains on which the evolution without static fields never meets a vanishing field. *)
From Coq Require Import String Reals Lra Lia List ZArith Arith Bool.
From Verif Require Import Num Monad NumR Spin Config Chain SpecVec SpecChain SpecResponse Samples
  ProofsSpin ProofsChain ProofsEnergy ProofsDrive ProofsNew ProofsResponse ProofsDyn ProofsDynR ProofsDyn2 ProofsDyn3 ProofsDyn4.
Import ListNotations.
Local Open Scope R_scope.
Lemma forced_om n s sc (S : nat -> vec) Jm x p :
  0 <= Jm ->
  (forall i, (i < n)%nat -> Rabs (vx (J_ sc i)) <= Jm /\ Rabs (vy (J_ sc i)) <= Jm /\ Rabs (vz (J_ sc i)) <= Jm) ->
  (forall i, (i < n)%nat -> 2 * Jm < norm (B_ sc s x i)) ->
  (forall i, (i < 2 * (n / 2))%nat -> unit3 (S i)) ->
  (p < 2 * (n / 2))%nat -> om (2 * (n / 2)) S (J_ sc) (B_ sc s x) p <> vzero.
Proof.
  intros HJ0 HJ Hh HS Hp E. set (M := (2 * (n / 2))%nat) in *. assert (M <= n)%nat by (unfold M; lia).
  pose proof (lft_lt M p Hp) as L. pose proof (rgt_lt M p Hp) as Rg.
  set (a := vhad (J_ sc (lft M p)) (S (lft M p))). set (b := vhad (J_ sc p) (S (rgt M p))).
  assert (Ea : norm a <= Jm).
  { destruct (HJ (lft M p) ltac:(lia)) as (A1 & A2 & A3).
    pose proof (norm_vhad_le (J_ sc (lft M p)) (S (lft M p)) Jm HJ0 A1 A2 A3) as Q.
    rewrite (unit3_norm (S (lft M p))) in Q by auto. unfold a. lra. }
  assert (Eb : norm b <= Jm).
  { destruct (HJ p ltac:(lia)) as (A1 & A2 & A3).
    pose proof (norm_vhad_le (J_ sc p) (S (rgt M p)) Jm HJ0 A1 A2 A3) as Q.
    rewrite (unit3_norm (S (rgt M p))) in Q by auto. unfold b. lra. }
  assert (EB : B_ sc s x p = vadd a b).
  { unfold om in E. fold a b in E. pose proof (f_equal vx E). pose proof (f_equal vy E). pose proof (f_equal vz E).
    cbn in *. apply v3_ext; cbn; lra. }
  assert (NB : norm (B_ sc s x p) <= 2 * Jm) by (rewrite EB; pose proof (norm_triangle a b); lra).
  specialize (Hh p ltac:(lia)). lra.
Qed.
Lemma forced_run n s sc Jm : wf n s sc -> (2 <= n)%nat -> drive_ok (vars sc) -> unit_spins sc -> 0 <= Jm ->
  (forall i, (i < n)%nat -> Rabs (vx (J_ sc i)) <= Jm /\ Rabs (vy (J_ sc i)) <= Jm /\ Rabs (vz (J_ sc i)) <= Jm) ->
  (forall i x, (i < n)%nat -> 2 * Jm < norm (B_ sc s x i)) ->
  forall k, exists sc', iterM (update ERNum) k (fin sc) = Ok (fin sc').
Proof.
  intros W Hn Hok Hu HJ0 HJ Hh k. exists (evol n s k sc).
  apply iter_ER_ok; auto. intros j _. change (Nat.iter j (stepR n s) sc) with (evol n s j sc).
  pose proof (proj1 (unit_spins_iff n s _ (wf_evol n s j sc W)) (unit_evol n s j sc W Hu)) as HU.
  unfold nvc. rewrite J_evol, B_evol, vars_evol. set (M := (2 * (n / 2))%nat).
  assert (UM : forall i, (i < M)%nat -> unit3 (S_ (evol n s j sc) i)) by (intros; apply HU; unfold M in *; lia).
  unfold nv; cbv zeta. split; [|split]; intros p Hp; apply onsub_spec in Hp; destruct Hp as [Hp _];
    apply (forced_om n s sc) with (Jm := Jm); auto.
  - apply stage_unit. assumption.
  - apply stage_unit. apply stage_unit. assumption.
Qed.

(** Four sites with static fields, all of them in the subsystem, with the constant drive (10, 0, -1) *)
Definition kept_conf : config R :=
  mkConfig 4 4 256 (2/100) 2 0 2 10 (1/2) [0; 0; 1/4] [10; 0; -1] (1/1000) 0 2 (-66/100)
    "log"%string false 0 (288/100) 1000 (9/10) Dstaticfield true.
Definition kept_chain : chain R :=
  mkChain (j_couple (ex_chain 4 Dstaticfield)) (static_h (ex_chain 4 Dstaticfield)) (spins (ex_chain 4 Dstaticfield)) (-1) kept_conf true.
Lemma kept_runs k : exists sc', iterM (update_no_field ERNum) k (fin kept_chain) = Ok (fin sc').
Proof.
  rewrite iter_no_field, free_fin.
  destruct (forced_run 4 4 (freeR kept_chain) 2) with (k := k) as (c & E).
  - apply free_wf. constructor; cbn; auto; lia.
  - lia.
  - unfold drive_ok; cbn. lia.
  - apply (ex_unit 4 Dstaticfield).
  - lra.
  - intros [|[|[|[|i]]]] Hi; try lia; cbn; repeat split; apply Rabs_le; lra.
  - intros i x Hi. rewrite B_free. unfold drive_only. destruct (Nat.ltb_spec i 4); [|lia]. apply Rlt_le_trans with 10; [lra|]. apply norm_ge_comp. cbn. left. rewrite Rabs_right; lra.
  - rewrite E. cbn [bind]. exists (with_static c (static_h kept_chain)). reflexivity.
Qed.
