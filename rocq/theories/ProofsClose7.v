(** The rounded rotation beside the precession curve, and runs of known size. *)
From Coq Require Import ZArith Reals List Lia Lra Psatz Bool Arith.
From Coq Require Import Floats.SpecFloat.
From Flocq Require Import Core.
From Verif Require Import Num Monad NumR NumF64 Spin Config Chain SpecVec SpecChain SpecRound SpecClose SpecOrder Samples
  ProofsSpin ProofsFlocq ProofsRound ProofsOrder ProofsOrder3 ProofsOrderSamples ProofsTurn ProofsPi ProofsClose ProofsClose6 ProofsCloseSamples.
Local Open Scope R_scope.

Lemma mid_nz f : mid_range f -> vvalue f <> vzero.
Proof.
  intros (_ & H & _) E. unfold len2 in H. rewrite E in H. replace (dot vzero vzero) with 0 in H by (unfold dot; cbn; ring).
  rewrite pow_bpow in H. pose proof (bpow_gt_0 radix2 (-900)). lra.
Qed.
Lemma rotate_curve L s field dt (C : R -> vec) : accurate L -> near_unit (powerRZ 2 (-50)) s -> mid_range field -> is_number dt ->
  norm (vvalue field) * Rabs (value dt) <= 1000000 ->
  C 0 = vvalue s -> (forall x, has_velocity C x (cross (C x) (vvalue field))) ->
  near_unit (powerRZ 2 (-50)) (rotate (F64 L) s field dt) /\
  off (rotate (F64 L) s field dt) (C (value dt)) <= powerRZ 2 (-39) * (1 + norm (vvalue field) * Rabs (value dt)).
Proof.
  intros HL Hs Hf Hdt Hb H0 HC. destruct (rotate_close L s field dt HL Hs Hf Hdt Hb) as [A B]. split; [exact A|].
  replace (C (value dt)) with (turn (vvalue s) (vvalue field) (value dt)); [exact B|].
  apply (precession_unique (fun x => turn (vvalue s) (vvalue field) x) C (vvalue field)); [| |exact HC].
  - rewrite H0. unfold turn. rewrite Rmult_0_r. apply rodr_0.
  - intro x. pose proof (rodr_velocity (vvalue s) (nrm (vvalue field)) (norm (vvalue field)) x (nrm_unit _ (mid_nz _ Hf))) as V.
    rewrite nrm_back in V. exact V.
Qed.
Lemma pi_value L : Rabs (value (npi (F64 L)) - PI) <= powerRZ 2 (-51).
Proof.
  replace (value (npi (F64 L))) with (7074237752028440 / 2251799813685248).
  - rewrite pow_bpow. cbn. exact pi_close.
  - change (npi (F64 L)) with f_pi. let y := eval vm_compute in f_pi in change f_pi with y. unfold value. rewrite pow_bpow. cbn. lra.
Qed.

Lemma exp_4 : exp 4 <= 81.
Proof.
  replace 4 with (1 + 1 + (1 + 1)) by lra. rewrite !exp_plus. pose proof exp_le_3 as A. pose proof (exp_pos 1) as B.
  replace 81 with (3 * 3 * (3 * 3)) by lra. apply Rmult_le_compat; try (apply Rmult_le_compat; lra); apply Rmult_le_pos; lra.
Qed.
(** A unit of time or less *)
Lemma rounding_small c k : INR k * value (c_dt (vars c)) <= 1 -> 0 <= value (c_dt (vars c)) -> 0 <= drift c k ->
  rounding c 0 k <= 81 * (INR k * powerRZ 2 (-37) + (powerRZ 2 (-32) + powerRZ 2 (-44) * drift c k)).
Proof.
  intros H1 H0 HD. unfold rounding. set (T := INR k * value (c_dt (vars c))) in *. set (D := drift c k) in *.
  assert (T0 : 0 <= T) by (apply Rmult_le_pos; [apply pos_INR|exact H0]).
  rewrite !pow_bpow. pose proof (bpow_gt_0 radix2 (-37)). pose proof (bpow_gt_0 radix2 (-32)). pose proof (bpow_gt_0 radix2 (-44)).
  assert (P1 : 0 <= INR k * bpow radix2 (-37)) by (apply Rmult_le_pos; [apply pos_INR|lra]).
  assert (P2 : 0 <= bpow radix2 (-32) + bpow radix2 (-44) * D) by (assert (0 <= bpow radix2 (-44) * D) by (apply Rmult_le_pos; lra); lra).
  assert (P3 : T * (bpow radix2 (-32) + bpow radix2 (-44) * D) <= 1 * (bpow radix2 (-32) + bpow radix2 (-44) * D)) by (apply Rmult_le_compat_r; lra).
  assert (P4 : 0 <= T * (bpow radix2 (-32) + bpow radix2 (-44) * D)) by (apply Rmult_le_pos; lra).
  apply Rmult_le_compat; [left; apply exp_pos|lra| |lra].
  apply Rle_trans with (exp 4); [|apply exp_4]. destruct (Rle_lt_or_eq_dec (4 * T) 4) as [E|E]; [lra|left; apply exp_increasing; exact E|rewrite E; lra].
Qed.

Lemma driven_near : exists c F, iterM (update (F64 good_libm)) 8 drivenF = Ok F /\ iterM (update ERNum) 8 (fin driven) = Ok (fin c) /\
  spins_within 3 (powerRZ 2 (-25)) F c.
Proof.
  destruct driven_ok as (A1 & A2 & A3 & A4 & A5 & A6 & A7 & A8 & A9 & A10).
  assert (Edt : value (c_dt (vars drivenF)) = / 8) by fval_tac.
  assert (E8 : INR 8 = 8) by (cbn; lra).
  destruct (close_steps good_libm good_accurate 3 2 drivenF driven 8 0 A1 A2 ltac:(lia) A3 A4 A5 A7) as (F & c & R1 & R2 & R3); auto.
  { rewrite pow_bpow, E8. cbn. lra. }
  exists c, F. split; [exact R1|]. split; [exact R2|]. intros i Hi. eapply Rle_trans; [exact (R3 i Hi)|].
  assert (D : drift drivenF 8 = 8 / 5).
  { change (INR 8 * ((Rabs (value (t drivenF)) + INR 8 * value (c_dt (vars drivenF)) + 1) / Rabs (value (tau (vars drivenF)))) = 8 / 5).
    rewrite E8, Edt. assert (T0 : value (t drivenF) = 0) by fval_tac. assert (T1 : value (tau (vars drivenF)) = 10) by fval_tac.
    rewrite T0, T1, Rabs_R0, (Rabs_pos_eq 10) by lra. lra. }
  eapply Rle_trans; [apply rounding_small; rewrite ?Edt, ?D, ?E8; lra|].
  rewrite D, E8, !pow_bpow. cbn. lra.
Qed.

Lemma pair_field_len x i : (i < 2)%nat -> 2 <= norm (field_at 2 1 pair_chain (pair_motion x) x i).
Proof.
  intro Hi. rewrite pair_field by exact Hi.
  assert (U : unit3 (pair_motion x (1 - i))).
  { apply rodr_unit; [apply nrm_unit, pair_axis_nz|]. destruct i as [|[|i]]; unfold unit3, dot; cbn; lra. }
  rewrite norm_vscale. unfold norm. rewrite U, sqrt_1, Rabs_pos_eq by lra. lra.
Qed.
Lemma pair_near : exists K d0, 0 < d0 /\ forall L x k, accurate L -> plain_dt x -> value x < d0 -> INR k * value x <= 1 -> INR k <= powerRZ 2 24 ->
  exists F, iterM (update (F64 L)) k (pairF x) = Ok F /\
    forall i, (i < 2)%nat -> off (fspin F i) (pair_motion (INR k * value x) i) <= K * value x ^ 2 + (INR k * powerRZ 2 (-30) + powerRZ 2 (-25)).
Proof.
  destruct (close_motion 2 1 pair_chain 1 pair_motion 2 pair_wf (le_n 2) eq_refl I pair_unit Rle_0_1 (pair_solves 1) ltac:(lra)
    (fun x i _ => pair_field_len x i)) as (K & d0 & Hd0 & H).
  exists K, d0. split; [exact Hd0|]. intros L x k HL Hx Hlt H1 Hk.
  destruct (pairF_ok x Hx) as (A1 & A2 & A3 & A4 & A5 & A6 & A7).
  assert (D : drift (pairF x) k = 0) by reflexivity.
  assert (X0 : 0 <= value x) by (destruct Hx as [_ [Hx _]]; rewrite pow_bpow in Hx; pose proof (bpow_gt_0 radix2 (-1000)); lra).
  assert (RS : rounding (pairF x) 0 k <= INR k * powerRZ 2 (-30) + powerRZ 2 (-25)).
  { eapply Rle_trans; [apply rounding_small; [exact H1|exact X0|rewrite D; lra]|]. rewrite D, !pow_bpow. cbn. pose proof (pos_INR k). lra. }
  destruct (H L (pairF x) (value x) k 0 HL A1 A2 A3 A4 A5) as (F & E & B); auto.
  - rewrite pow_bpow in *. cbn in *. lra.
  - rewrite D. rewrite !pow_bpow in *. cbn in *. lra.
  - exists F. split; [exact E|]. intros i Hi. specialize (B i Hi). cbn [pair_chain t] in B. rewrite Rplus_0_l in B. lra.
Qed.
