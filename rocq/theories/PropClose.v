(** C86: binary64 runs stay close to exact runs and to the motion. *)
From Coq Require Import Reals List ZArith Arith.
From Verif Require Import Num Monad NumR NumF64 Spin Config Chain SpecVec SpecChain SpecRound SpecOrder SpecClose
  ProofsOrderSamples ProofsClose6 ProofsCloseSamples ProofsClose7.
Local Open Scope R_scope.

(** * C86 *)
(** One rotation, beside the precession about the same field *)
Theorem C86_rotate : forall L s field dt (C : R -> vec), accurate L -> near_unit (powerRZ 2 (-50)) s -> mid_range field -> is_number dt ->
  norm (vvalue field) * Rabs (value dt) <= 1000000 ->
  C 0 = vvalue s -> (forall x, has_velocity C x (cross (C x) (vvalue field))) ->
  near_unit (powerRZ 2 (-50)) (rotate (F64 L) s field dt) /\
  off (rotate (F64 L) s field dt) (C (value dt)) <= powerRZ 2 (-39) * (1 + norm (vvalue field) * Rabs (value dt)).
Proof. exact rotate_curve. Qed.
Print Assumptions C86_rotate.
Example C86_library : accurate good_libm.
Proof. exact good_accurate. Qed.

(** The constant the drives use *)
Theorem C86_pi : forall L, Rabs (value (npi (F64 L)) - PI) <= powerRZ 2 (-51).
Proof. exact pi_value. Qed.
Print Assumptions C86_pi.

(** Any number of steps, beside the steps with exact numbers *)
Theorem C86_steps : forall L, accurate L -> forall n s cF c k d, wf n s cF -> wf n s c -> (2 <= n)%nat -> same_model cF c ->
  mild_sites cF -> mild_drive cF -> plain_dt (c_dt (vars cF)) -> INR k <= powerRZ 2 50 ->
  Forall (near_unit (powerRZ 2 (-50))) (spins cF) -> unit_spins c -> spins_within n d cF c -> strong_z cF ->
  exists cF' c', iterM (update (F64 L)) k cF = Ok cF' /\ iterM (update ERNum) k (fin c) = Ok (fin c') /\
    spins_within n (rounding cF d k) cF' c'.
Proof. exact close_steps. Qed.
Print Assumptions C86_steps.
Example C86_steps_case : wf 3 2 drivenF /\ wf 3 2 driven /\ same_model drivenF driven /\ mild_sites drivenF /\ mild_drive drivenF /\ strong_z drivenF /\
  plain_dt (c_dt (vars drivenF)) /\ Forall (near_unit (powerRZ 2 (-50))) (spins drivenF) /\ unit_spins driven /\ spins_within 3 0 drivenF driven.
Proof. exact driven_ok. Qed.
Example C86_steps_eight : exists c F, iterM (update (F64 good_libm)) 8 drivenF = Ok F /\ iterM (update ERNum) 8 (fin driven) = Ok (fin c) /\
  spins_within 3 (powerRZ 2 (-25)) F c.
Proof. exact driven_near. Qed.

(** Any number of steps, beside the motion *)
Theorem C86_motion : forall n s c T X m, wf n s c -> (2 <= n)%nat -> (n mod 2 = 0)%nat -> drive_ok (vars c) -> unit_spins c ->
  0 <= T -> solves n s c T X -> 0 < m ->
  (forall x i, t c <= x <= t c + T -> (i < n)%nat -> m <= norm (field_at n s c (X x) x i)) ->
  exists K d0, 0 < d0 /\ forall L cF dt k d, accurate L -> wf n s cF -> same_model cF (with_dt c dt) ->
    mild_sites cF -> mild_drive cF -> plain_dt (c_dt (vars cF)) -> INR k <= powerRZ 2 50 ->
    Forall (near_unit (powerRZ 2 (-50))) (spins cF) -> spins_within n d cF c ->
    dt < d0 -> INR k * dt <= T -> rounding cF d k + powerRZ 2 (-44) * drift cF k <= m / 32 ->
    exists cF', iterM (update (F64 L)) k cF = Ok cF' /\
      forall i, (i < n)%nat -> off (fspin cF' i) (X (t c + INR k * dt) i) <= K * dt ^ 2 + rounding cF d k.
Proof. exact close_motion. Qed.
Print Assumptions C86_motion.
Example C86_motion_case : wf 2 1 pair_chain /\ unit_spins pair_chain /\ drive_ok (vars pair_chain) /\ solves 2 1 pair_chain 1 pair_motion /\
  (forall x i, (i < 2)%nat -> 2 <= norm (field_at 2 1 pair_chain (pair_motion x) x i)) /\
  forall x, plain_dt x -> wf 2 1 (pairF x) /\ same_model (pairF x) (with_dt pair_chain (value x)) /\ mild_sites (pairF x) /\ mild_drive (pairF x) /\
    plain_dt (c_dt (vars (pairF x))) /\ Forall (near_unit (powerRZ 2 (-50))) (spins (pairF x)) /\ spins_within 2 0 (pairF x) pair_chain.
Proof. exact (conj pair_wf (conj pair_unit (conj I (conj (pair_solves 1) (conj pair_field_len pairF_ok))))). Qed.
Example C86_motion_pair : exists K d0, 0 < d0 /\ forall L x k, accurate L -> plain_dt x -> value x < d0 -> INR k * value x <= 1 -> INR k <= powerRZ 2 24 ->
  exists F, iterM (update (F64 L)) k (pairF x) = Ok F /\
    forall i, (i < 2)%nat -> off (fspin F i) (pair_motion (INR k * value x) i) <= K * value x ^ 2 + (INR k * powerRZ 2 (-30) + powerRZ 2 (-25)).
Proof. exact pair_near. Qed.
