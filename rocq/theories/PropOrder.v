(** C72: the dynamical step follows the equations of motion to second order in the time step. *)
From Coq Require Import Reals Lra Lia List ZArith Arith.
From Verif Require Import Num Monad NumR Spin Config Chain SpecVec SpecChain SpecOrder Samples ProofsOrder3 ProofsOrderSamples.
Local Open Scope R_scope.

(** * C72 *)
Theorem C72_order : forall n s sc T X, wf n s sc -> (2 <= n)%nat -> (n mod 2 = 0)%nat -> drive_ok (vars sc) -> unit_spins sc ->
  0 <= T -> solves n s sc T X ->
  exists K, forall dt k sc', 0 < dt -> INR k * dt <= T ->
    iterM (update ERNum) k (fin (with_dt sc dt)) = Ok (fin sc') ->
    forall i, (i < n)%nat -> norm (vsub (S_ sc' i) (X (t sc + INR k * dt) i)) <= K * dt ^ 2.
Proof. exact second_order. Qed.
Print Assumptions C72_order.
Example C72_order_pair : forall T, wf 2 1 pair_chain /\ unit_spins pair_chain /\ drive_ok (vars pair_chain) /\
  solves 2 1 pair_chain T pair_motion.
Proof. intro T. exact (conj pair_wf (conj pair_unit (conj I (pair_solves T)))). Qed.
Example C72_order_driven : forall T, wf 2 2 swing_chain /\ unit_spins swing_chain /\ drive_ok (vars swing_chain) /\
  solves 2 2 swing_chain T swing_motion.
Proof. intro T. exact (conj swing_wf (conj swing_unit (conj swing_drive (swing_solves T)))). Qed.

Theorem C72_step : forall n s sc T X, wf n s sc -> (2 <= n)%nat -> (n mod 2 = 0)%nat -> drive_ok (vars sc) -> unit_spins sc ->
  solves n s sc T X ->
  exists K, forall dt sc', 0 < dt -> dt <= T -> update ERNum (fin (with_dt sc dt)) = Ok (fin sc') ->
    forall i, (i < n)%nat -> norm (vsub (S_ sc' i) (X (t sc + dt) i)) <= K * dt ^ 3.
Proof. exact third_order_step. Qed.
Print Assumptions C72_step.

Theorem C72_completes : forall n s sc T X, wf n s sc -> (2 <= n)%nat -> (n mod 2 = 0)%nat -> drive_ok (vars sc) -> unit_spins sc ->
  0 <= T -> solves n s sc T X ->
  (forall x i, t sc <= x <= t sc + T -> (i < n)%nat -> field_at n s sc (X x) x i <> vzero) ->
  exists d, 0 < d /\ forall dt k, 0 < dt < d -> INR k * dt <= T ->
    exists sc', iterM (update ERNum) k (fin (with_dt sc dt)) = Ok (fin sc').
Proof. exact short_steps. Qed.
Print Assumptions C72_completes.
Example C72_completes_pair : forall x i, (i < 2)%nat -> field_at 2 1 pair_chain (pair_motion x) x i <> vzero.
Proof. exact pair_field_nz. Qed.

(** The order is not higher than two *)
Theorem C72_sharp : exists n s sc X, wf n s sc /\ (2 <= n)%nat /\ (n mod 2 = 0)%nat /\ drive_ok (vars sc) /\ unit_spins sc /\
  solves n s sc 1 X /\ exists c, 0 < c /\ forall k, (2 <= k)%nat -> exists sc' i, (i < n)%nat /\
    iterM (update ERNum) k (fin (with_dt sc (/ INR k))) = Ok (fin sc') /\
    c * (/ INR k) ^ 2 <= norm (vsub (S_ sc' i) (X (t sc + 1) i)).
Proof. exact exactly_two. Qed.
Print Assumptions C72_sharp.
