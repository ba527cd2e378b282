(** C73: the step of the chain with baths at its ends follows the damped equations of motion to first order in the time step. *)
From Coq Require Import Reals Lra Lia List ZArith Arith.
From Verif Require Import Num Monad NumR Spin Config Chain Langevin SpecVec SpecChain SpecMC SpecLang SpecBath Samples ProofsLangE ProofsOrderSamples ProofsBath ProofsBath2 ProofsBathSamples.
Local Open Scope R_scope.

(** * C73 *)
Theorem C73_order : forall n s sc g T X, wf n s sc -> (2 <= n)%nat -> (n mod 2 = 0)%nat -> drive_ok (vars sc) -> unit_spins sc ->
  0 <= T -> bath_solves n s sc g T X ->
  exists K, forall dt zs sc' g', 0 < dt -> Forall (quiet g) zs -> INR (length zs) * dt <= T ->
    lrun zs (lfin (with_dt sc dt) g) = Ok (lfin sc' g') ->
    forall i, (i < n)%nat -> norm (vsub (S_ sc' i) (X (t sc + INR (length zs) * dt) i)) <= K * dt.
Proof. exact run_order. Qed.
Print Assumptions C73_order.
Example C73_order_damped : forall g c T, wf 2 1 (fall_chain c) /\ unit_spins (fall_chain c) /\ drive_ok (vars (fall_chain c)) /\
  bath_solves 2 1 (fall_chain c) g T (fall_motion g c).
Proof. intros g c T. exact (conj (fall_wf c) (conj (fall_unit c) (conj fall_drive (fall_solves g c T)))). Qed.
Example C73_order_driven : forall T, wf 2 2 swing_chain /\ unit_spins swing_chain /\ drive_ok (vars swing_chain) /\
  bath_solves 2 2 swing_chain 0 T swing_motion.
Proof. intro T. exact (conj swing_wf (conj swing_unit (conj swing_drive (swing_bath T)))). Qed.

(** Without bath and without drive the order is two *)
Theorem C73_isolated : forall n s sc T X, wf n s sc -> (2 <= n)%nat -> (n mod 2 = 0)%nat -> drive_ok (vars sc) -> unit_spins sc ->
  0 <= T -> bath_solves n s sc 0 T X -> undriven (vars sc) ->
  exists K, forall dt zs sc' g', 0 < dt -> Forall (quiet 0) zs -> INR (length zs) * dt <= T ->
    lrun zs (lfin (with_dt sc dt) 0) = Ok (lfin sc' g') ->
    forall i, (i < n)%nat -> norm (vsub (S_ sc' i) (X (t sc + INR (length zs) * dt) i)) <= K * dt ^ 2.
Proof. exact iso_order. Qed.
Print Assumptions C73_isolated.
Example C73_isolated_case : forall c T, undriven (vars (fall_chain c)) /\ bath_solves 2 1 (fall_chain c) 0 T (fall_motion 0 c).
Proof. intros c T. exact (conj (or_introl eq_refl) (fall_solves 0 c T)). Qed.

Theorem C73_completes : forall n s sc g T X, wf n s sc -> (2 <= n)%nat -> (n mod 2 = 0)%nat -> drive_ok (vars sc) -> unit_spins sc ->
  0 <= T -> bath_solves n s sc g T X -> beta (vars sc) <> 0 -> 0 <= g / beta (vars sc) ->
  (forall x i, t sc <= x <= t sc + T -> (i < n)%nat -> open_field n s sc (X x) x i <> vzero) ->
  exists d, 0 < d /\ forall dt zs, 0 < dt < d -> Forall (quiet g) zs -> INR (length zs) * dt <= T ->
    exists sc', lrun zs (lfin (with_dt sc dt) g) = Ok (lfin sc' g).
Proof. exact run_completes. Qed.
Print Assumptions C73_completes.
Example C73_completes_case : forall g c x i, (i < 2)%nat -> open_field 2 1 (fall_chain c) (fall_motion g c x) x i <> vzero.
Proof. intros g c x i H. exact (fall_field c (fall_motion g c x) x i H). Qed.

(** The drive is taken at the end of the step: with a drive the order is one even without bath *)
Theorem C73_drive_sharp : exists n s sc X, wf n s sc /\ (2 <= n)%nat /\ (n mod 2 = 0)%nat /\ drive_ok (vars sc) /\ unit_spins sc /\
  bath_solves n s sc 0 (/ 4) X /\ exists c, 0 < c /\ forall zs, (1 <= length zs)%nat -> Forall (quiet 0) zs -> exists sc' i, (i < n)%nat /\
    lrun zs (lfin (with_dt sc (/ 4 / INR (length zs))) 0) = Ok (lfin sc' 0) /\
    c * (/ 4 / INR (length zs)) <= norm (vsub (S_ sc' i) (X (t sc + / 4) i)).
Proof. exact drive_order_one. Qed.
Print Assumptions C73_drive_sharp.

(** The damping field is taken at the beginning of the rotation: with a bath the order is one even without drive *)
Theorem C73_damped_sharp : exists n s sc g X, wf n s sc /\ (2 <= n)%nat /\ (n mod 2 = 0)%nat /\ undriven (vars sc) /\ unit_spins sc /\ 0 < g /\
  bath_solves n s sc g 1 X /\ exists c m, 0 < c /\ forall zs, (m <= length zs)%nat -> Forall (quiet g) zs -> exists sc' i, (i < n)%nat /\
    lrun zs (lfin (with_dt sc (/ INR (length zs))) g) = Ok (lfin sc' g) /\
    c * / INR (length zs) <= norm (vsub (S_ sc' i) (X (t sc + 1) i)).
Proof. exact damped_order_one. Qed.
Print Assumptions C73_damped_sharp.
