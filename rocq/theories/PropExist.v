(** C74: the equations of motion have exactly one solution, and the program's steps converge to it. *)
From Coq Require Import Reals Lra Lia List ZArith Arith.
From Verif Require Import Num Monad NumR Spin Config Chain Langevin SpecVec SpecChain SpecMC SpecLang SpecOrder SpecBath Samples ProofsLangE ProofsOrder3 ProofsOrderSamples ProofsBathSamples ProofsExist2.
Local Open Scope R_scope.

(** * C74 *)
Theorem C74_exists : forall n s sc, wf n s sc -> unit_spins sc -> forall T, 0 <= T -> exists X, solves n s sc T X.
Proof. exact ring_exists. Qed.
Print Assumptions C74_exists.
Theorem C74_unique : forall n s sc, wf n s sc -> unit_spins sc -> forall T X Y, solves n s sc T X -> solves n s sc T Y ->
  forall x i, t sc <= x <= t sc + T -> (i < n)%nat -> X x i = Y x i.
Proof. exact ring_unique. Qed.
Print Assumptions C74_unique.
Theorem C74_unit : forall n s sc, wf n s sc -> unit_spins sc -> forall T X, solves n s sc T X ->
  forall x i, t sc <= x <= t sc + T -> (i < n)%nat -> unit3 (X x i).
Proof. exact ring_unit. Qed.
Print Assumptions C74_unit.
Example C74_case : wf 2 2 swing_chain /\ unit_spins swing_chain /\ forall T, solves 2 2 swing_chain T swing_motion.
Proof. exact (conj swing_wf (conj swing_unit swing_solves)). Qed.

Theorem C74_bath_exists : forall n s sc, wf n s sc -> unit_spins sc -> (2 <= n)%nat -> forall g T, 0 <= T -> exists X, bath_solves n s sc g T X.
Proof. exact bath_exists. Qed.
Print Assumptions C74_bath_exists.
Theorem C74_bath_unique : forall n s sc, wf n s sc -> unit_spins sc -> (2 <= n)%nat -> forall g T X Y, bath_solves n s sc g T X -> bath_solves n s sc g T Y ->
  forall x i, t sc <= x <= t sc + T -> (i < n)%nat -> X x i = Y x i.
Proof. exact bath_unique. Qed.
Print Assumptions C74_bath_unique.
Example C74_bath_case : forall g c, wf 2 1 (fall_chain c) /\ unit_spins (fall_chain c) /\ forall T, bath_solves 2 1 (fall_chain c) g T (fall_motion g c).
Proof. intros g c. exact (conj (fall_wf c) (conj (fall_unit c) (fall_solves g c))). Qed.

(** The program against that solution; no motion is assumed *)
Theorem C74_limit : forall n s sc, wf n s sc -> unit_spins sc -> (2 <= n)%nat -> (n mod 2 = 0)%nat -> drive_ok (vars sc) ->
  forall T, 0 <= T -> exists X K, solves n s sc T X /\ forall dt k sc', 0 < dt -> INR k * dt <= T ->
    iterM (update ERNum) k (fin (with_dt sc dt)) = Ok (fin sc') ->
    forall i, (i < n)%nat -> norm (vsub (S_ sc' i) (X (t sc + INR k * dt) i)) <= K * dt ^ 2.
Proof. exact ring_limit. Qed.
Print Assumptions C74_limit.
Theorem C74_bath_limit : forall n s sc, wf n s sc -> unit_spins sc -> (2 <= n)%nat -> (n mod 2 = 0)%nat -> drive_ok (vars sc) ->
  forall g T, 0 <= T -> exists X K, bath_solves n s sc g T X /\ forall dt zs sc' g', 0 < dt -> Forall (quiet g) zs -> INR (length zs) * dt <= T ->
    lrun zs (lfin (with_dt sc dt) g) = Ok (lfin sc' g') ->
    forall i, (i < n)%nat -> norm (vsub (S_ sc' i) (X (t sc + INR (length zs) * dt) i)) <= K * dt.
Proof. exact bath_limit. Qed.
Print Assumptions C74_bath_limit.

(** Two runs to the same time with different steps *)
Theorem C74_refine : forall n s sc, wf n s sc -> unit_spins sc -> (2 <= n)%nat -> (n mod 2 = 0)%nat -> drive_ok (vars sc) ->
  forall T, 0 <= T -> exists K, forall dt dt' k k' sc1 sc2, 0 < dt -> 0 < dt' -> INR k * dt <= T -> INR k * dt = INR k' * dt' ->
    iterM (update ERNum) k (fin (with_dt sc dt)) = Ok (fin sc1) -> iterM (update ERNum) k' (fin (with_dt sc dt')) = Ok (fin sc2) ->
    forall i, (i < n)%nat -> norm (vsub (S_ sc1 i) (S_ sc2 i)) <= K * (dt ^ 2 + dt' ^ 2).
Proof. exact ring_refine. Qed.
Print Assumptions C74_refine.
Example C74_refine_case : wf 2 1 pair_chain /\ unit_spins pair_chain /\ drive_ok (vars pair_chain) /\
  exists d, 0 < d /\ forall dt k, 0 < dt < d -> INR k * dt <= 1 -> exists sc', iterM (update ERNum) k (fin (with_dt pair_chain dt)) = Ok (fin sc').
Proof.
  exact (conj pair_wf (conj pair_unit (conj I (short_steps 2 1 pair_chain 1 pair_motion pair_wf (le_n 2) eq_refl I pair_unit ltac:(lra)
    (pair_solves 1) (fun x i _ H => pair_field_nz x i H))))).
Qed.
Theorem C74_bath_refine : forall n s sc, wf n s sc -> unit_spins sc -> (2 <= n)%nat -> (n mod 2 = 0)%nat -> drive_ok (vars sc) ->
  forall g T, 0 <= T -> exists K, forall dt dt' zs zs' sc1 g1 sc2 g2, 0 < dt -> 0 < dt' -> Forall (quiet g) zs -> Forall (quiet g) zs' ->
    INR (length zs) * dt <= T -> INR (length zs) * dt = INR (length zs') * dt' ->
    lrun zs (lfin (with_dt sc dt) g) = Ok (lfin sc1 g1) -> lrun zs' (lfin (with_dt sc dt') g) = Ok (lfin sc2 g2) ->
    forall i, (i < n)%nat -> norm (vsub (S_ sc1 i) (S_ sc2 i)) <= K * (dt + dt').
Proof. exact bath_refine. Qed.
Print Assumptions C74_bath_refine.
