(** Specification vocabulary: the equations of motion of the driven ring. *)
From Coq Require Import Reals List Arith.
From Verif Require Import Num NumR Config Chain SpecVec SpecChain.
Local Open Scope R_scope.

(** Field on site i of a ring of n sites with the spins [sp] at time [x] *)
Definition field_at (n s : nat) (sc : chain R) (sp : nat -> vec) (x : R) (i : nat) : vec :=
  vsub (vadd (vhad (J_ sc ((i + (n - 1)) mod n)) (sp ((i + (n - 1)) mod n)))
             (vhad (J_ sc i) (sp ((i + 1) mod n)))) (B_ sc s x i).

(** [X] solves dS_i/dt = S_i x Omega_i for a time [T], starting from the chain's state *)
Definition solves (n s : nat) (sc : chain R) (T : R) (X : R -> nat -> vec) : Prop :=
  (forall i, (i < n)%nat -> X (t sc) i = S_ sc i) /\
  forall x i, t sc <= x <= t sc + T -> (i < n)%nat ->
    has_velocity (fun r => X r i) x (cross (X x i) (field_at n s sc (X x) x i)).
