(** Specification vocabulary: the equations of motion of the open chain with damped ends. *)
From Coq Require Import Reals List Arith.
From Verif Require Import Num NumR Config Chain SpecVec SpecChain SpecLang.
Local Open Scope R_scope.

(** Field on site i of an open chain of n sites with the spins [sp] at time [x] *)
Definition open_field (n s : nat) (sc : chain R) (sp : nat -> vec) (x : R) (i : nat) : vec :=
  vsub (vadd (if (i =? 0)%nat then vzero else vhad (J_ sc (i - 1)) (sp (i - 1)%nat))
             (if (i + 1 =? n)%nat then vzero else vhad (J_ sc i) (sp (i + 1)%nat))) (B_ sc s x i).

(** [X] solves the equations of motion for a time [T]: dS/dt = S x Omega inside the chain,
    dS/dt = S x (Omega - g S x Omega) at its two ends, starting from the chain's state *)
Definition bath_solves (n s : nat) (sc : chain R) (g T : R) (X : R -> nat -> vec) : Prop :=
  (forall i, (i < n)%nat -> X (t sc) i = S_ sc i) /\
  forall x i, t sc <= x <= t sc + T -> (i < n)%nat ->
    has_velocity (fun r => X r i) x
      (cross (X x i) (let om := open_field n s sc (X x) x i in
         if ((i =? 0) || (i + 1 =? n))%nat%bool then damped g (X x i) om else om)).
