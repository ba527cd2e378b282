(** Specification vocabulary: vectors of R^3 and finite data embedded in the
    numbers-with-NaN.  Independent of the program model except for the record type [v3]. *)
From Coq Require Import Reals List.
From Verif Require Import Num NumR.
Import ListNotations.
Local Open Scope R_scope.

Definition vec : Type := v3 R.

Definition dot (a b : vec) : R := vx a * vx b + vy a * vy b + vz a * vz b.
Definition cross (a b : vec) : vec :=
  mk3 (vy a * vz b - vz a * vy b) (vz a * vx b - vx a * vz b) (vx a * vy b - vy a * vx b).
Definition vadd (a b : vec) : vec := mk3 (vx a + vx b) (vy a + vy b) (vz a + vz b).
Definition vsub (a b : vec) : vec := mk3 (vx a - vx b) (vy a - vy b) (vz a - vz b).
Definition vscale (c : R) (a : vec) : vec := mk3 (c * vx a) (c * vy a) (c * vz a).
Definition vhad (a b : vec) : vec := mk3 (vx a * vx b) (vy a * vy b) (vz a * vz b).
Definition vzero : vec := mk3 0 0 0.
Definition norm (a : vec) : R := sqrt (dot a a).
Definition unit3 (a : vec) : Prop := dot a a = 1.

(** All components are numbers *)
Definition fin3 (v : vec) : v3 ER := v3map Some v.
(** All components are NaN *)
Definition nan3 : v3 ER := mk3 None None None.

(** The curve [c] has velocity [w] at [x], component by component *)
Definition has_velocity (c : R -> vec) (x : R) (w : vec) : Prop :=
  derivable_pt_lim (fun r => vx (c r)) x (vx w) /\
  derivable_pt_lim (fun r => vy (c r)) x (vy w) /\
  derivable_pt_lim (fun r => vz (c r)) x (vz w).

(** The direction with azimuth [th] and polar angle [ph] *)
Definition dirn (th ph : R) : vec := mk3 (cos th * sin ph) (sin th * sin ph) (cos ph).

(** Sum of squares of a list of numbers *)
Fixpoint sumsq (l : list R) : R := match l with [] => 0 | x :: r => x * x + sumsq r end.
