(** Specification for rounding errors: the real value of a binary64 number, vectors close to the
    unit sphere, and what is asked of the maths library. *)
From Coq Require Import ZArith Reals Bool List.
From Coq Require Import Floats.SpecFloat.
From Verif Require Import Num NumF64 Config Chain SpecVec.
Local Open Scope R_scope.

(** (-1)^s m 2^e; infinities and NaN have no value (0 here, always used with [is_number]) *)
Definition value (x : f64) : R :=
  match x with
  | S754_finite s m e => (if s then -1 else 1) * IZR (Z.pos m) * powerRZ 2 e
  | _ => 0
  end.
(** a finite number of the binary64 format *)
Definition is_number (x : f64) : Prop := valid_binary fprec femax x = true /\ f_finite x = true.
Definition is_vector (v : v3 f64) : Prop := is_number (vx v) /\ is_number (vy v) /\ is_number (vz v).
Definition vvalue (v : v3 f64) : vec := mk3 (value (vx v)) (value (vy v)) (value (vz v)).
Definition len2 (v : v3 f64) : R := dot (vvalue v) (vvalue v).
(** squared length within [d] of one *)
Definition near_unit (d : R) (v : v3 f64) : Prop := is_vector v /\ Rabs (len2 v - 1) <= d.

(** squared length neither near overflow nor near underflow *)
Definition mid_range (v : v3 f64) : Prop :=
  is_vector v /\ powerRZ 2 (-900) <= len2 v <= powerRZ 2 900.

(** All that is asked of sin and cos: numbers in [-1,1] whose squares add up to at least 1/2 *)
Definition sane (L : libm) : Prop := forall x, is_number x ->
  is_number (l_cos L x) /\ is_number (l_sin L x) /\
  Rabs (value (l_cos L x)) <= 1 /\ Rabs (value (l_sin L x)) <= 1 /\
  1 / 2 <= value (l_cos L x) * value (l_cos L x) + value (l_sin L x) * value (l_sin L x).

(** every component at most [B] in size *)
Definition comp_le (B : R) (v : v3 f64) : Prop :=
  Rabs (value (vx v)) <= B /\ Rabs (value (vy v)) <= B /\ Rabs (value (vz v)) <= B.
(** Every local field is bounded away from zero whatever the spins do: couplings at most 1, field
    components at most 8, and a z field of at least 4. *)
Definition strong_sites (sc : chain f64) : Prop :=
  Forall (fun J => is_vector J /\ comp_le 1 J) (j_couple sc) /\
  Forall (fun h => is_vector h /\ comp_le 8 h /\ 4 <= Rabs (value (vz h))) (static_h sc).
