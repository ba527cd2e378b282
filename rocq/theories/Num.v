(** The arithmetic used by the program, as a record of operations.

    Every function of /repo/src that computes with [f64] is transcribed once,
    over an arbitrary [N : NumOps].  The instances are in [NumR.v] (real
    numbers), [NumER.v] (real numbers with NaN) and [NumF64.v] (IEEE binary64). *)
From Coq Require Import ZArith List.

Record NumOps : Type := mkNumOps {
  num    : Type;
  nadd   : num -> num -> num;      (* a + b *)
  nsub   : num -> num -> num;      (* a - b *)
  nmul   : num -> num -> num;      (* a * b *)
  ndiv   : num -> num -> num;      (* a / b *)
  nopp   : num -> num;             (* -a *)
  nabs   : num -> num;             (* f64::abs *)
  nsqrt  : num -> num;             (* f64::sqrt *)
  nltb   : num -> num -> bool;     (* a < b, false when NaN is involved *)
  ncos   : num -> num;
  nsin   : num -> num;
  natan  : num -> num;
  nacos  : num -> num;
  nexp   : num -> num;
  nln    : num -> num;
  ntanh  : num -> num;
  npi    : num;                    (* std::f64::consts::PI *)
  nofZ   : Z -> num;               (* integer `as f64`, and literals such as 2.0 *)
  nlit   : Z -> nat -> num;        (* decimal literal m * 10^-k *)
  ntou64 : num -> Z;               (* `as u64` / `as usize`: truncate, saturate, NaN -> 0 *)
  nround : num -> num;             (* f64::round, half away from zero *)
  nfinite: num -> bool;            (* f64::is_finite *)
  nfft   : list num -> nat -> num * num
     (* entry k (re, im) of the forward discrete Fourier transform computed by rustfft *)
}.

(** Three-component arrays [[f64; 3]]; a [Spin] is such an array (its only
    field is [dir], /repo/src/spin.rs:6-9). *)
Record v3 (A : Type) : Type := mk3 { vx : A; vy : A; vz : A }.
Arguments mk3 {A} _ _ _.
Arguments vx {A} _.
Arguments vy {A} _.
Arguments vz {A} _.

Definition v3map {A B} (f : A -> B) (v : v3 A) : v3 B := mk3 (f (vx v)) (f (vy v)) (f (vz v)).

(** `for k in 0..3 { body }` over the components of arrays: [body] receives
    the projection `|a| a[k]` and the accumulator. *)
Definition for3 {A S} (body : (v3 A -> A) -> S -> S) (s : S) : S :=
  body vz (body vy (body vx s)).

(** `for k in 0..2 { body }` *)
Definition for2 {A S} (body : (v3 A -> A) -> S -> S) (s : S) : S :=
  body vy (body vx s).

Declare Scope num_scope.
Delimit Scope num_scope with num.
