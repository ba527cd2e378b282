(** IEEE-754 binary64 instance of [NumOps], by the standard library's [SpecFloat]
    (radix 2, precision 53, emax 1024, round to nearest even; one NaN).  The
    transcendental functions, which Rust takes from the platform's maths library, are a
    parameter. *)
From Coq Require Import ZArith List Bool.
From Coq Require Import Floats.SpecFloat.
From Verif Require Import Num.
Import ListNotations.
Local Open Scope Z_scope.

Definition f64 : Type := spec_float.
Definition fprec : Z := 53.
Definition femax : Z := 1024.

Definition f_ofZ (z : Z) : f64 := binary_normalize fprec femax z 0 false.
Definition f_add : f64 -> f64 -> f64 := SFadd fprec femax.
Definition f_sub : f64 -> f64 -> f64 := SFsub fprec femax.
Definition f_mul : f64 -> f64 -> f64 := SFmul fprec femax.
Definition f_div : f64 -> f64 -> f64 := SFdiv fprec femax.
Definition f_sqrt : f64 -> f64 := SFsqrt fprec femax.

(** m * 10^-k, correctly rounded when m and 10^k are exact (|m| < 2^53, k <= 22),
    which holds for every literal in the program. *)
Definition f_lit (m : Z) (k : nat) : f64 := f_div (f_ofZ m) (f_ofZ (10 ^ Z.of_nat k)).

(** std::f64::consts::PI = 3.14159265358979311599796346854 = 7074237752028440 * 2^-51 *)
Definition f_pi : f64 := S754_finite false 7074237752028440 (-51).

(** `as u64` *)
Definition f_tou64 (x : f64) : Z :=
  match x with
  | S754_nan | S754_zero _ | S754_infinity true => 0
  | S754_infinity false => 2 ^ 64 - 1
  | S754_finite true _ _ => 0
  | S754_finite false m e =>
      Z.min (2 ^ 64 - 1)
        (match e with
         | Zneg p => Z.pos m / 2 ^ Z.pos p
         | _ => Z.pos m * 2 ^ e
         end)
  end.

(** f64::round *)
Definition f_round (x : f64) : f64 :=
  match x with
  | S754_finite s m (Zneg p) =>
      let q := (2 * Z.pos m + 2 ^ Z.pos p) / (2 ^ (Z.pos p + 1)) in
      binary_normalize fprec femax (if s then - q else q) 0 s
  | _ => x
  end.

Definition f_finite (x : f64) : bool :=
  match x with S754_zero _ | S754_finite _ _ _ => true | _ => false end.

Record libm : Type := mkLibm {
  l_cos : f64 -> f64; l_sin : f64 -> f64; l_atan : f64 -> f64; l_acos : f64 -> f64;
  l_exp : f64 -> f64; l_ln : f64 -> f64; l_tanh : f64 -> f64;
  l_fft : list f64 -> nat -> f64 * f64
}.

Definition F64 (L : libm) : NumOps := {|
  num := f64; nadd := f_add; nsub := f_sub; nmul := f_mul; ndiv := f_div; nopp := SFopp;
  nabs := SFabs; nsqrt := f_sqrt; nltb := SFltb; ncos := l_cos L; nsin := l_sin L;
  natan := l_atan L; nacos := l_acos L; nexp := l_exp L; nln := l_ln L; ntanh := l_tanh L;
  npi := f_pi; nofZ := f_ofZ; nlit := f_lit; ntou64 := f_tou64; nround := f_round;
  nfinite := f_finite; nfft := l_fft L |}.
