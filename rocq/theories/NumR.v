(** Real-number instances of [NumOps].

    [RNum]: total operations on R, used inside proofs only.
    [ERNum]: [option R], exact reals with NaN ([None]).  Division by zero, the square root
    of a negative number, acos outside [-1,1], the logarithm of a non-positive number give
    NaN (IEEE would give an infinity for x/0 with x<>0 and for ln 0; infinities are merged
    into NaN, so results here are numbers only where IEEE results are finite or where an
    infinity would have been turned back into a number).  Nothing is rounded. *)
From Coq Require Import Reals ZArith List.
From Verif Require Import Num.
Import ListNotations.
Local Open Scope R_scope.

(** floor *)
Definition Rfloor (r : R) : Z := (up r - 1)%Z.

Definition Rltb (a b : R) : bool := if Rlt_dec a b then true else false.

Definition Rto_u64 (r : R) : Z := Z.max 0 (Z.min (2 ^ 64 - 1) (Rfloor r)).

Definition Rround (r : R) : R :=
  if Rlt_dec r 0 then - IZR (Rfloor (- r + 1 / 2)) else IZR (Rfloor (r + 1 / 2)).

(** sum_j f j x_j *)
Fixpoint wsum (f : nat -> R) (j : nat) (l : list R) : R :=
  match l with
  | [] => 0
  | x :: r => x * f j + wsum f (S j) r
  end.

(** Entry k of the forward DFT of a real sequence x_0..x_{n-1}:
    sum_j x_j exp(-2 pi i j k / n), as (re, im). *)
Definition Rdft (l : list R) (k : nat) : R * R :=
  let n := INR (length l) in
  (wsum (fun j => cos (2 * PI * INR j * INR k / n)) 0 l,
   - wsum (fun j => sin (2 * PI * INR j * INR k / n)) 0 l).

Definition RNum : NumOps := {|
  num := R; nadd := Rplus; nsub := Rminus; nmul := Rmult; ndiv := Rdiv; nopp := Ropp;
  nabs := Rabs; nsqrt := sqrt; nltb := Rltb; ncos := cos; nsin := sin; natan := atan;
  nacos := acos; nexp := exp; nln := ln; ntanh := tanh; npi := PI; nofZ := IZR;
  nlit := fun m k => IZR m / IZR (10 ^ Z.of_nat k);
  ntou64 := Rto_u64; nround := Rround; nfinite := fun _ => true; nfft := Rdft |}.

Definition ER : Type := option R.

Definition er1 (f : R -> R) (a : ER) : ER := option_map f a.
Definition er2 (f : R -> R -> R) (a b : ER) : ER :=
  match a, b with Some x, Some y => Some (f x y) | _, _ => None end.

Definition er_div (a b : ER) : ER :=
  match a, b with
  | Some x, Some y => if Req_EM_T y 0 then None else Some (x / y)
  | _, _ => None
  end.
Definition er_sqrt (a : ER) : ER :=
  match a with
  | Some x => if Rlt_dec x 0 then None else Some (sqrt x)
  | None => None
  end.
Definition er_acos (a : ER) : ER :=
  match a with
  | Some x => if Rlt_dec x (-1) then None else if Rlt_dec 1 x then None else Some (acos x)
  | None => None
  end.
Definition er_ln (a : ER) : ER :=
  match a with
  | Some x => if Rlt_dec 0 x then Some (ln x) else None
  | None => None
  end.
Definition er_ltb (a b : ER) : bool :=
  match a, b with Some x, Some y => Rltb x y | _, _ => false end.

Fixpoint all_some (l : list ER) : option (list R) :=
  match l with
  | [] => Some []
  | Some x :: r => option_map (cons x) (all_some r)
  | None :: _ => None
  end.

Definition ERNum : NumOps := {|
  num := ER; nadd := er2 Rplus; nsub := er2 Rminus; nmul := er2 Rmult; ndiv := er_div;
  nopp := er1 Ropp; nabs := er1 Rabs; nsqrt := er_sqrt; nltb := er_ltb; ncos := er1 cos;
  nsin := er1 sin; natan := er1 atan; nacos := er_acos; nexp := er1 exp; nln := er_ln;
  ntanh := er1 tanh; npi := Some PI; nofZ := fun z => Some (IZR z);
  nlit := fun m k => Some (IZR m / IZR (10 ^ Z.of_nat k));
  ntou64 := fun a => match a with Some r => Rto_u64 r | None => 0%Z end;
  nround := er1 Rround;
  nfinite := fun a => match a with Some _ => true | None => false end;
  nfft := fun l k => match all_some l with
                     | Some l' => (Some (fst (Rdft l' k)), Some (snd (Rdft l' k)))
                     | None => (None, None)
                     end |}.
