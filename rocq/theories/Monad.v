(** Results with panics.  A Rust panic (out-of-bounds index, integer overflow in
    the debug profile, [unwrap] on an error, empty [gen_range], division by zero)
    is an explicit value; an unbounded loop that has not finished within the
    given fuel is [OutOfFuel]. *)
From Coq Require Import ZArith List Arith Bool.
Import ListNotations.

Inductive panic : Type :=
| IndexOOB        (* index or slice out of bounds *)
| Overflow        (* integer overflow / underflow, debug profile *)
| DivByZero       (* integer division or remainder by zero *)
| EmptyRange      (* rand: gen_range on an empty range *)
| Unwrap          (* unwrap() on None / Err *)
| Explicit.       (* panic!() *)

Inductive res (A : Type) : Type :=
| Ok (a : A)
| Panic (p : panic)
| OutOfFuel.
Arguments Ok {A} a.
Arguments Panic {A} p.
Arguments OutOfFuel {A}.

Definition bind {A B} (x : res A) (f : A -> res B) : res B :=
  match x with
  | Ok a => f a
  | Panic p => Panic p
  | OutOfFuel => OutOfFuel
  end.

Notation "'let*' x ':=' e 'in' k" := (bind e (fun x => k))
  (at level 200, x name, e at level 100, k at level 200, right associativity).
Notation "'let*' ' p ':=' e 'in' k" := (bind e (fun x => match x with p => k end))
  (at level 200, p pattern, e at level 100, k at level 200, right associativity).

(** `v[i]` *)
Definition idx {A} (l : list A) (i : nat) : res A :=
  match nth_error l i with
  | Some a => Ok a
  | None => Panic IndexOOB
  end.

(** `a - b` on usize *)
Definition usub (a b : nat) : res nat :=
  if a <? b then Panic Overflow else Ok (a - b).

(** `&v[..s]` *)
Definition slice_to {A} (s : nat) (l : list A) : res (list A) :=
  if length l <? s then Panic IndexOOB else Ok (firstn s l).

(** `v[i] = x` *)
Fixpoint upd {A} (l : list A) (i : nat) (x : A) : list A :=
  match l, i with
  | [], _ => []
  | _ :: t, O => x :: t
  | a :: t, S i => a :: upd t i x
  end.
Definition set_idx {A} (l : list A) (i : nat) (x : A) : res (list A) :=
  if i <? length l then Ok (upd l i x) else Panic IndexOOB.

(** `for b in list { acc = body(b, acc) }` with panics *)
Fixpoint foldM {A B} (f : B -> A -> res A) (l : list B) (a : A) : res A :=
  match l with
  | [] => Ok a
  | b :: t => let* a' := f b a in foldM f t a'
  end.

(** `list.map(f).collect()` with panics *)
Fixpoint mapM {A B} (f : A -> res B) (l : list A) : res (list B) :=
  match l with
  | [] => Ok []
  | a :: t => let* b := f a in let* bs := mapM f t in Ok (b :: bs)
  end.

(** `a..b` on usize *)
Definition range (a b : nat) : list nat := seq a (b - a).

(** `x as usize` for x : i32 (sign extension, i.e. modulo 2^64) *)
Definition as_usize (z : Z) : nat := Z.to_nat (z mod 2 ^ 64)%Z.

(** `rng.gen_range(0..n)`: panics on an empty range, otherwise an index below [n].
    [raw] is the (arbitrary) random draw. *)
Definition gen_range (n raw : nat) : res nat :=
  if n =? 0 then Panic EmptyRange else Ok (raw mod n).

(** [n] successive executions *)
Fixpoint iterM {A} (f : A -> res A) (n : nat) (a : A) : res A :=
  match n with
  | O => Ok a
  | S n => let* a' := f a in iterM f n a'
  end.
(** [n] successive executions with the iteration counter [k, k+1, ...] *)
Fixpoint iterMi {A} (f : nat -> A -> res A) (k n : nat) (a : A) : res A :=
  match n with
  | O => Ok a
  | S n => let* a' := f k a in iterMi f (S k) n a'
  end.
