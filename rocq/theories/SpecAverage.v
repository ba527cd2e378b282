(** Vocabulary for the averages over log files (C47, C48). *)
From Coq Require Import Reals ZArith List Arith.
From Verif Require Import Num Monad NumR Files SpecWriters.
Import ListNotations.

(** The data of a log file: rows of reals.  As a file: [first] is its first line, whatever it is. *)
Definition table := list (list R).
Definition as_line (r : list R) : line ER := numbers (map Some r).
Definition as_file (first : line ER) (rows : table) : list (line ER) := first :: map as_line rows.

(** The i-th rows of the tables that have one *)
Definition ith_rows (i : nat) (ts : list table) : list (list R) :=
  flat_map (fun t => match nth_error t i with Some r => [r] | None => [] end) ts.
(** smallest length, largest length *)
Definition width (rs : list (list R)) : nat :=
  match rs with [] => 0 | r :: rs => fold_right Nat.min (length r) (map (@length R) rs) end.
Definition height (ts : list table) : nat := fold_right Nat.max 0 (map (@length (list R)) ts).
(** The averages over the tables, row by row and column by column *)
Definition mean_row (rs : list (list R)) : list R :=
  map (fun j => avg (map (fun r => nth j r 0%R) rs)) (seq 0 (width rs)).
Definition mean_table (ts : list table) : table := map (fun i => mean_row (ith_rows i ts)) (seq 0 (height ts)).

(** Row at time zero: the last one with |t| < 1/100000 *)
Definition is_zero_row (r : list R) : Prop := exists t rest, r = t :: rest /\ (Rabs t < 1 / 100000)%R.
Definition zero_row (tab : table) (z : list R) : Prop :=
  exists before after, tab = before ++ z :: after /\ is_zero_row z /\ Forall (fun r => ~ is_zero_row r) after.
(** x(t) x(0), leaving the time column *)
Definition correlate (z r : list R) : list R :=
  match r with [] => [] | t :: _ => t :: map (fun i => (nth i r 0 * nth i z 0)%R) (seq 1 (length r - 1)) end.
