(** Specification of the power spectrum of a chain. *)
From Coq Require Import Reals List.
From Verif Require Import Num SpecVec SpecChain Chain.
Import ListNotations.
Local Open Scope R_scope.

(** | sum_j x_j exp(-2 pi i j k / n) |^2 *)
Definition mode1 (n : nat) (x : nat -> R) (k : nat) : R :=
  Rsum n (fun j => x j * cos (2 * PI * INR j * INR k / INR n)) ^ 2 +
  Rsum n (fun j => x j * sin (2 * PI * INR j * INR k / INR n)) ^ 2.

(** Power of the three spin components in mode k of a chain of n sites *)
Definition mode (n : nat) (sc : chain R) (k : nat) : R :=
  mode1 n (fun j => vx (S_ sc j)) k + mode1 n (fun j => vy (S_ sc j)) k + mode1 n (fun j => vz (S_ sc j)) k.
