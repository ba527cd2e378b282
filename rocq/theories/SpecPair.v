(** Specification vocabulary: the lines of two-point.dat made of binary64 logs (C99). *)
From Coq Require Import ZArith Reals Bool List Arith.
From Coq Require Import Floats.SpecFloat.
From Verif Require Import Num NumF64 Files SpecRound SpecClose SpecKeep SpecMade.
Import ListNotations.
Local Open Scope R_scope.

(** A line of means of products with the values at time 0: the time, two products of energies per site, and ten of components of spins *)
Definition pair_row (l : line f64) : Prop := exists x E e rest, l = numbers (x :: E :: e :: rest) /\
  small 901 E /\ small 901 e /\ Forall (small (1 + 1 / 16384)) rest /\ length rest = 10%nat.
(** What counts as time 0 *)
Definition at_zero (x : f64) : Prop := SFltb (SFabs x) (f_lit 1 5) = true.
