(** Specification vocabulary: the lines of avg.dat made of binary64 logs (C96). *)
From Coq Require Import ZArith Reals Bool List Arith.
From Coq Require Import Floats.SpecFloat.
From Verif Require Import Num NumF64 Files SpecRound SpecClose SpecKeep SpecMade.
Import ListNotations.
Local Open Scope R_scope.

(** A line of means: the time, two energies per site, and ten means of components of spins *)
Definition mean_row (l : line f64) : Prop := exists x E e rest, l = numbers (x :: E :: e :: rest) /\
  small (30 + 1 / 1024) E /\ small (30 + 1 / 1024) e /\ Forall (small (1 + powerRZ 2 (-16))) rest /\ length rest = 10%nat.
(** A line of means over chains of which one has lost a spin *)
Definition nan_mean (l : line f64) : Prop := exists x rest, l = numbers (x :: S754_nan :: rest) /\ length rest = 11%nat.
(** Row [i] of one of the tables *)
Definition has_row (tabs : list (list (list f64))) (i : nat) (row : list f64) : Prop := exists t, In t tabs /\ nth_error t i = Some row.
