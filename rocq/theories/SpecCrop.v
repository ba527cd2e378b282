(** Specification vocabulary: the lines of avg.dat made of binary64 Langevin logs (C100). *)
From Coq Require Import ZArith Reals Bool List Arith.
From Coq Require Import Floats.SpecFloat.
From Verif Require Import Num NumF64 Files SpecRound SpecClose SpecKeep SpecMade.
Import ListNotations.
Local Open Scope R_scope.

(** A line of means: the time, two energies per site, three means over the subsystem; and of the mean over the chain if [whole].
    Nothing is said of the boundary term *)
Definition leaf_mean (whole : bool) (l : line f64) : Prop := exists x E e mx my mz Mz bt, l = numbers [x; E; e; mx; my; mz; Mz; bt] /\
  small (30 + 1 / 1024) E /\ small (30 + 1 / 1024) e /\ Forall (small (1 + powerRZ 2 (-16))) [mx; my; mz] /\ (whole = true -> small (1 + powerRZ 2 (-16)) Mz).
(** A line of means over chains of which one has lost a spin of its subsystem *)
Definition nan_leaf_mean (l : line f64) : Prop := exists x rest, l = numbers (x :: S754_nan :: S754_nan :: rest) /\ length rest = 5%nat.
