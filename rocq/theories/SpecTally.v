(** Specification vocabulary: the lines of mc_live.dat in binary64 (C95). *)
From Coq Require Import ZArith Reals Bool List Arith.
From Coq Require Import Floats.SpecFloat.
From Verif Require Import Num Monad NumF64 Config Chain Fit Files Runs SpecVec SpecChain SpecRound SpecClose SpecKeep SpecMade.
Import ListNotations.
Local Open Scope R_scope.

(** A line of numbers: two energies per site, three means over the subsystem, and two unit spins *)
Definition full_tally (ln : line f64) : Prop := exists E e mx my mz a b,
  ln = numbers [E; e; mx; my; mz; vx a; vy a; vz a; vx b; vy b; vz b] /\
  small (30 + 1 / 1024) E /\ small (30 + 1 / 1024) e /\ Forall (small (1 + powerRZ 2 (-16))) [mx; my; mz] /\
  near_unit (powerRZ 2 (-44)) a /\ near_unit (powerRZ 2 (-44)) b.
(** A line of a chain that has lost a spin: the energy of the chain is NaN *)
Definition nan_tally (ln : line f64) : Prop := exists rest, ln = numbers (S754_nan :: rest) /\ length rest = 10%nat.
(** The lines of a thread that started from the chain [c] *)
Definition tallied (c : chain f64) (ls : list (line f64)) : Prop := (none_lost c /\ Forall full_tally ls) \/ (~ none_lost c /\ Forall nan_tally ls).
(** What reaches the disk was sent *)
Definition sent_only {A} (disk : list (list A) -> list A) : Prop := forall l x, In x (disk l) -> In x (concat l).
