(** Specification vocabulary: the lines of the Langevin logs in binary64 (C94). *)
From Coq Require Import ZArith Reals Bool List Arith.
From Coq Require Import Floats.SpecFloat.
From Verif Require Import Num Monad NumF64 Config Chain Langevin Fit Runs SpecVec SpecChain SpecRound SpecClose SpecKeep SpecMade SpecNoisy SpecPage.
Import ListNotations.
Local Open Scope R_scope.

(** A line of numbers: the time, twice the energy per site of the subsystem, three means over the subsystem, one over the chain.
    Nothing is said of the boundary term [bt] *)
Definition full_leaf (row : list f64) : Prop := exists x E mx my mz Mz bt,
  row = [x; E; E; mx; my; mz; Mz; bt] /\ is_number x /\ small (30 + 1 / 1024) E /\ Forall (small (1 + powerRZ 2 (-16))) [mx; my; mz; Mz].
(** A line of a chain that has lost spins outside its subsystem: the mean over the chain may be anything *)
Definition sub_leaf (row : list f64) : Prop := exists x E mx my mz Mz bt,
  row = [x; E; E; mx; my; mz; Mz; bt] /\ is_number x /\ small (30 + 1 / 1024) E /\ Forall (small (1 + powerRZ 2 (-16))) [mx; my; mz].
(** A line of a chain that has lost a spin of its subsystem: both energies are NaN *)
Definition nan_leaf (row : list f64) : Prop := exists x rest, row = x :: S754_nan :: S754_nan :: rest /\ is_number x /\ length rest = 5%nat.
(** A log: lines of the first kind, then of the second, then of the third *)
Definition sound_leaf (rows : list (list f64)) : Prop := exists a b c, rows = a ++ b ++ c /\ Forall full_leaf a /\ Forall sub_leaf b /\ Forall nan_leaf c.
(** The subsystem of a chain has all its spins *)
Definition sub_kept (s : nat) (sp : list (v3 f64)) : Prop := Forall (fun v => ~ lost v) (firstn s sp).
(** The random numbers of a Langevin run *)
Definition noisy_draws (L : libm) (d : draws (F64 L)) (z : nat -> v3 f64 * v3 f64) : Prop := plain_run L d /\ forall k, plain_noise (z k).
