(** Specification vocabulary: the lines of the default logs in binary64 (C92). *)
From Coq Require Import ZArith Reals Bool List Arith.
From Coq Require Import Floats.SpecFloat.
From Verif Require Import Num Monad NumF64 Config Chain Fit Runs SpecVec SpecChain SpecRound SpecClose SpecKeep SpecMade.
Import ListNotations.
Local Open Scope R_scope.

(** A line of numbers: the time, two energies per site, three means over the subsystem and one over the chain, and two unit spins *)
Definition full_row (row : list f64) : Prop := exists x E e mx my mz Mz a b,
  row = [x; E; e; mx; my; mz; Mz; vx a; vy a; vz a; vx b; vy b; vz b] /\ is_number x /\
  small (30 + 1 / 1024) E /\ small (30 + 1 / 1024) e /\ Forall (small (1 + powerRZ 2 (-16))) [mx; my; mz; Mz] /\
  near_unit (powerRZ 2 (-44)) a /\ near_unit (powerRZ 2 (-44)) b.
(** A line of a chain that has lost a spin: the energy of the chain is NaN *)
Definition nan_row (row : list f64) : Prop := exists x rest, row = x :: S754_nan :: rest /\ is_number x /\ length rest = 11%nat.
(** A log: lines of numbers, and from some line on, if a spin was lost, lines with NaN *)
Definition sound_log (rows : list (list f64)) : Prop := exists a b, rows = a ++ b /\ Forall full_row a /\ Forall nan_row b.
(** The random numbers of a run *)
Definition plain_run (L : libm) (d : draws (F64 L)) : Prop := plain_draws L (dr_new d) /\ forall k, uniform_draw L (dr_mc d k).
