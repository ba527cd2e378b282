(** Vocabulary for the runs at several drive periods (C68) and the histograms (C69). *)
From Coq Require Import Reals List ZArith Arith.
From Flocq Require Import Core.
From Verif Require Import Num Monad NumR Config Chain SpecVec SpecChain SpecRuns.
Import ListNotations.
Local Open Scope R_scope.

(** Time step for a period: a hundredth of it below 10, then 0.1 *)
Definition period_step (x : R) : R := if Rlt_dec x 10 then x / 100 else 1 / 10.
(** Steps from time -[r] to the end of [k] periods *)
Definition period_steps (r x : R) (k : Z) : nat := Z.to_nat (Zceil ((IZR k * x + r) / period_step x)).
(** The time reached *)
Definition period_end (r x : R) (k : Z) : R := - r + INR (period_steps r x k) * period_step x.

(** A chain set up for [k] periods [x] *)
Definition for_period (sc : chain (num ERNum)) (x : R) (k : Z) : chain (num ERNum) :=
  set_vars sc (set_ct (set_dt (set_tau (vars sc) (Some x)) (Some (period_step x))) (Some (IZR k * x))).
