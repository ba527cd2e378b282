(** Vocabulary for the temperatures found by the searches (C84). *)
From Coq Require Import Reals List ZArith Arith.
From Verif Require Import Num Monad NumR Config Chain Fit SpecVec SpecChain SpecMC SpecFit SpecSampling SpecMean.
Local Open Scope R_scope.

(** Moves of the sampler in one energy estimate *)
Definition estimate_moves (q : search) : nat := (1000 * Z.to_nat (gap (fit_ensemble q)))%nat.
(** The random numbers of a search: d k makes the chain of estimate k, and the moves of the estimates
    are taken from mv one after the other *)
Definition search_draws (q : search) (d : nat -> newdraw ERNum) (mv : nat -> move) (k : nat) : draws ERNum :=
  with_moves (d k) (fun i => mv (k * estimate_moves q + i)%nat).
(** 1 if no temperature is found, or one at which v is further than eta from the target; else 0 *)
Definition misses (target eta : R) (v : R -> R) (r : res (num ERNum * config (num ERNum))) : R :=
  match r with Ok (Some b, _) => off target eta (v b) | _ => 1 end.
(** 1 if an estimate fails or is further than eta from v; else 0 *)
Definition est_off (v eta : R) (r : res (num ERNum)) : R := match r with Ok (Some x) => off v eta x | _ => 1 end.
