(** Specification vocabulary: Langevin chains in binary64 (C91). *)
From Coq Require Import ZArith Reals Bool List Arith.
From Coq Require Import Floats.SpecFloat.
From Verif Require Import Num Monad NumF64 Config Chain Langevin SpecVec SpecChain SpecLang SpecRound SpecClose SpecKeep SpecMade.
Local Open Scope R_scope.

(** A bath: a damping between 0 and 1024 and a temperature of at most 256, with a time step that is not tiny *)
Definition mild_bath (conf : config f64) (g : f64) : Prop :=
  is_number g /\ 0 <= value g <= 1024 /\ is_number (beta conf) /\ 1 / 256 <= value (beta conf) /\ powerRZ 2 (-100) <= value (c_dt conf).
(** normal random numbers of at most 32 in size *)
Definition plain_noise (z : v3 f64 * v3 f64) : Prop := (is_vector (fst z) /\ comp_le 32 (fst z)) /\ (is_vector (snd z) /\ comp_le 32 (snd z)).
(** Monte Carlo moves of both kinds ([true]: of the effective Hamiltonian) *)
Definition lmove (N : NumOps) (kd : bool * mcdraw N) : lchain (num N) -> res (lchain (num N)) :=
  if fst kd then lmetropolis_update_magnus N (snd kd) else lmetropolis_update N (snd kd).
Definition lmoved (N : NumOps) (l : list (bool * mcdraw N)) (lc : lchain (num N)) : res (lchain (num N)) := foldM (lmove N) l lc.
