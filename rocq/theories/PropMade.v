(** C90: the spins the program makes in binary64, from their creation through Monte Carlo moves to the dynamics. *)
From Coq Require Import Reals List ZArith Arith.
From Coq Require Import Floats.SpecFloat.
From Verif Require Import Num Monad NumF64 Config Chain SpecVec SpecChain SpecMC SpecRound SpecClose SpecKeep SpecMade
  ProofsMade ProofsMade2 ProofsMade3 ProofsMadeSamples.
Import ListNotations.
Local Open Scope R_scope.

(** * C90 *)
(** Every spin of a new chain, whatever the configuration and the random numbers, is a unit vector up to 2^-50 or lost *)
Theorem C90_new : forall L conf (d : newdraw (F64 L)) c, proper L -> chain_new (F64 L) conf d = Ok c -> unit_or_lost c.
Proof. exact new_made. Qed.
Print Assumptions C90_new.

(** Monte Carlo moves of all five kinds, in any order, put in unit vectors up to 2^-44.  They never move a lost spin, and lose none *)
Theorem C90_moves : forall L l n s e, proper L -> (2 <= n)%nat -> powerRZ 2 (-44) <= e -> forall sc : chain f64, wf n s sc ->
  Forall (fun kd => uniform_draw L (snd kd)) l -> Forall (made e) (spins sc) ->
  exists sp, samples (F64 L) l sc = Ok (set_spins sc sp) /\ length sp = n /\ Forall (made e) sp /\
    (forall i, lost (fspin sc i) -> nth i sp (mk3 S754_nan S754_nan S754_nan) = fspin sc i) /\ (none_lost sc -> Forall (fun v => ~ lost v) sp).
Proof. exact samples_made. Qed.
Print Assumptions C90_moves.
Example C90_moves_case : forall l, Forall (fun kd => uniform_draw plain_libm (snd kd)) (map (fun i => (if Nat.even i then Plain else Magnus, half_move i)) l).
Proof. exact half_moves. Qed.

(** A whole run: a new chain, any number of Monte Carlo moves, any number of steps of the dynamics *)
Theorem C90_run : forall L conf, mild_conf conf -> forall d, plain_draws L d -> forall l k, proper L ->
  Forall (fun kd => uniform_draw L (snd kd)) l ->
  exists c c1 c2, chain_new (F64 L) conf d = Ok c /\ unit_or_lost c /\
    samples (F64 L) l c = Ok c1 /\ Forall (made (powerRZ 2 (-44))) (spins c1) /\ (none_lost c -> none_lost c1) /\
    iterM (update (F64 L)) k c1 = Ok c2 /\ Forall (made (powerRZ 2 (-44))) (spins c2) /\ ((1 <= k)%nat -> on_ring c2 (made (powerRZ 2 (-50)))).
Proof. exact whole_run. Qed.
Print Assumptions C90_run.
(** the default configuration is such a one *)
Example C90_run_case : proper plain_libm /\ mild_conf defaultF /\ plain_draws plain_libm half_draws.
Proof. exact default_ok. Qed.

(** Chains drawn at an inverse temperature whose exponential overflows, at 0 or at NaN have lost every spin, and neither moves nor steps bring one back *)
Theorem C90_temperature : forall L conf, mild_conf conf -> forall d, plain_draws L d -> forall l k, proper L ->
  Forall (fun kd => uniform_draw L (snd kd)) l -> no_temperature L (beta conf) ->
  exists c c2, chain_new (F64 L) conf d = Ok c /\ Forall lost (spins c) /\ samples (F64 L) l c = Ok c /\ iterM (update (F64 L)) k c = Ok c2 /\ Forall lost (spins c2).
Proof. exact cold_run. Qed.
Print Assumptions C90_temperature.
Example C90_cold_case : mild_conf (set_beta defaultF (f_ofZ 710)) /\ no_temperature plain_libm (f_ofZ 710).
Proof. exact cold_ok. Qed.
Example C90_hot_case : mild_conf (set_beta defaultF (f_ofZ 0)) /\ no_temperature plain_libm (f_ofZ 0).
Proof. exact hot_ok. Qed.
