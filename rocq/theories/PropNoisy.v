(** C91: Langevin chains in binary64. *)
From Coq Require Import Reals List ZArith Arith.
From Coq Require Import Floats.SpecFloat.
From Verif Require Import Num Monad NumF64 Config Chain Langevin SpecVec SpecChain SpecLang SpecRound SpecClose SpecKeep SpecMade SpecNoisy
  ProofsMadeSamples ProofsNoisy ProofsNoisySamples.
Import ListNotations.
Local Open Scope R_scope.

(** * C91 *)
(** A whole Langevin run: a new chain, any number of Monte Carlo moves, any number of steps with noise.  Nothing panics, all spins are
    unit vectors up to rounding or lost, and a lost spin stays lost *)
Theorem C91_run : forall L conf g d l zs, proper L -> mild_conf conf -> mild_bath conf g -> plain_draws L d ->
  Forall (fun kd => uniform_draw L (snd kd)) l -> Forall plain_noise zs ->
  exists c c1 c2, lchain_new (F64 L) conf g d = Ok c /\ unit_or_lost (base c) /\
    lmoved (F64 L) l c = Ok c1 /\ Forall (made (powerRZ 2 (-44))) (spins (base c1)) /\ (none_lost (base c) -> none_lost (base c1)) /\
    lruns (F64 L) zs c1 = Ok c2 /\ Forall (made (powerRZ 2 (-44))) (spins (base c2)) /\ (zs <> [] -> on_ring (base c2) (made (powerRZ 2 (-50)))) /\
    (forall i, lost (fspin (base c) i) -> lost (fspin (base c2) i)).
Proof. exact noisy_run. Qed.
Print Assumptions C91_run.
(** the default configuration with damping 1, moves of both kinds and noise of either sign *)
Example C91_run_case : forall k l, proper plain_libm /\ mild_conf defaultF /\ mild_bath defaultF (f_ofZ 1) /\ plain_draws plain_libm half_draws /\
  Forall (fun kd => uniform_draw plain_libm (snd kd)) (map (fun i => (Nat.even i, half_move i)) l) /\ Forall plain_noise (repeat (some_noise, SFopp3 some_noise) k).
Proof. exact noisy_default. Qed.

(** Monte Carlo moves of both kinds on any Langevin chain never move a lost spin, and lose none *)
Theorem C91_moves : forall L l n s e, proper L -> (2 <= n)%nat -> powerRZ 2 (-44) <= e -> forall lc : lchain f64, wf n s (base lc) ->
  Forall (fun kd => uniform_draw L (snd kd)) l -> Forall (made e) (spins (base lc)) ->
  exists sp, lmoved (F64 L) l lc = Ok (mkL (set_spins (base lc) sp) (gamma lc)) /\ length sp = n /\ Forall (made e) sp /\
    (forall i, lost (fspin (base lc) i) -> nth i sp (mk3 S754_nan S754_nan S754_nan) = fspin (base lc) i) /\
    (none_lost (base lc) -> Forall (fun v => ~ lost v) sp).
Proof. exact lmoved_made. Qed.
Print Assumptions C91_moves.

(** At inverse temperature 0 the first step of every Langevin run panics: the noise has no finite size *)
Theorem C91_hot : forall L conf g d, proper L -> mild_conf conf -> plain_draws L d -> is_number (beta conf) -> value (beta conf) = 0 ->
  exists c, lchain_new (F64 L) conf g d = Ok c /\ forall l z zs c1, lmoved (F64 L) l c = Ok c1 -> Forall (fun kd => uniform_draw L (snd kd)) l ->
    lruns (F64 L) (z :: zs) c1 = Panic Unwrap.
Proof. exact hot_bath. Qed.
Print Assumptions C91_hot.
Example C91_hot_case : mild_conf (set_beta defaultF (f_ofZ 0)) /\ is_number (beta (set_beta defaultF (f_ofZ 0))) /\ value (beta (set_beta defaultF (f_ofZ 0))) = 0.
Proof. exact hot_default. Qed.
