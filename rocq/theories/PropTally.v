(** C95: what the Monte-Carlo modes write, in binary64. *)
From Coq Require Import String Reals List ZArith Arith.
From Coq Require Import Floats.SpecFloat.
From Verif Require Import Num Monad NumF64 Config Chain Fit Files Runs SpecVec SpecChain SpecToml SpecRound SpecClose SpecKeep SpecMC SpecMade SpecPage SpecReport SpecTally
  ProofsMadeSamples ProofsTally ProofsTallySamples.
Import ListNotations.
Local Open Scope R_scope.
Local Open Scope list_scope.

(** * C95 *)
(** A line: numbers of the right size if the chain has all its spins, NaN as its energy if not *)
Theorem C95_line : forall L n s (F : chain f64), accurate L -> wf n s F -> (1 <= n)%nat -> (1 <= s)%nat -> rough_sites F -> mild_drive F -> small (powerRZ 2 100) (t F) ->
  Forall (made (powerRZ 2 (-44))) (spins F) ->
  exists ln, mc_line (F64 L) F = Ok ln /\ ((none_lost F /\ full_tally ln) \/ (~ none_lost F /\ nan_tally ln)).
Proof. exact tally64. Qed.
Print Assumptions C95_line.

(** A thread, with any of the five samplers: none of its lines has NaN, or all have.  Which, the new chain decides *)
Theorem C95_thread : forall L k conf d m, proper L -> mild_conf conf -> (1 <= ssize conf)%Z -> plain_run L d ->
  exists c ls, chain_new (F64 L) conf (dr_new d) = Ok c /\ mc_worker (F64 L) (sample (F64 L) k) 1000000 (mc_line (F64 L)) d m c = Ok ls /\
    length ls = Z.to_nat m /\ ((none_lost c /\ Forall full_tally ls) \/ (~ none_lost c /\ Forall nan_tally ls)).
Proof. exact tally_thread. Qed.
Print Assumptions C95_thread.

(** The modes --monte-carlo and --monte-carlo-magnus return, and add such lines to mc_live.dat *)
Theorem C95_plain : forall L rg (conf : config f64) f, proper L -> mild_conf conf -> (1 <= ssize conf)%Z -> (1 <= threads conf)%Z -> (1 <= mc_points conf < 2 ^ 31)%Z ->
  (forall i, plain_run L (r_draws (F64 L) rg i)) ->
  exists c work f', run_mc (F64 L) rg conf f = Ok (conf, f') /\
    lines_of f' "mc_live.dat" = lines_of f "mc_live.dat" ++ r_file (F64 L) rg work /\
    Z.of_nat (length (concat work)) = mc_points conf /\
    (forall i ls, nth_error work i = Some ls -> chain_new (F64 L) conf (dr_new (r_draws (F64 L) rg i)) = Ok (c i) /\
      ((none_lost (c i) /\ Forall full_tally ls) \/ (~ none_lost (c i) /\ Forall nan_tally ls))) /\
    (sent_only (r_file (F64 L) rg) -> Forall (fun ln => full_tally ln \/ nan_tally ln) (r_file (F64 L) rg work)).
Proof. exact (fun L => tally_file L Plain). Qed.
Print Assumptions C95_plain.
Theorem C95_second : forall L rg (conf : config f64) f, proper L -> mild_conf conf -> (1 <= ssize conf)%Z -> (1 <= threads conf)%Z -> (1 <= mc_points conf < 2 ^ 31)%Z ->
  (forall i, plain_run L (r_draws (F64 L) rg i)) ->
  exists c work f', run_mc_magnus (F64 L) rg conf f = Ok (conf, f') /\
    lines_of f' "mc_live.dat" = lines_of f "mc_live.dat" ++ r_file (F64 L) rg work /\
    Z.of_nat (length (concat work)) = mc_points conf /\
    (forall i ls, nth_error work i = Some ls -> chain_new (F64 L) conf (dr_new (r_draws (F64 L) rg i)) = Ok (c i) /\
      ((none_lost (c i) /\ Forall full_tally ls) \/ (~ none_lost (c i) /\ Forall nan_tally ls))) /\
    (sent_only (r_file (F64 L) rg) -> Forall (fun ln => full_tally ln \/ nan_tally ln) (r_file (F64 L) rg work)).
Proof. exact (fun L => tally_file L MagFull). Qed.
Print Assumptions C95_second.
(** the default configuration with random numbers that are all 1/2, and everything reaching the disk *)
Example C95_plain_case : exists rg, proper plain_libm /\ mild_conf defaultF /\ (1 <= ssize defaultF)%Z /\ (1 <= threads defaultF)%Z /\ (1 <= mc_points defaultF < 2 ^ 31)%Z /\
  (forall i, plain_run plain_libm (r_draws (F64 plain_libm) rg i)) /\ sent_only (r_file (F64 plain_libm) rg).
Proof. exact default_tally. Qed.
