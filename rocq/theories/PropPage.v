(** C92: what the default mode writes, in binary64. *)
From Coq Require Import Reals List ZArith Arith.
From Coq Require Import Floats.SpecFloat.
From Verif Require Import Num Monad NumF64 Config Chain Fit Files Runs SpecVec SpecChain SpecToml SpecRound SpecClose SpecKeep SpecMade SpecPage
  ProofsMadeSamples ProofsReadySamples ProofsPage ProofsPageSamples.
Import ListNotations.
Local Open Scope R_scope.

(** * C92 *)
(** A line of the log: numbers of the right size if the chain has all its spins, NaN as its energy if not *)
Theorem C92_line : forall L n s (F : chain f64), accurate L -> wf n s F -> (2 <= n)%nat -> (2 <= s)%nat -> rough_sites F -> mild_drive F -> plain_dt (c_dt (vars F)) ->
  small (powerRZ 2 100) (t F) -> Forall (made (powerRZ 2 (-44))) (spins F) ->
  exists row, chain_log (F64 L) F = Ok (if has_file F then [row] else []) /\ ((none_lost F /\ full_row row) \/ (~ none_lost F /\ nan_row row)).
Proof. exact line64. Qed.
Print Assumptions C92_line.

(** A run of the default mode: lines of numbers, and from some line on lines with NaN; only these if the new chain has lost a spin *)
Theorem C92_run : forall L conf d fuel c out, proper L -> mild_conf conf -> (2 <= ssize conf)%Z -> plain_run L d ->
  chain_new (F64 L) conf (dr_new d) = Ok c -> sim_worker (F64 L) (chain_log (F64 L)) fuel d c = Ok out ->
  sound_log out /\ (~ none_lost c -> Forall nan_row out) /\ (c_log conf = true -> out <> []).
Proof. exact page_worker. Qed.
Print Assumptions C92_run.

(** The log files of the default mode *)
Theorem C92_files : forall L fuel rg (conf : config f64) f conf' f', proper L -> mild_conf conf -> (2 <= ssize conf)%Z -> (forall i, plain_run L (r_draws (F64 L) rg i)) ->
  c_log conf = true -> in_range conf -> (0 <= runs conf)%Z -> run_sim (F64 L) fuel rg conf f = Ok (conf', f') ->
  forall i, (i < Z.to_nat (runs conf))%nat -> exists rows,
    contents f' (log_name (c_file conf) (Z.to_nat (offset conf) + i)) = Some (map numbers rows) /\ sound_log rows /\ rows <> [].
Proof. exact page_files. Qed.
Print Assumptions C92_files.
(** the default configuration, of whatever directory, with random numbers that are all 1/2 *)
Example C92_files_case : forall f, exists rg, proper plain_libm /\ mild_conf defaultF /\ (2 <= ssize defaultF)%Z /\ (forall i, plain_run plain_libm (r_draws (F64 plain_libm) rg i)) /\
  c_log defaultF = true /\ in_range defaultF /\ (1 <= runs defaultF)%Z /\ exists r, run_sim (F64 plain_libm) ex_fuel rg defaultF f = Ok r.
Proof. exact default_page. Qed.
