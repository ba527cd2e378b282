(** C99: the two-point averages of the logs in binary64. *)
From Coq Require Import String Reals List ZArith Arith.
From Coq Require Import Floats.SpecFloat.
From Verif Require Import Num Monad NumR NumF64 Config Chain Fit Files Average Runs Main SpecVec SpecChain SpecToml SpecRound SpecClose SpecKeep SpecMade SpecPage SpecSession SpecPool SpecClock SpecPair
  ProofsMadeSamples ProofsReadySamples ProofsClockSamples ProofsPair ProofsPairSamples.
Import ListNotations.
Local Open Scope nat_scope.

(** * C99 *)
(** If a line after the first is at time 0, -w after runs of the default mode returns, and two-point.dat has one line for each time but that of the first line
    of the logs: lines of bounded numbers and then, if a chain has lost a spin, lines with NaN in place of the energy; no such lines if no chain has *)
Theorem C99_files : forall L fuel rg (conf : config f64) f conf' f1 conf2 ts, proper L -> mild_conf conf -> (2 <= ssize conf)%Z -> (forall i, plain_run L (r_draws (F64 L) rg i)) ->
  c_log conf = true -> in_range conf -> (1 <= runs conf < 2 ^ 26)%Z -> tidy f -> (forall nm, stands_for (c_file conf) nm -> contents f nm = None) ->
  run_sim (F64 L) fuel rg conf f = Ok (conf', f1) -> c_file conf2 = c_file conf ->
  timetable (F64 L) (nopp (F64 L) (trel (conf : config (num (F64 L))))) (c_dt conf) (c_t conf) (kept_plain (F64 L) conf) ts -> (exists x, In x ts /\ at_zero x) ->
  exists f2 a b, run_two_point (F64 L) conf2 f1 = Ok (conf2, f2) /\ contents f2 "two-point.dat" = Some (a ++ b) /\ Forall pair_row a /\ Forall nan_mean b /\ length (a ++ b) = length ts /\
    ((forall j rows, j < Z.to_nat (runs conf) -> contents f1 (log_name (c_file conf) (Z.to_nat (offset conf) + j)) = Some (map numbers rows) -> Forall full_row rows) -> b = []).
Proof. exact pair_files. Qed.
Print Assumptions C99_files.
(** a run from -1/4 to 1/2 in steps of 1/4, otherwise with the default configuration, in an empty directory *)
Example C99_files_case : let f := (mkFs Missing [] : fs f64) in let ts := [quarters 0; quarters 1; quarters 2] in
  exists rg, proper plain_libm /\ mild_conf quarterF /\ (2 <= ssize quarterF)%Z /\ (forall i, plain_run plain_libm (r_draws (F64 plain_libm) rg i)) /\
  c_log quarterF = true /\ in_range quarterF /\ (1 <= runs quarterF < 2 ^ 26)%Z /\ tidy f /\ (forall nm, stands_for (c_file quarterF) nm -> contents f nm = None) /\
  (exists r, run_sim (F64 plain_libm) ex_fuel rg quarterF f = Ok r) /\
  timetable (F64 plain_libm) (nopp (F64 plain_libm) (trel (quarterF : config (num (F64 plain_libm))))) (c_dt quarterF) (c_t quarterF) (kept_plain (F64 plain_libm) quarterF) ts /\
  exists x, In x ts /\ at_zero x.
Proof. exact quarter_pair. Qed.
