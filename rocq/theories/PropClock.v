(** C97: the times in the logs. *)
From Coq Require Import String Reals List ZArith Arith.
From Coq Require Import Floats.SpecFloat.
From Verif Require Import Num Monad NumR NumF64 Config Chain Fit Files Average Runs Main SpecVec SpecChain SpecToml SpecRound SpecClose SpecKeep SpecMade SpecPage SpecSession SpecPool SpecClock
  ProofsMadeSamples ProofsReadySamples ProofsWarmSamples ProofsClock ProofsClock2 ProofsClockSamples ProofsHistorySamples ProofsPoolSamples ProofsLeafSamples.
Import ListNotations.
Local Open Scope nat_scope.

(** * C97 *)
(** Whatever numbers the program works with, the times in a log of the default mode are determined by the configuration: the random numbers have no part in them *)
Theorem C97_default : forall N fuel rg (conf : config (num N)) f conf' f', run_sim N fuel rg conf f = Ok (conf', f') -> c_log conf = true -> in_range conf -> (0 <= runs conf)%Z ->
  forall i, i < Z.to_nat (runs conf) -> exists rows ts, contents f' (log_name (c_file conf) (Z.to_nat (offset conf) + i)) = Some (map numbers rows) /\
    timetable N (nopp N (trel conf)) (c_dt conf) (c_t conf) (kept_plain N conf) ts /\ first_column N rows (nopp N (trel conf) :: ts).
Proof. exact default_times. Qed.
Print Assumptions C97_default.
(** The default configuration, in binary64 *)
Example C97_default_case : forall L rg f, (exists r, run_sim (F64 L) ex_fuel rg (config_default (F64 L)) f = Ok r) /\
  c_log (config_default (F64 L)) = true /\ in_range (config_default (F64 L)) /\ (1 <= runs (config_default (F64 L)))%Z.
Proof. exact clock_default. Qed.
(** The times of a run to 1/2 in steps of 1/4 from -1/4, which binary64 does exactly *)
Example C97_default_times : forall L, timetable (F64 L) (quarters (-1)) (quarters 1) (quarters 2) (fun _ => true) [quarters 0; quarters 1; quarters 2].
Proof. exact quarter_table. Qed.

(** ... in response runs, where the loop starts at minus the final time after a line for the time of the new chain *)
Theorem C97_response : forall N fuel rg (conf : config (num N)) f conf' f', run_sim_response N fuel rg conf f = Ok (conf', f') -> c_log conf = true -> in_range conf -> (0 <= runs conf)%Z ->
  forall i, i < Z.to_nat (runs conf) -> exists rows ts, contents f' (log_name (c_file conf) (Z.to_nat (offset conf) + i)) = Some (map numbers rows) /\
    timetable N (nopp N (c_t conf)) (c_dt conf) (c_t conf) (kept_response N conf) ts /\ first_column N rows (nopp N (trel conf) :: ts).
Proof. exact response_log_times. Qed.
Print Assumptions C97_response.
Example C97_response_case : forall L rg f, exists r, run_sim_response (F64 L) ex_fuel rg (config_default (F64 L)) f = Ok r.
Proof. exact clock_response. Qed.

(** ... and in Langevin runs, whatever the noise *)
Theorem C97_langevin : forall N fuel g rg (conf : config (num N)) f conf' f', run_langevin N fuel g rg conf f = Ok (conf', f') -> in_range conf -> (0 <= runs conf)%Z ->
  forall i, i < Z.to_nat (runs conf) -> exists rows ts, contents f' (log_name (c_file conf) (Z.to_nat (offset conf) + i)) =
      Some ([Tword "#t"; Tword "E_total"; Tword "E_sub"; Tword "M_x"; Tword "M_y"; Tword "M_z"]%string :: map numbers rows) /\
    timetable N (nopp N (trel conf)) (c_dt conf) (c_t conf) (kept_langevin N conf) ts /\ first_column N rows (nopp N (trel conf) :: ts).
Proof. exact langevin_log_times. Qed.
Print Assumptions C97_langevin.
Example C97_langevin_case : forall f, exists rg, in_range defaultF /\ (1 <= runs defaultF)%Z /\ exists r, run_langevin (F64 plain_libm) ex_fuel (f_ofZ 1) rg defaultF f = Ok r.
Proof. intro f. destruct (default_leaf f) as (rg & _ & _ & _ & _ & _ & H). exists rg. exact H. Qed.

(** There is one timetable: the logs of a configuration have the same number of lines, with the same times, bit by bit *)
Theorem C97_same : forall N start dt tmax kept ts ts', timetable N start dt tmax kept ts -> timetable N start dt tmax kept ts' -> ts = ts'.
Proof. exact table_same. Qed.
Print Assumptions C97_same.

(** So -a after runs of the default mode in binary64 writes one line for each time but that of the first line of the logs: lines of numbers and,
    from the time on at which one of the runs has lost a spin, lines with NaN as the energy *)
Theorem C97_averages : forall L fuel rg (conf : config f64) f conf' f1 conf2 c3 f2, proper L -> mild_conf conf -> (2 <= ssize conf)%Z -> (forall i, plain_run L (r_draws (F64 L) rg i)) ->
  c_log conf = true -> in_range conf -> (1 <= runs conf < 2 ^ 30)%Z -> tidy f -> (forall nm, stands_for (c_file conf) nm -> contents f nm = None) ->
  run_sim (F64 L) fuel rg conf f = Ok (conf', f1) -> c_file conf2 = c_file conf -> run_average (F64 L) conf2 f1 = Ok (c3, f2) ->
  exists ts a b, timetable (F64 L) (nopp (F64 L) (trel (conf : config (num (F64 L))))) (c_dt conf) (c_t conf) (kept_plain (F64 L) conf) ts /\
    contents f2 "avg.dat" = Some (a ++ b) /\ Forall mean_row a /\ Forall nan_mean b /\ length (a ++ b) = length ts.
Proof. exact pool_split. Qed.
Print Assumptions C97_averages.
(** the default configuration in an empty directory *)
Example C97_averages_case : let f := (mkFs Missing [] : fs f64) in
  exists rg, proper plain_libm /\ mild_conf defaultF /\ (2 <= ssize defaultF)%Z /\ (forall i, plain_run plain_libm (r_draws (F64 plain_libm) rg i)) /\
  c_log defaultF = true /\ in_range defaultF /\ (1 <= runs defaultF < 2 ^ 30)%Z /\ tidy f /\ (forall nm, stands_for (c_file defaultF) nm -> contents f nm = None) /\
  exists conf' g, run_sim (F64 plain_libm) ex_fuel rg defaultF f = Ok (conf', g) /\ exists r, run_average (F64 plain_libm) defaultF g = Ok r.
Proof. exact default_pool. Qed.
