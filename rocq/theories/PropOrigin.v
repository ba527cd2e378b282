(** C98: two-point averages when no line of the logs is at time 0. *)
From Coq Require Import String Reals List ZArith Arith.
From Coq Require Import Floats.SpecFloat.
From Verif Require Import Num Monad NumR NumF64 Config Chain Fit Files Average Runs Main SpecVec SpecChain SpecToml SpecRound SpecClose SpecSession SpecClock
  ProofsMadeSamples ProofsReadySamples ProofsHistorySamples ProofsClock ProofsOrigin ProofsClockSamples ProofsOriginSamples.
Import ListNotations.
Local Open Scope nat_scope.

(** * C98 *)
(** Whatever numbers the program works with: if the timetable of the configuration has a line after the first, but none within 1e-5 of time 0,
    -w after runs of the default mode panics *)
Theorem C98_off_beat : forall N fuel rg (conf : config (num N)) f conf' f1 conf2, c_log conf = true -> in_range conf -> (1 <= runs conf)%Z -> tidy f ->
  (forall nm, stands_for (c_file conf) nm -> contents f nm = None) -> run_sim N fuel rg conf f = Ok (conf', f1) -> c_file conf2 = c_file conf ->
  (forall ts, timetable N (nopp N (trel conf)) (c_dt conf) (c_t conf) (kept_plain N conf) ts -> ts <> [] /\ Forall (fun x => nltb N (nabs N x) (nlit N 1 5) = false) ts) ->
  run_two_point N conf2 f1 = Panic IndexOOB.
Proof. exact origin_panics. Qed.
Print Assumptions C98_off_beat.
(** no time within 1e-5 of 0: half steps, in binary64 *)
Example C98_off_beat_case : forall L, exists ts, timetable (F64 L) (nopp (F64 L) (quarters 1)) (quarters 2) (quarters 3) (fun _ => true) ts /\ ts <> [] /\
  Forall (fun x => nltb (F64 L) (nabs (F64 L) x) (nlit (F64 L) 1 5) = false) ts.
Proof. exact half_steps. Qed.

(** In binary64 that is the case when the relaxation time is 0 and the step is not below 1e-5: the sum of the steps so far is never below one step,
    whatever the rounding, and the line at time 0 is the first of the log, which is skipped *)
Theorem C98_zero : forall L fuel rg (conf : config f64) f conf' f1 conf2, c_log conf = true -> in_range conf -> (1 <= runs conf)%Z -> tidy f ->
  (forall nm, stands_for (c_file conf) nm -> contents f nm = None) -> run_sim (F64 L) fuel rg conf f = Ok (conf', f1) -> c_file conf2 = c_file conf ->
  (exists s, trel conf = S754_zero s) -> is_number (c_dt conf) -> (0 < value (c_dt conf))%R -> SFltb (c_dt conf) (f_lit 1 5) = false ->
  strob conf = false -> SFltb (S754_zero false) (c_t conf) = true ->
  run_two_point (F64 L) conf2 f1 = Panic IndexOOB.
Proof. exact zero_panics. Qed.
Print Assumptions C98_zero.
(** the default configuration *)
Example C98_zero_case : forall L, let conf : config f64 := config_default (F64 L) in
  (exists s, trel conf = S754_zero s) /\ is_number (c_dt conf) /\ (0 < value (c_dt conf))%R /\ SFltb (c_dt conf) (f_lit 1 5) = false /\
  strob conf = false /\ SFltb (S754_zero false) (c_t conf) = true.
Proof. exact shipped_conditions. Qed.

(** So with the default configuration, in a directory without logs, the default mode completes and -w after it panics: for every libm and all random numbers *)
Theorem C98_shipped : forall L rg conf2 c, c_file conf2 = "log"%string -> exists conf' g,
  run_sim (F64 L) ex_fuel rg (config_default (F64 L)) (mkFs c []) = Ok (conf', g) /\ run_two_point (F64 L) conf2 g = Panic IndexOOB.
Proof. exact shipped_panics. Qed.
Print Assumptions C98_shipped.
