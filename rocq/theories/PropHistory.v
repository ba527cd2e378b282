(** Theorems about the log files in a directory: properties C51 and C52. *)
From Coq Require Import String SpecFloat Reals ZArith List Lra Lia Arith.
From Verif Require Import Num Monad NumR NumF64 Spin Config Chain Langevin Fit Files Toml Runs Main SpecWriters SpecRuns SpecMain SpecReady
  ProofsFlow ProofsPass ProofsHistory ProofsWipe ProofsSchedule ProofsReadySamples ProofsHistorySamples.
Import ListNotations.
Local Close Scope R_scope.
Local Open Scope nat_scope.

(** * C51 *)
(** Invocation number [k] of a history of completed saving invocations writes the logs
    offset + k*runs, ..., offset + (k+1)*runs - 1.  They still have the same contents after every later invocation [m], and
    the invocation leaves all other files alone, apart from the profiles of --dyn-profile. *)
Theorem C51_logs : forall N f l, history N f l -> forall conf f0, read_config N f = Ok (conf, f0) -> (0 <= runs conf)%Z -> c_log conf = true ->
  forall k g g', nth_error l k = Some (g, g') ->
  (forall m h h', nth_error l m = Some (h, h') -> k <= m -> forall i, i < Z.to_nat (runs conf) ->
    exists ls, contents g' (log_name (c_file conf) (Z.to_nat (offset conf) + k * Z.to_nat (runs conf) + i)) = Some ls /\
               contents h' (log_name (c_file conf) (Z.to_nat (offset conf) + k * Z.to_nat (runs conf) + i)) = Some ls) /\
  (forall n, ~ In n (map profile_name checkpoints) -> (forall i, i < Z.to_nat (runs conf) -> n <> log_name (c_file conf) (Z.to_nat (offset conf) + k * Z.to_nat (runs conf) + i)) ->
     contents g' n = contents g n).
Proof. exact history_logs. Qed.
Print Assumptions C51_logs.
(** Three invocations of the binary64 program from an empty directory: two plain runs and one with -l *)
Example C51_logs_case : forall L, (exists f1 f2 f3, history (F64 L) (ex_empty (F64 L)) [(ex_empty (F64 L), f1); (f1, f2); (f2, f3)]) /\
  exists f0, read_config (F64 L) (ex_empty (F64 L)) = Ok (config_default (F64 L), f0).
Proof. intros L. split; [exact (ex_history L)|exact (ex_read L)]. Qed.

(** The other direction: a Monte-Carlo, histogram or fit invocation empties the logs with the lowest numbers ([wiped]),
    and only these, whatever the offset. *)
Theorem C51_wipe : forall N fuel w a f st conf f0 m k, selected a = [m] -> wiped conf m = Some k -> read_config N f = Ok (conf, f0) -> main N fuel w a f = Ok st ->
  c_log conf = true -> apart (c_file conf) ->
  forall i, contents (s_fs N st) (log_name (c_file conf) i) = if i <? k then Some [] else contents f (log_name (c_file conf) i).
Proof. exact wipe. Qed.
Print Assumptions C51_wipe.
(** -M with the default configuration: two threads, so two logs *)
Example C51_wipe_case : forall L, (exists st, main (F64 L) ex_fuel (ex_world (F64 L)) (ex_mc (F64 L)) (ex_empty (F64 L)) = Ok st) /\
  selected (ex_mc (F64 L)) = [Mmc] /\ wiped (config_default (F64 L)) Mmc = Some 2 /\ apart (c_file (config_default (F64 L))).
Proof. intros L. split; [exact (ex_mc_runs L)|]. split; [reflexivity|]. split; [reflexivity|]. intros i s. split; discriminate. Qed.

(** * C52 *)
(** Each thread creates its log and appends its lines one by one; [acts] is any interleaving of these
    actions.  In the end each log has the lines of its run in order, and all other files are as before; ... *)
Theorem C52_schedule : forall T (f : fs T) l acts, NoDup (map fst l) -> interleaving (map (fun p => run_actions (fst p) (snd p)) l) acts ->
  wrote f (exec_all acts f) l.
Proof. exact @schedule. Qed.
Print Assumptions C52_schedule.
(** ... and at any moment in between each log is as before or has the first lines of its run. *)
Theorem C52_moment : forall T (f : fs T) l acts1 acts2, NoDup (map fst l) ->
  interleaving (map (fun p => run_actions (fst p) (snd p)) l) (acts1 ++ acts2) ->
  (forall n ls, In (n, ls) l -> contents (exec_all acts1 f) n = contents f n \/ exists k, contents (exec_all acts1 f) n = Some (firstn k ls)) /\
  (forall n, ~ In n (map fst l) -> contents (exec_all acts1 f) n = contents f n).
Proof. exact @schedule_prefix. Qed.
Print Assumptions C52_moment.
Example C52_schedule_case : forall x y z : line nat, let a := "log0.dat"%string in let b := "log1.dat"%string in
  interleaving (map (fun p => run_actions (fst p) (snd p)) [(a, [x; y]); (b, [z])]) [Create b; Create a; Append a x; Append b z; Append a y] /\ NoDup [a; b].
Proof.
  intros x y z a b. split.
  - cbn. apply (il_cons [_]); apply (il_cons []); apply (il_cons []); apply (il_cons [_]); apply (il_cons []). constructor. repeat constructor.
  - repeat constructor; cbn; intuition discriminate.
Qed.

(** So the simulation modes give the same files under every schedule: log offset+i has the lines of run i,
    which depend on nothing but the configuration and the draws of that run. *)
Theorem C52_modes : forall N fuel rg conf f conf' f', c_log conf = true ->
  let same worker := exists lss, length lss = num_runs N conf /\
    Forall2 (fun i ls => exists sc out, chain_new N conf (dr_new (r_draws N rg i)) = Ok sc /\ worker (r_draws N rg i) sc = Ok out /\ ls = map numbers out) (seq 0 (length lss)) lss /\
    forall acts, interleaving (map (fun p => run_actions (fst p) (snd p)) (logs (c_file conf) (Z.to_nat (offset conf)) lss)) acts ->
      forall n, contents (exec_all acts f) n = contents f' n in
  (run_sim N fuel rg conf f = Ok (conf', f') -> same (sim_worker N (chain_log N) fuel)) /\
  (run_ext N fuel rg conf f = Ok (conf', f') -> same (sim_worker N (log_ext N) fuel)) /\
  (run_sim_response N fuel rg conf f = Ok (conf', f') -> same (response_worker N fuel)).
Proof. exact modes_schedule. Qed.
Print Assumptions C52_modes.
Theorem C52_langevin : forall N fuel g rg conf f conf' f', run_langevin N fuel g rg conf f = Ok (conf', f') ->
  exists lss, length lss = num_runs N conf /\
    Forall2 (fun i ls => exists lc out, lchain_new N conf g (dr_new (r_draws N rg i)) = Ok lc /\
      langevin_worker N fuel (r_draws N rg i) (r_noise N rg i) lc = Ok out /\ ls = l_header N :: map numbers out) (seq 0 (length lss)) lss /\
    forall acts, interleaving (map (fun p => run_actions (fst p) (snd p)) (logs (c_file conf) (Z.to_nat (offset conf)) lss)) acts ->
      forall n, contents (exec_all acts f) n = contents f' n.
Proof. exact langevin_schedule2. Qed.
Print Assumptions C52_langevin.
Example C52_modes_case : forall L rg f, exists r, run_sim (F64 L) ex_fuel rg (config_default (F64 L)) f = Ok r.
Proof. exact ex_sim_runs. Qed.
