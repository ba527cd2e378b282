(** Theorems about averages over the logs of several invocations: property C89. *)
From Coq Require Import String Reals ZArith List Arith Lia Lra.
From Flocq Require Import Core.
From Verif Require Import Num Monad NumR Config Chain Files Toml Average Runs Main SpecChain SpecWriters SpecRuns SpecMain SpecSession ProofsSession5 ProofsSessionSamples.
Import ListNotations.
Local Close Scope R_scope.
Local Open Scope nat_scope.

(** * C89 *)
(** [K] completed default invocations in a directory without files that <file>*.dat stands for, then -a: every log has a line for
    each of the times -trel, -trel + dt, ..., and avg.dat has, for each time but the first, the means over all logs of all invocations,
    column by column (NaN if one of them is NaN).  The first line of a default log is data, but -a takes it for a header.  The other files
    and the configuration stay as they are. *)
Theorem C89_average : forall K f g f0 conf r dt tmax fuel w a st,
  session ERNum (fun a => selected a = []) K f g -> 1 <= K -> tidy f ->
  read_config ERNum f = Ok (conf, f0) -> timed r dt tmax conf -> (0 < dt)%R -> (1 <= runs conf)%Z -> (forall nm, stands_for (c_file conf) nm -> contents f nm = None) ->
  selected a = [Mavg] -> main ERNum fuel w a g = Ok st ->
  let m := Z.to_nat (Zceil ((tmax + r) / dt)) in let n := K * Z.to_nat (runs conf) in
  exists rows, (forall i, i < n -> steps_table r dt 12 (rows i)) /\
    (forall i, i < n -> contents g (log_name (c_file conf) (Z.to_nat (offset conf) + i)) = Some (map (fun k => numbers (rows i k)) (seq 0 (S m)))) /\
    contents (s_fs ERNum st) "avg.dat" = Some (map (fun k => numbers (mean_line 13 (map (fun i => rows i k) (seq 0 n)))) (seq 1 m)) /\
    steps_table r dt 12 (fun k => mean_line 13 (map (fun i => rows i k) (seq 0 n))) /\
    (forall nm, nm <> "avg.dat"%string -> contents (s_fs ERNum st) nm = contents g nm) /\ f_conf (s_fs ERNum st) = f_conf g.
Proof. exact default_average. Qed.
Print Assumptions C89_average.
(** Three invocations of two runs of 5050 steps, then -a *)
Example C89_average_case : forall w : world ERNum, exists f g fuel st, read_config ERNum f = Ok (ses_c 1, f) /\ tidy f /\ (forall nm, contents f nm = None) /\
  session ERNum (fun a => selected a = []) 3 f g /\ main ERNum fuel w (with_av true false None) g = Ok st.
Proof. exact case_average. Qed.
Example C89_conf_case : forall r, timed r (1 / 50) 100 (ses_c r) /\ ltimed r (1 / 50) 100 (ses_c r) /\ (1 <= runs (ses_c r))%Z /\
  selected (with_av true false None) = [Mavg] /\ selected (with_av false true None) = [Mtwopoint].
Proof. intros r. split; [apply ses_timed|]. split; [apply ses_ltimed|]. split; [cbn; lia|]. split; reflexivity. Qed.

(** With -l the logs do have a header, and avg.dat has the means for all times. *)
Theorem C89_langevin : forall K f g f0 conf r dt tmax fuel w a st,
  session ERNum langevin_args K f g -> 1 <= K -> tidy f ->
  read_config ERNum f = Ok (conf, f0) -> ltimed r dt tmax conf -> (0 < dt)%R -> (1 <= runs conf)%Z -> (forall nm, stands_for (c_file conf) nm -> contents f nm = None) ->
  selected a = [Mavg] -> main ERNum fuel w a g = Ok st ->
  let m := Z.to_nat (Zceil ((tmax + r) / dt)) in let n := K * Z.to_nat (runs conf) in
  exists rows, (forall i, i < n -> steps_table r dt 7 (rows i)) /\
    (forall i, i < n -> contents g (log_name (c_file conf) (Z.to_nat (offset conf) + i)) = Some ([Tword "#t"; Tword "E_total"; Tword "E_sub"; Tword "M_x"; Tword "M_y"; Tword "M_z"]%string :: map (fun k => numbers (rows i k)) (seq 0 (S m)))) /\
    contents (s_fs ERNum st) "avg.dat" = Some (map (fun k => numbers (mean_line 8 (map (fun i => rows i k) (seq 0 n)))) (seq 0 (S m))) /\
    steps_table r dt 7 (fun k => mean_line 8 (map (fun i => rows i k) (seq 0 n))) /\
    (forall nm, nm <> "avg.dat"%string -> contents (s_fs ERNum st) nm = contents g nm) /\ f_conf (s_fs ERNum st) = f_conf g.
Proof. exact langevin_average. Qed.
Print Assumptions C89_langevin.
Example C89_langevin_case : forall w : world ERNum, exists f g fuel st, read_config ERNum f = Ok (ses_c 1, f) /\ tidy f /\ (forall nm, contents f nm = None) /\
  session ERNum langevin_args 3 f g /\ main ERNum fuel w (with_av true false None) g = Ok st.
Proof. exact case_langevin. Qed.

(** The two-point averages -w: with trel a positive whole number [k0] of time steps, two-point.dat has the means of x(t) x(0), where
    x(0) is line [k0] of the same log; again the first time is missing. *)
Theorem C89_two_point : forall K f g f0 conf k0 dt tmax fuel w a st,
  session ERNum (fun a => selected a = []) K f g -> 1 <= K -> tidy f ->
  read_config ERNum f = Ok (conf, f0) -> timed (INR k0 * dt) dt tmax conf -> (1 / 100000 <= dt)%R -> (0 <= tmax)%R -> 1 <= k0 -> (1 <= runs conf)%Z ->
  (forall nm, stands_for (c_file conf) nm -> contents f nm = None) ->
  selected a = [Mtwopoint] -> main ERNum fuel w a g = Ok st ->
  let m := Z.to_nat (Zceil ((tmax + INR k0 * dt) / dt)) in let n := K * Z.to_nat (runs conf) in
  exists rows, (forall i, i < n -> steps_table (INR k0 * dt) dt 12 (rows i)) /\
    (forall i, i < n -> contents g (log_name (c_file conf) (Z.to_nat (offset conf) + i)) = Some (map (fun k => numbers (rows i k)) (seq 0 (S m)))) /\
    contents (s_fs ERNum st) "two-point.dat" = Some (map (fun k => numbers (mean_line 13 (map (fun i => against (rows i k0) (rows i k)) (seq 0 n)))) (seq 1 m)) /\
    steps_table (INR k0 * dt) dt 12 (fun k => mean_line 13 (map (fun i => against (rows i k0) (rows i k)) (seq 0 n))) /\
    (forall nm, nm <> "two-point.dat"%string -> contents (s_fs ERNum st) nm = contents g nm) /\ f_conf (s_fs ERNum st) = f_conf g.
Proof. exact default_two. Qed.
Print Assumptions C89_two_point.
(** The time 0 is step 50 *)
Example C89_two_point_case : forall w : world ERNum, exists f g fuel st, read_config ERNum f = Ok (ses_c (INR 50 * (1 / 50)), f) /\ tidy f /\ (forall nm, contents f nm = None) /\
  session ERNum (fun a => selected a = []) 3 f g /\ main ERNum fuel w (with_av false true None) g = Ok st.
Proof. exact case_two. Qed.

(** With -l the relaxation time may be 0, and all times are there. *)
Theorem C89_two_langevin : forall K f g f0 conf k0 dt tmax fuel w a st,
  session ERNum langevin_args K f g -> 1 <= K -> tidy f ->
  read_config ERNum f = Ok (conf, f0) -> ltimed (INR k0 * dt) dt tmax conf -> (1 / 100000 <= dt)%R -> (0 <= tmax)%R -> (1 <= runs conf)%Z ->
  (forall nm, stands_for (c_file conf) nm -> contents f nm = None) ->
  selected a = [Mtwopoint] -> main ERNum fuel w a g = Ok st ->
  let m := Z.to_nat (Zceil ((tmax + INR k0 * dt) / dt)) in let n := K * Z.to_nat (runs conf) in
  exists rows, (forall i, i < n -> steps_table (INR k0 * dt) dt 7 (rows i)) /\
    (forall i, i < n -> contents g (log_name (c_file conf) (Z.to_nat (offset conf) + i)) = Some ([Tword "#t"; Tword "E_total"; Tword "E_sub"; Tword "M_x"; Tword "M_y"; Tword "M_z"]%string :: map (fun k => numbers (rows i k)) (seq 0 (S m)))) /\
    contents (s_fs ERNum st) "two-point.dat" = Some (map (fun k => numbers (mean_line 8 (map (fun i => against (rows i k0) (rows i k)) (seq 0 n)))) (seq 0 (S m))) /\
    steps_table (INR k0 * dt) dt 7 (fun k => mean_line 8 (map (fun i => against (rows i k0) (rows i k)) (seq 0 n))) /\
    (forall nm, nm <> "two-point.dat"%string -> contents (s_fs ERNum st) nm = contents g nm) /\ f_conf (s_fs ERNum st) = f_conf g.
Proof. exact langevin_two. Qed.
Print Assumptions C89_two_langevin.
Example C89_two_langevin_case : forall w : world ERNum, exists f g fuel st, read_config ERNum f = Ok (ses_c (INR 50 * (1 / 50)), f) /\ tidy f /\ (forall nm, contents f nm = None) /\
  session ERNum langevin_args 3 f g /\ main ERNum fuel w (with_av false true None) g = Ok st.
Proof. exact case_ltwo. Qed.

(** But with the relaxation time 0 the line at time 0 of a default log is its first line, so -w panics. *)
Theorem C89_two_panics : forall K f g f0 conf dt tmax fuel w a b,
  session ERNum (fun a => selected a = []) K f g -> 1 <= K -> tidy f ->
  read_config ERNum f = Ok (conf, f0) -> timed 0 dt tmax conf -> (1 / 100000 <= dt)%R -> (0 < tmax)%R -> (1 <= runs conf)%Z ->
  (forall nm, stands_for (c_file conf) nm -> contents f nm = None) ->
  selected a = [Mtwopoint] -> a_beta a = Some b -> main ERNum fuel w a g = Panic IndexOOB.
Proof. exact default_two_panics. Qed.
Print Assumptions C89_two_panics.
Example C89_two_panics_case : forall w : world ERNum, exists f g, read_config ERNum f = Ok (ses_c 0, f) /\ tidy f /\ (forall nm, contents f nm = None) /\
  session ERNum (fun a => selected a = []) 3 f g.
Proof. exact case_panics. Qed.

(** Averaging once more gives the same averages, if avg.dat is not itself one of the files averaged, ... *)
Theorem C89_again : forall N fuel w (a : args (num N)) f st fuel' w' (a' : args (num N)) st' conf f0,
  selected a = [Mavg] -> selected a' = [Mavg] -> read_config N f = Ok (conf, f0) ->
  ~ stands_for (c_file conf) "avg.dat" -> main N fuel w a f = Ok st -> main N fuel' w' a' (s_fs N st) = Ok st' ->
  contents (s_fs N st') "avg.dat" = contents (s_fs N st) "avg.dat".
Proof. exact average_again. Qed.
Print Assumptions C89_again.
Example C89_again_case : ~ stands_for "log" "avg.dat".
Proof. intros [mid H]. discriminate H. Qed.
(** ... which it is with the file prefix "a": then the second average is another one. *)
Theorem C89_again_refuted : forall w : world ERNum, exists (f : fs (num ERNum)) st st', tidy f /\
  contents f "a0.dat" = Some [numbers [Some 0%R]; numbers [Some 1%R]; numbers [Some 2%R]] /\ (forall nm, nm <> "a0.dat"%string -> contents f nm = None) /\
  main ERNum 0 w (with_av true false None) f = Ok st /\ main ERNum 0 w (with_av true false None) (s_fs ERNum st) = Ok st' /\
  contents (s_fs ERNum st) "avg.dat" = Some [numbers [Some 1%R]; numbers [Some 2%R]] /\
  contents (s_fs ERNum st') "avg.dat" = Some [numbers [Some (3 / 2)%R]; numbers [Some 2%R]].
Proof. exact refuted_again. Qed.
Print Assumptions C89_again_refuted.
