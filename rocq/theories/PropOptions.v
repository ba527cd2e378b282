(** C88: the numbers an option takes, those of the help text without them, and the files it writes. *)
From Coq Require Import String SpecFloat Reals List ZArith Arith Lra Lia.
From Verif Require Import Num Monad NumR NumF64 Spin Config Chain Langevin Fit Files Toml Writers Runs Main SpecChain SpecRuns SpecMain SpecHist SpecPeriods SpecOptions
  ProofsRunSamples ProofsReadySamples ProofsHistSamples ProofsPeriods ProofsOptions ProofsOptionsSamples.
Import ListNotations.
Local Close Scope R_scope.
Local Open Scope nat_scope.

(** * C88 *)
(** --histogram adds as many lines to hist_mc.dat and hist_dyn.dat as asked for, or 8000 *)
Theorem C88_histogram : forall N fuel w a f st o, selected a = [Mhist] -> a_hist a = Some o -> main N fuel w a f = Ok st ->
  exists ls1 ls2, length ls1 = Z.to_nat (asked 8000%Z o) /\ length ls2 = Z.to_nat (asked 8000%Z o) /\
    contents (s_fs N st) "hist_mc.dat" = Some (held f "hist_mc.dat" ++ ls1) /\
    contents (s_fs N st) "hist_dyn.dat" = Some (held f "hist_dyn.dat" ++ ls2).
Proof. exact hist_option. Qed.
Print Assumptions C88_histogram.
Example C88_histogram_case : selected (opt_args (beta hist_c) (Some None) None None None None None) = [Mhist] /\
  exists f st, main ERNum 1 hist_w (opt_args (beta hist_c) (Some None) None None None None None) f = Ok st.
Proof. split; [reflexivity|exact hist_opt]. Qed.

(** --magnus-hist adds as many lines to hist_mc_magnus.dat as asked for, or 8000 *)
Theorem C88_magnus : forall N fuel w a f st o, selected a = [Mmagnus] -> a_magnus_hist a = Some o -> main N fuel w a f = Ok st ->
  exists ls, length ls = Z.to_nat (asked 8000%Z o) /\ contents (s_fs N st) "hist_mc_magnus.dat" = Some (held f "hist_mc_magnus.dat" ++ ls).
Proof. exact magnus_option. Qed.
Print Assumptions C88_magnus.
Example C88_magnus_case : forall L, selected (opt_args (nofZ (F64 L) 2) None None None None (Some None) None) = [Mmagnus] /\
  exists st, main (F64 L) ex_fuel (ex_world (F64 L)) (opt_args (nofZ (F64 L) 2) None None None None (Some None) None) (ex_empty (F64 L)) = Ok st.
Proof. intros L. split; [reflexivity|exact (opt_runs L false false true)]. Qed.

(** -d hands as many lines as asked for, or 1000, to the writer of a file named after the run time; the file that the
    help text names, hist_dyn.dat, is left alone *)
Theorem C88_dynhist : forall N fuel w a f st o conf f0, selected a = [Mdynhist] -> a_dynhist a = Some o -> read_config N f = Ok (conf, f0) -> main N fuel w a f = Ok st ->
  let name := ("dyn-hist-t-" ++ r_fmt N (w_rng N w Mdynhist) (c_t conf) ++ ".dat")%string in
  log_name (c_file conf) 0 <> name ->
  (exists rows, length rows = Z.to_nat (asked 1000%Z o) /\
    contents (s_fs N st) name = Some (held f name ++ r_file N (w_rng N w Mdynhist) (map (fun l => [l]) rows))) /\
  (log_name (c_file conf) 0 <> "hist_dyn.dat"%string -> contents (s_fs N st) "hist_dyn.dat" = contents f "hist_dyn.dat").
Proof. exact dynhist_option. Qed.
Print Assumptions C88_dynhist.
Example C88_dynhist_case : forall L, selected (opt_args (nofZ (F64 L) 2) None (Some None) None None None None) = [Mdynhist] /\
  (exists f, read_config (F64 L) (ex_empty (F64 L)) = Ok (config_default (F64 L), f)) /\
  (exists st, main (F64 L) ex_fuel (ex_world (F64 L)) (opt_args (nofZ (F64 L) 2) None (Some None) None None None None) (ex_empty (F64 L)) = Ok st) /\
  log_name (c_file (config_default (F64 L))) 0 <> "dyn-hist-t-.dat"%string /\ log_name (c_file (config_default (F64 L))) 0 <> "hist_dyn.dat"%string.
Proof. intros L. split; [reflexivity|]. split; [exact (ex_read L)|]. split; [exact (opt_runs L true false false)|]. split; discriminate. Qed.

(** -s, in exact arithmetic, if the period is a whole number of steps: as many lines as asked for, or 1000, for the
    ends of the periods 31, 32, ..., in a file named after the run time; the file that the help text names is left alone *)
Theorem C88_trajectory : forall fuel w (a : args (num ERNum)) f o conf f0 x dt c b, selected a = [Mtraj] -> a_singletraj a = Some o -> a_beta a = Some b ->
  read_config ERNum f = Ok (conf, f0) -> steppable ERNum conf -> trel conf = Some 0%R -> tau (overridden (a_tau a) conf) = Some x -> c_dt conf = Some dt ->
  (0 < dt)%R -> 1 <= c -> x = (INR c * dt)%R -> (30 * Z.of_nat c < 2 ^ 64)%Z ->
  let name := ("hist-st-t-" ++ r_fmt ERNum (w_rng ERNum w Mtraj) (c_t conf) ++ ".dat")%string in
  log_name (c_file conf) 0 <> name -> Z.to_nat (asked 1000%Z o) * c <= fuel ->
  exists st rows, main ERNum fuel w a f = Ok st /\ contents (s_fs ERNum st) name = Some (held f name ++ rows) /\ length rows = Z.to_nat (asked 1000%Z o) /\
    (forall j, j < Z.to_nat (asked 1000%Z o) -> exists rest, nth j rows [] = numbers (Some ((31 + INR j) * x)%R :: rest)) /\
    (log_name (c_file conf) 0 <> "hist_sj.dat"%string -> contents (s_fs ERNum st) "hist_sj.dat" = contents f "hist_sj.dat").
Proof. exact traj_option. Qed.
Print Assumptions C88_trajectory.
Example C88_trajectory_case : exists f, ex_dir ex_c f /\ steppable ERNum ex_c /\ trel ex_c = Some 0%R /\ tau ex_c = Some 10%R /\ c_dt ex_c = Some (1 / 50)%R /\
  (10 = INR (Z.to_nat 500) * (1 / 50))%R /\ (30 * Z.of_nat (Z.to_nat 500) < 2 ^ 64)%Z /\
  log_name (c_file ex_c) 0 <> ("hist-st-t-" ++ r_fmt ERNum hist_rng (c_t ex_c) ++ ".dat")%string /\ log_name (c_file ex_c) 0 <> "hist_sj.dat"%string.
Proof. exact traj_opt. Qed.

(** -n, in exact arithmetic: one line for each period listed, for the state after as many periods as --steps says, or
    1000; the name of the file says how many *)
Theorem C88_n_steps : forall fuel w (a : args (num ERNum)) f conf f0 xs r b, selected a = [Mtau] -> a_n_steps_taus a = Some (map Some xs) -> a_beta a = Some b ->
  read_config ERNum f = Ok (conf, f0) -> steppable ERNum conf -> trel conf = Some r ->
  let k := asked 1000%Z (a_steps a) in
  (forall x, In x xs -> (0 < x)%R /\ period_steps r x k <= fuel) ->
  exists st old rows, main ERNum fuel w a f = Ok st /\
    contents (s_fs ERNum st) ("evt" ++ dec (Z.to_nat k) ++ ".dat")%string = Some (old ++ r_file ERNum (w_rng ERNum w Mtau) (map (fun l => [l]) rows)) /\
    Forall2 (fun x row => exists rest, length rest = 5 /\ row = numbers (Some x :: Some (period_end r x k) :: rest)) xs rows.
Proof. exact taus_option. Qed.
Print Assumptions C88_n_steps.
Example C88_n_steps_case : selected (opt_args (Some 2%R : num ERNum) None None None None None (Some (map Some [1; 5]%R))) = [Mtau] /\
  forall x, In x [1; 5]%R -> (0 < x)%R /\ period_steps 0 x 1000 <= Z.to_nat 100000.
Proof.
  split; [reflexivity|]. intros x [<-|[<-|[]]]; (split; [lra|]).
  - rewrite (proj1 (period_short 1 1000 ltac:(lra) ltac:(lia))). apply Z2Nat.inj_le; lia.
  - rewrite (proj1 (period_short 5 1000 ltac:(lra) ltac:(lia))). apply Z2Nat.inj_le; lia.
Qed.

(** -l runs with the damping given, or 1, on the system proper *)
Theorem C88_langevin : forall N fuel w a f st o, selected a = [Mlangevin] -> a_langevin a = Some o -> main N fuel w a f = Ok st ->
  exists conf f0 b, read_config N f = Ok (conf, f0) /\ temperature N fuel (a_beta a) (overridden (a_tau a) conf) b /\
    run_langevin N fuel (asked (nofZ N 1) o) (w_rng N w Mlangevin)
      (set_hsize (set_beta (overridden (a_tau a) conf) b) (ssize conf)) f0 = Ok (s_conf N st, s_fs N st).
Proof. exact langevin_option. Qed.
Print Assumptions C88_langevin.
Example C88_langevin_case : forall L, selected (opt_args (nofZ (F64 L) 2) None None None (Some None) None None) = [Mlangevin] /\
  exists st, main (F64 L) ex_fuel (ex_world (F64 L)) (opt_args (nofZ (F64 L) 2) None None None (Some None) None None) (ex_empty (F64 L)) = Ok st.
Proof. intros L. split; [reflexivity|exact (opt_runs L false true false)]. Qed.
