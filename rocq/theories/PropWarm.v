(** C93: every run starts with twenty million Metropolis moves, and what it records afterwards. *)
From Coq Require Import Reals List ZArith Arith.
From Verif Require Import Num Monad NumR NumF64 Config Chain Fit Files Writers Runs SpecVec SpecChain SpecTotal SpecToml SpecRuns SpecWriters SpecWarm
  Samples ProofsHistorySamples ProofsReadySamples ProofsWarm ProofsWarmSamples.
Import ListNotations.
Local Open Scope nat_scope.

(** * C93 *)
(** The default mode: each log holds the rows of a new chain after its moves, then of the logged time steps *)
Theorem C93_default : forall N fuel rg (conf : config (num N)) f conf' f', run_sim N fuel rg conf f = Ok (conf', f') -> c_log conf = true -> in_range conf -> (0 <= runs conf)%Z ->
  forall i, i < Z.to_nat (runs conf) -> exists c rows, chain_new N conf (dr_new (r_draws N rg i)) = Ok c /\
    contents f' (log_name (c_file conf) (Z.to_nat (offset conf) + i)) = Some (map numbers rows) /\ run_rows N (chain_log N) (r_draws N rg i) c rows.
Proof. exact default_rows. Qed.
Print Assumptions C93_default.
(** The default configuration, in binary64 *)
Example C93_default_case : forall L rg f, exists r, run_sim (F64 L) ex_fuel rg (config_default (F64 L)) f = Ok r.
Proof. exact ex_default_starts. Qed.
Example C93_default_range : forall L, c_log (config_default (F64 L)) = true /\ in_range (config_default (F64 L)) /\ (1 <= runs (config_default (F64 L)))%Z.
Proof. intro L. unfold in_range. cbn. repeat split; discriminate. Qed.

(** The extended log *)
Theorem C93_extended : forall N fuel rg (conf : config (num N)) f conf' f', run_ext N fuel rg conf f = Ok (conf', f') -> c_log conf = true -> in_range conf -> (0 <= runs conf)%Z ->
  forall i, i < Z.to_nat (runs conf) -> exists c rows, chain_new N conf (dr_new (r_draws N rg i)) = Ok c /\
    contents f' (log_name (c_file conf) (Z.to_nat (offset conf) + i)) = Some (map numbers rows) /\ run_rows N (log_ext N) (r_draws N rg i) c rows.
Proof. exact ext_rows. Qed.
Print Assumptions C93_extended.

(** The profiles: each file is made from the snapshots of the runs at its checkpoint *)
Theorem C93_profiles : forall N fuel rg (conf : config (num N)) f conf' f', run_dyn_profile N fuel rg conf f = Ok (conf', f') -> in_range conf -> (0 <= runs conf)%Z ->
  exists ws : list (Z -> list (pmsg N)),
  Forall2 (fun i w => exists c, chain_new N (set_ct conf (nmul N (tau conf) (nofZ N 4000))) (dr_new (r_draws N rg i)) = Ok c /\ forall z, run_sends N (r_draws N rg i) c z (w z))
    (seq 0 (Z.to_nat (runs conf))) ws /\
  forall z, In z [500; 1000; 1500; 2000; 2500; 3000; 3500; 4000]%Z -> exists ls,
    profile_in_bg N (as_usize (hsize conf)) (Z.to_nat (runs conf)) true (r_msgs N rg (map (fun w => w z) ws)) = Ok ls /\ contents f' (profile_name z) = Some ls.
Proof. exact profile_starts. Qed.
Print Assumptions C93_profiles.
Example C93_profiles_case : forall rg f, (forall ws, interleaving ws (r_msgs ERNum rg ws)) -> exists fuel r,
  run_dyn_profile ERNum fuel rg (ex_runs ERNum (Some 0%R) (Some (1 / 50)%R) (Some 256%R) (Some 10%R) false) f = Ok r.
Proof. exact ex_profile_starts. Qed.

(** The mean energy: the samples are taken from time steps after the moves *)
Theorem C93_mean : forall N rg (conf : config (num N)) f e f', trajectory_mean_e N rg conf f = Ok (e, f') -> in_range conf -> (0 <= runs conf)%Z ->
  exists ess, Forall2 (fun i es => exists c c0, chain_new N conf (dr_new (r_draws N rg i)) = Ok c /\ warmed N (dr_mc (r_draws N rg i)) c c0 /\ traj_run N c0 = Ok es)
    (seq 0 (Z.to_nat (runs conf))) ess /\ e = traj_mean N (r_nums N rg ess).
Proof. exact mean_starts. Qed.
Print Assumptions C93_mean.
Example C93_mean_case : forall rg f, exists r,
  trajectory_mean_e ERNum rg (ex_runs ERNum (Some 0%R) (Some (1 / 50)%R) (Some 256%R) (Some (INR 500 * (1 / 50))%R) false) f = Ok r.
Proof. exact ex_mean_starts. Qed.
