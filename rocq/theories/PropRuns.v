(** Theorems about the simulation runs: properties C45, C48 (the logs of the default simulation),
    C49, C50 and C58. *)
From Coq Require Import String SpecFloat Reals ZArith List Lra Lia Permutation.
From Flocq Require Import Core.
From Verif Require Import Num Monad NumR NumF64 Spin Config Chain Files Writers Average Runs SpecVec SpecChain SpecTotal
  SpecToml SpecWriters SpecRuns Samples ProofsRunSamples ProofsSim ProofsStrobe ProofsTraj ProofsCheckpoints ProofsZeroRow.
Import ListNotations.
Local Close Scope R_scope.
Local Open Scope nat_scope.

(** * C49 *)
(** In exact arithmetic a run from time [x] makes ceil((t - x)/dt) steps, none if there is no time
    left, and without strobing logs the state after each of them: a line per step and one for the
    initial state, each with the time and twelve more numbers. *)
Theorem C49_steps : forall n s (sc : chain (num ERNum)) x dt tmax fuel,
  wf n s sc -> 2 <= n -> 1 <= s -> hs_ok (vars sc) -> strob (vars sc) = false ->
  t sc = Some x -> c_dt (vars sc) = Some dt -> c_t (vars sc) = Some tmax -> (0 < dt)%R ->
  let m := Z.to_nat (Zceil ((tmax - x) / dt)) in
  (m <= fuel -> exists st lines, dynamics ERNum sc st /\ (forall k, chain_log ERNum (st k) = Ok (lines k)) /\
      (forall k, exists l, length l = 12 /\ lines k = if has_file sc then [Some (x + INR k * dt)%R :: l] else []) /\
      sim_run ERNum (chain_log ERNum) fuel sc = Ok (concat (map lines (seq 0 (S m))))) /\
  (fuel < m -> sim_run ERNum (chain_log ERNum) fuel sc = OutOfFuel).
Proof. exact sim_steps. Qed.
Print Assumptions C49_steps.
(** A run of a hundred time units with steps of 1/50 starting at -1 *)
Example C49_steps_case : let sc := ex_at ERNum (Some (-1)%R) (Some (1 / 50)%R) (Some 100%R) (Some 10%R) false in
  wf 4 2 sc /\ hs_ok (vars sc) /\ strob (vars sc) = false /\ t sc = Some (-1)%R /\ c_dt (vars sc) = Some (1 / 50)%R /\ c_t (vars sc) = Some 100%R /\
  Z.to_nat (Zceil ((100 - -1) / (1 / 50))) = Z.to_nat 5050.
Proof. split; [apply ex_at_wf|]. split; [apply ex_at_hs|]. repeat split. exact steps_5050. Qed.

(** The whole mode: it returns, log i of the new runs has a line for each time -trel, -trel + dt,
    ..., and no other file changes. *)
Theorem C49_files : forall fuel rg (conf : config (num ERNum)) f r dt tmax,
  usable ERNum conf -> c_log conf = true -> strob conf = false ->
  trel conf = Some r -> c_dt conf = Some dt -> c_t conf = Some tmax -> (0 < dt)%R ->
  let m := Z.to_nat (Zceil ((tmax + r) / dt)) in m <= fuel ->
  exists conf' f', run_sim ERNum fuel rg conf f = Ok (conf', f') /\
    (forall i, i < Z.to_nat (runs conf) ->
       exists ls, contents f' (log_name (c_file conf) (Z.to_nat (offset conf) + i)) = Some ls /\ length ls = S m /\
       forall k, k <= m -> exists rest, length rest = 12 /\ nth_error ls k = Some (numbers (Some (- r + INR k * dt)%R :: rest))) /\
    (forall nm, (forall i, i < Z.to_nat (runs conf) -> nm <> log_name (c_file conf) (Z.to_nat (offset conf) + i)) ->
       contents f' nm = contents f nm).
Proof. exact run_sim_files. Qed.
Print Assumptions C49_files.
Example C49_files_case : usable ERNum (ex_runs ERNum (Some 1%R) (Some (1 / 50)%R) (Some 100%R) (Some 10%R) false).
Proof. exact (ex_runs_usable_ER _ _ _ _ _). Qed.

(** In binary64 the loop never ends if -trel + dt rounds to -trel. *)
Theorem C49_never_ends : forall L rg (conf : config (num (F64 L))) f,
  usable (F64 L) conf -> (1 <= runs conf)%Z -> strob conf = false ->
  f_add (SFopp (trel conf)) (c_dt conf) = SFopp (trel conf) -> SFltb (SFopp (trel conf)) (c_t conf) = true ->
  forall fuel, run_sim (F64 L) fuel rg conf f = OutOfFuel.
Proof. exact run_sim_hangs. Qed.
Print Assumptions C49_never_ends.
(** trel = 10^17, dt = 0.02, t = 256 *)
Example C49_never_ends_case : forall L, let conf := ex_runs (F64 L) (f_ofZ (10 ^ 17)) (f_lit 2 2) (f_ofZ 256) (f_ofZ 10) false in
  usable (F64 L) conf /\ f_add (SFopp (trel conf)) (c_dt conf) = SFopp (trel conf) /\ SFltb (SFopp (trel conf)) (c_t conf) = true.
Proof. intros L. split; [apply ex_runs_usable_F64|]. split; vm_compute; reflexivity. Qed.

(** And the number of steps is not the exact one: with t = 100 and dt = 0.1 there are 1001 steps
    instead of 1000, hence 1002 lines. *)
Theorem C49_extra_step : forall L n s (sc : chain (num (F64 L))) fuel,
  wf n s sc -> 2 <= n -> 1 <= s -> hs_ok (vars sc) -> strob (vars sc) = false -> has_file sc = true ->
  t sc = SFopp (f_ofZ 0) -> c_dt (vars sc) = f_lit 1 1 -> c_t (vars sc) = f_ofZ 100 -> 1001 <= fuel ->
  exists ls, sim_run (F64 L) (chain_log (F64 L)) fuel sc = Ok ls /\ length ls = 1002.
Proof. exact sim_1001. Qed.
Print Assumptions C49_extra_step.
Example C49_extra_step_case : forall L, let sc := ex_at (F64 L) (SFopp (f_ofZ 0)) (f_lit 1 1) (f_ofZ 100) (f_ofZ 10) false in
  wf 4 2 sc /\ hs_ok (vars sc) /\ has_file sc = true /\ t sc = SFopp (f_ofZ 0).
Proof. intros L. split; [apply ex_at_wf|]. split; [apply ex_at_hs|]. split; reflexivity. Qed.

(** * C50 *)
(** Strobing, exact arithmetic, starting at time 0, tau a multiple of dt: besides the initial state
    exactly the states after whole periods are logged. *)
Theorem C50_periods : forall n s (sc : chain (num ERNum)) dt tmax c fuel,
  wf n s sc -> 2 <= n -> 1 <= s -> hs_ok (vars sc) -> strob (vars sc) = true ->
  t sc = Some 0%R -> c_dt (vars sc) = Some dt -> c_t (vars sc) = Some tmax -> tau (vars sc) = Some (INR c * dt)%R -> (0 < dt)%R ->
  1 <= c -> (Z.of_nat c < 2 ^ 64)%Z -> (Z.of_nat (Z.to_nat (Zceil (tmax / dt))) < 2 ^ 64)%Z -> Z.to_nat (Zceil (tmax / dt)) <= fuel ->
  exists st lines, dynamics ERNum sc st /\ (forall k, chain_log ERNum (st k) = Ok (lines k)) /\ (forall k, t (st k) = Some (INR k * dt)%R) /\
   sim_run ERNum (chain_log ERNum) fuel sc =
     Ok (concat (map lines (0 :: filter (fun k => k mod c =? 0) (seq 1 (Z.to_nat (Zceil (tmax / dt))))))).
Proof. exact strobe_periods. Qed.
Print Assumptions C50_periods.
Example C50_periods_case : let sc := ex_at ERNum (Some 0%R) (Some (1 / 50)%R) (Some 100%R) (Some (INR 500 * (1 / 50))%R) true in
  wf 4 2 sc /\ hs_ok (vars sc) /\ strob (vars sc) = true /\ t sc = Some 0%R /\ (Z.of_nat (Z.to_nat (Zceil (100 / (1 / 50)))) < 2 ^ 64)%Z.
Proof. split; [apply ex_at_wf|]. split; [apply ex_at_hs|]. repeat split. exact steps_5000. Qed.

(** At negative times every step is logged. *)
Theorem C50_negative : forall n s (sc : chain (num ERNum)) x dt tmax tc fuel,
  wf n s sc -> 2 <= n -> 1 <= s -> hs_ok (vars sc) -> strob (vars sc) = true ->
  t sc = Some x -> c_dt (vars sc) = Some dt -> c_t (vars sc) = Some tmax -> tau (vars sc) = Some tc -> (0 < dt)%R -> (dt <= tc)%R ->
  Z.to_nat (Zceil ((tmax - x) / dt)) <= fuel ->
  exists st lines b, dynamics ERNum sc st /\ (forall k, chain_log ERNum (st k) = Ok (lines k)) /\ (forall k, t (st k) = Some (x + INR k * dt)%R) /\
   sim_run ERNum (chain_log ERNum) fuel sc = Ok (concat (map lines (0 :: filter b (seq 1 (Z.to_nat (Zceil ((tmax - x) / dt))))))) /\
   forall k, (x + INR k * dt < 0)%R -> b k = true.
Proof. exact strobe_negative. Qed.
Print Assumptions C50_negative.
Example C50_negative_case : let sc := ex_at ERNum (Some (-1)%R) (Some (1 / 50)%R) (Some 100%R) (Some 10%R) true in
  wf 4 2 sc /\ hs_ok (vars sc) /\ strob (vars sc) = true /\ (-1 + INR 3 * (1 / 50) < 0)%R.
Proof. split; [apply ex_at_wf|]. split; [apply ex_at_hs|]. split; [reflexivity|]. simpl INR. lra. Qed.

(** A period shorter than a step is a division by zero. *)
Theorem C50_short_period : forall n s (sc : chain (num ERNum)) x dt tmax tc fuel,
  wf n s sc -> 2 <= n -> 1 <= s -> hs_ok (vars sc) -> strob (vars sc) = true ->
  t sc = Some x -> c_dt (vars sc) = Some dt -> c_t (vars sc) = Some tmax -> tau (vars sc) = Some tc -> (0 < dt)%R ->
  (tc < dt)%R -> (x < tmax)%R -> 1 <= fuel -> sim_run ERNum (chain_log ERNum) fuel sc = Panic DivByZero.
Proof. exact strobe_zero. Qed.
Print Assumptions C50_short_period.
Example C50_short_period_case : let sc := ex_at ERNum (Some (-1)%R) (Some (1 / 50)%R) (Some 100%R) (Some (1 / 100)%R) true in
  wf 4 2 sc /\ hs_ok (vars sc) /\ strob (vars sc) = true /\ (1 / 100 < 1 / 50)%R.
Proof. split; [apply ex_at_wf|]. split; [apply ex_at_hs|]. split; [reflexivity|]. lra. Qed.

(** In binary64 the default tau = 10, dt = 0.02, t = 256 does not log whole periods of 500 steps: the
    first three come a step late, the next five in time, the following six late again, ... *)
Theorem C50_binary64 : forall L n s (sc : chain (num (F64 L))) fuel,
  wf n s sc -> 2 <= n -> 1 <= s -> hs_ok (vars sc) -> strob (vars sc) = true ->
  t sc = SFopp (f_ofZ 0) -> c_dt (vars sc) = f_lit 2 2 -> c_t (vars sc) = f_ofZ 256 -> tau (vars sc) = f_ofZ 10 -> Z.to_nat 12800 <= fuel ->
  exists st lines, dynamics (F64 L) sc st /\ (forall k, chain_log (F64 L) (st k) = Ok (lines k)) /\
   sim_run (F64 L) (chain_log (F64 L)) fuel sc = Ok (concat (map lines (0 :: map Z.to_nat
     [501; 1001; 1501; 2000; 2500; 3000; 3500; 4000; 4501; 5001; 5501; 6001; 6501; 7001; 7500; 8000; 8500; 9000; 9500;
      10000; 10500; 11000; 11500; 12000; 12500]%Z))).
Proof. exact strobe_f64. Qed.
Print Assumptions C50_binary64.
Example C50_binary64_case : forall L, let sc := ex_at (F64 L) (SFopp (f_ofZ 0)) (f_lit 2 2) (f_ofZ 256) (f_ofZ 10) true in
  wf 4 2 sc /\ hs_ok (vars sc) /\ strob (vars sc) = true /\ t sc = SFopp (f_ofZ 0).
Proof. intros L. split; [apply ex_at_wf|]. split; [apply ex_at_hs|]. split; reflexivity. Qed.

(** * C45 *)
(** One run of run_dyn_profile: if some step ends within dt/5 of the end of cycle [z], exactly the
    state after that step is sent to the profile of [z], site by site; if no step does, nothing is
    sent. *)
Theorem C45_one_snapshot : forall n s (sc : chain (num ERNum)) x dt tc fuel,
  wf n s sc -> 2 <= n -> hs_ok (vars sc) ->
  t sc = Some x -> c_dt (vars sc) = Some dt -> tau (vars sc) = Some tc -> c_t (vars sc) = Some (tc * 4000)%R ->
  (0 < dt)%R -> (2 * dt / 5 <= 500 * tc)%R ->
  let m := Z.to_nat (Zceil ((tc * 4000 - x) / dt)) in
  (m <= fuel -> exists st l, dynamics ERNum sc st /\ profile_run ERNum fuel sc = Ok l /\
      forall z, In z [500; 1000; 1500; 2000; 2500; 3000; 3500; 4000]%Z ->
        (forall k, 1 <= k -> (Rabs (x + INR k * dt - IZR z * tc) < dt / 5)%R ->
            snapshot ERNum (st k) = Ok (sent_to ERNum z l) /\ map p_i (sent_to ERNum z l) = seq 0 n) /\
        ((forall k, 1 <= k -> (dt / 5 <= Rabs (x + INR k * dt - IZR z * tc))%R) -> sent_to ERNum z l = [])) /\
  (fuel < m -> profile_run ERNum fuel sc = OutOfFuel).
Proof. exact profile_counts. Qed.
Print Assumptions C45_one_snapshot.
Example C45_one_snapshot_case : let sc := ex_at ERNum (Some 0%R) (Some (1 / 50)%R) (Some (10 * 4000)%R) (Some 10%R) false in
  wf 4 2 sc /\ hs_ok (vars sc) /\ (2 * (1 / 50) / 5 <= 500 * 10)%R /\ (exists k, 1 <= k /\ (Rabs (0 + INR k * (1 / 50) - IZR 500 * 10) < 1 / 50 / 5)%R).
Proof. split; [apply ex_at_wf|]. split; [apply ex_at_hs|]. split; [lra|]. exact (hit_50 500 ltac:(lia)). Qed.

(** Whatever the period, there is at most one snapshot per checkpoint, taken within dt/5 of it. *)
Theorem C45_at_most_one : forall n s (sc : chain (num ERNum)) x dt tc tmax fuel l,
  wf n s sc -> 2 <= n -> hs_ok (vars sc) ->
  t sc = Some x -> c_dt (vars sc) = Some dt -> tau (vars sc) = Some tc -> c_t (vars sc) = Some tmax -> (0 < dt)%R ->
  profile_run ERNum fuel sc = Ok l -> exists st, dynamics ERNum sc st /\
    forall z, sent_to ERNum z l = [] \/
      exists k, 1 <= k /\ (Rabs (x + INR k * dt - IZR z * tc) < dt / 5)%R /\ snapshot ERNum (st k) = Ok (sent_to ERNum z l).
Proof. exact profile_at_most. Qed.
Print Assumptions C45_at_most_one.
(** The bound 2 dt / 5 <= 500 tau in C45_one_snapshot is needed: with dt = 1 and tau = 1/3750 the
    first step is near the end of cycles 3500 and 4000, but nothing is sent for the latter. *)
Theorem C45_short_period : forall n s (sc : chain (num ERNum)) fuel l,
  wf n s sc -> 2 <= n -> hs_ok (vars sc) ->
  t sc = Some 0%R -> c_dt (vars sc) = Some 1%R -> tau (vars sc) = Some (1 / 3750)%R -> c_t (vars sc) = Some (1 / 3750 * 4000)%R ->
  profile_run ERNum fuel sc = Ok l ->
  (Rabs (0 + INR 1 * 1 - IZR 4000 * (1 / 3750)) < 1 / 5)%R /\ sent_to ERNum 4000 l = [].
Proof. exact profile_overlap. Qed.
Print Assumptions C45_short_period.
Example C45_short_period_case : let sc := ex_at ERNum (Some 0%R) (Some 1%R) (Some (1 / 3750 * 4000)%R) (Some (1 / 3750)%R) false in
  exists l, profile_run ERNum 2 sc = Ok l.
Proof. exact short_period_returns. Qed.

(** The whole mode: it returns if every checkpoint is met; if one is not, it waits for ever for the
    missing messages (it runs out of any amount of fuel). *)
Theorem C45_mode : forall fuel rg (conf : config (num ERNum)) f r dt tc,
  usable ERNum conf -> (1 <= runs conf)%Z -> (forall ws, interleaving ws (r_msgs ERNum rg ws)) ->
  trel conf = Some r -> c_dt conf = Some dt -> tau conf = Some tc -> (0 < dt)%R -> (2 * dt / 5 <= 500 * tc)%R ->
  ((forall z, In z [500; 1000; 1500; 2000; 2500; 3000; 3500; 4000]%Z -> hit (- r) dt tc z) ->
     Z.to_nat (Zceil ((tc * 4000 + r) / dt)) <= fuel -> returns (run_dyn_profile ERNum fuel rg conf f)) /\
  ((exists z, In z [500; 1000; 1500; 2000; 2500; 3000; 3500; 4000]%Z /\ ~ hit (- r) dt tc z) ->
     run_dyn_profile ERNum fuel rg conf f = OutOfFuel).
Proof. exact dyn_profile. Qed.
Print Assumptions C45_mode.
(** The default tau = 10 with dt = 0.02 meets them all; with dt = 0.03 the first one is missed. *)
Example C45_mode_case : usable ERNum (ex_runs ERNum (Some 0%R) (Some (1 / 50)%R) (Some 256%R) (Some 10%R) false) /\
  (forall z, (1 <= z)%Z -> hit (- 0) (1 / 50) 10 z) /\ ~ hit (- 0) (3 / 100) 10 500.
Proof. split; [exact (ex_runs_usable_ER _ _ _ _ _)|]. split; [exact all_hit_50|exact miss_03]. Qed.
(** An oracle that delivers in order of the runs *)
Example C45_order_case : forall ws : list (list (pmsg ERNum)), interleaving ws (concat ws).
Proof. exact concat_interleaving. Qed.

(** * C48 *)
(** Without relaxation time no line of a log but the first, which is skipped, is at time zero: the
    two-point average of any set of files with such a log panics. *)
Theorem C48_default_logs : forall fuel rg (conf : config (num ERNum)) f dt tmax,
  usable ERNum conf -> (1 <= runs conf)%Z -> c_log conf = true -> strob conf = false ->
  trel conf = Some 0%R -> c_dt conf = Some dt -> c_t conf = Some tmax -> (1 / 100000 <= dt)%R -> (0 < tmax)%R ->
  Z.to_nat (Zceil (tmax / dt)) <= fuel ->
  exists conf' f', run_sim ERNum fuel rg conf f = Ok (conf', f') /\
   forall i, i < Z.to_nat (runs conf) -> exists ls, contents f' (log_name (c_file conf) (Z.to_nat (offset conf) + i)) = Some ls /\
     2 <= length ls /\ forall files, In ls files -> exists p, two_point_average ERNum files = Panic p.
Proof. exact default_two_point. Qed.
Print Assumptions C48_default_logs.
Example C48_default_logs_case : usable ERNum (ex_runs ERNum (Some 0%R) (Some (1 / 50)%R) (Some 256%R) (Some 10%R) false).
Proof. exact (ex_runs_usable_ER _ _ _ _ _). Qed.

(** * C58 *)
(** One run, over any numbers, with [c] steps per cycle and [total] steps altogether: the system
    energies after the steps that follow a multiple of [c] above 99 [c]. *)
Theorem C58_samples : forall N n s (sc : chain (num N)) c total,
  wf n s sc -> 2 <= n -> 1 <= s -> hs_ok (vars sc) ->
  ntou64 N (ndiv N (tau (vars sc)) (c_dt (vars sc))) = Z.of_nat c ->
  ntou64 N (ndiv N (nmul N (nofZ N 1000) (tau (vars sc))) (c_dt (vars sc))) = Z.of_nat total ->
  1 <= c -> (99 * Z.of_nat c < 2 ^ 64)%Z ->
  exists st e, dynamics N sc st /\ (forall k, system_energy N (st k) = Ok (e k)) /\
    traj_run N sc = Ok (map (fun i => e (S i)) (filter (fun i => ((i mod c =? 0) && (99 * c <? i))%bool) (seq 0 total))).
Proof. exact traj_run_ok. Qed.
Print Assumptions C58_samples.
(** If tau is [c] times dt these are the 900 states after steps 100 c + 1, 101 c + 1, ..., 999 c + 1. *)
Theorem C58_cycles : forall n s (sc : chain (num ERNum)) c dt,
  wf n s sc -> 2 <= n -> 1 <= s -> hs_ok (vars sc) ->
  c_dt (vars sc) = Some dt -> tau (vars sc) = Some (INR c * dt)%R -> (0 < dt)%R -> 1 <= c -> (1000 * Z.of_nat c < 2 ^ 64)%Z ->
  exists st e, dynamics ERNum sc st /\ (forall k, system_energy ERNum (st k) = Ok (e k)) /\
    traj_run ERNum sc = Ok (map (fun j => e (j * c + 1)) (seq 100 900)).
Proof. exact traj_cycles. Qed.
Print Assumptions C58_cycles.
Example C58_cycles_case : let sc := ex_at ERNum (Some 0%R) (Some (1 / 50)%R) (Some 100%R) (Some (INR 500 * (1 / 50))%R) false in
  wf 4 2 sc /\ hs_ok (vars sc) /\ c_dt (vars sc) = Some (1 / 50)%R /\ tau (vars sc) = Some (INR 500 * (1 / 50))%R.
Proof. split; [apply ex_at_wf|]. split; [apply ex_at_hs|]. split; reflexivity. Qed.
(** No step in a cycle: division by zero *)
Theorem C58_zero : forall N n s (sc : chain (num N)), wf n s sc -> 2 <= n -> hs_ok (vars sc) ->
  ntou64 N (ndiv N (tau (vars sc)) (c_dt (vars sc))) = 0%Z ->
  (1 <= ntou64 N (ndiv N (nmul N (nofZ N 1000) (tau (vars sc))) (c_dt (vars sc))))%Z ->
  traj_run N sc = Panic DivByZero.
Proof. exact traj_run_zero. Qed.
Print Assumptions C58_zero.
Example C58_zero_case : forall L, let sc := ex_at (F64 L) (f_ofZ 0) (f_lit 2 2) (f_ofZ 256) (f_lit 1 2) false in
  f_tou64 (f_div (tau (vars sc)) (c_dt (vars sc))) = 0%Z /\ f_tou64 (f_div (f_mul (f_ofZ 1000) (tau (vars sc))) (c_dt (vars sc))) = 500%Z.
Proof. intros L. split; vm_compute; reflexivity. Qed.
(** The result is the mean of what was received, whatever the order; NaN if nothing was. *)
Theorem C58_mean : forall l, l <> [] -> traj_mean ERNum (map Some l) = Some (avg l).
Proof. exact traj_mean_ok. Qed.
Print Assumptions C58_mean.
Theorem C58_order : forall l l', Permutation l l' -> traj_mean ERNum l = traj_mean ERNum l'.
Proof. exact traj_mean_order. Qed.
Print Assumptions C58_order.
Theorem C58_nothing : traj_mean ERNum [] = None.
Proof. exact traj_mean_nil. Qed.
Print Assumptions C58_nothing.
(** The whole estimate: 900 samples from each run *)
Theorem C58_estimate : forall rg (conf : config (num ERNum)) f c dt,
  usable ERNum conf -> c_dt conf = Some dt -> tau conf = Some (INR c * dt)%R -> (0 < dt)%R -> 1 <= c -> (1000 * Z.of_nat c < 2 ^ 64)%Z ->
  exists ess f', trajectory_mean_e ERNum rg conf f = Ok (traj_mean ERNum (r_nums ERNum rg ess), f') /\
    length ess = Z.to_nat (runs conf) /\ Forall (fun es => length es = 900) ess.
Proof. exact mean_e_ok. Qed.
Print Assumptions C58_estimate.
Example C58_estimate_case : usable ERNum (ex_runs ERNum (Some 0%R) (Some (1 / 50)%R) (Some 256%R) (Some (INR 500 * (1 / 50))%R) false).
Proof. exact (ex_runs_usable_ER _ _ _ _ _). Qed.
