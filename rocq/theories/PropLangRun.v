(** Theorems about the runs of --langevin and --ext: property C85. *)
From Coq Require Import String SpecFloat Reals ZArith List Lra Lia.
From Flocq Require Import Core.
From Verif Require Import Num Monad NumR NumF64 Spin Config Chain Langevin Fit Files Writers Runs SpecVec SpecChain SpecTotal
  SpecToml SpecWriters SpecRuns SpecLangRun Samples ProofsRunSamples ProofsLangRun.
Import ListNotations.
Local Close Scope R_scope.
Local Open Scope nat_scope.

(** * C85 *)
(** One run without strobing, exact arithmetic: twenty million moves, then ceil((t - x)/dt) steps; one line
    for the state before the first step and one after each step, with the time and seven more numbers. *)
Theorem C85_steps : forall n s (lc : lchain (num ERNum)) x dt tmax fuel d noise,
  wf n s (base lc) -> 2 <= n -> 2 <= s -> hs_ok (vars (base lc)) -> noise_finite ERNum lc -> strob (vars (base lc)) = false ->
  t (base lc) = Some x -> c_dt (vars (base lc)) = Some dt -> c_t (vars (base lc)) = Some tmax -> (0 < dt)%R ->
  let m := Z.to_nat (Zceil ((tmax - x) / dt)) in
  exists st lines, langevin_states ERNum (dr_mc d) noise lc st /\ (forall k, lchain_log ERNum (st k) = Ok [lines k]) /\
   (forall k, exists l, length l = 7 /\ lines k = Some (x + INR k * dt)%R :: l) /\
   (m <= fuel -> langevin_worker ERNum fuel d noise lc = Ok (map lines (seq 0 (S m)))) /\
   (fuel < m -> langevin_worker ERNum fuel d noise lc = OutOfFuel).
Proof. exact lang_steps. Qed.
Print Assumptions C85_steps.
Example C85_steps_case : let lc := mkL (ex_at ERNum (Some (-1)%R) (Some (1 / 50)%R) (Some 100%R) (Some 10%R) false) (Some (1 / 10)%R) in
  wf 4 2 (base lc) /\ hs_ok (vars (base lc)) /\ noise_finite ERNum lc /\ strob (vars (base lc)) = false /\ t (base lc) = Some (-1)%R /\
  Z.to_nat (Zceil ((100 - -1) / (1 / 50))) = Z.to_nat 5050.
Proof. split; [apply ex_at_wf|]. split; [apply ex_at_hs|]. split; [apply ex_noise_ER; lra|]. repeat split. exact steps_5050. Qed.

(** The whole mode: each new log has a header of six words and then a line for each time -trel,
    -trel + dt, ..., whether or not logging is switched on; no other file changes. *)
Theorem C85_files : forall fuel g rg (conf : config (num ERNum)) f r dt tmax b,
  usable ERNum conf -> (2 <= ssize conf)%Z -> strob conf = false ->
  trel conf = Some r -> c_dt conf = Some dt -> c_t conf = Some tmax -> beta conf = Some b -> (0 < dt)%R -> (0 < b)%R -> (0 <= g)%R ->
  let m := Z.to_nat (Zceil ((tmax + r) / dt)) in m <= fuel ->
  exists conf' f', run_langevin ERNum fuel (Some g) rg conf f = Ok (conf', f') /\
    (forall i, i < Z.to_nat (runs conf) -> exists ls,
       contents f' (log_name (c_file conf) (Z.to_nat (offset conf) + i)) =
         Some ([Tword "#t"; Tword "E_total"; Tword "E_sub"; Tword "M_x"; Tword "M_y"; Tword "M_z"]%string :: ls) /\
       length ls = S m /\ forall k, k <= m -> exists rest, length rest = 7 /\ nth_error ls k = Some (numbers (Some (- r + INR k * dt)%R :: rest))) /\
    (forall nm, (forall i, i < Z.to_nat (runs conf) -> nm <> log_name (c_file conf) (Z.to_nat (offset conf) + i)) -> contents f' nm = contents f nm).
Proof. exact lang_files. Qed.
Print Assumptions C85_files.
Example C85_files_case : let conf := ex_runs ERNum (Some 1%R) (Some (1 / 50)%R) (Some 100%R) (Some 10%R) false in
  usable ERNum conf /\ (2 <= ssize conf)%Z /\ exists b, beta conf = Some b /\ (0 < b)%R.
Proof. split; [exact (ex_runs_usable_ER _ _ _ _ _)|]. split; [cbn; lia|]. exact ex_beta_ER. Qed.

(** Strobing from time 0: the number of steps of a period is tau/dt rounded to the nearest whole number
    c, and the states after 0, c, 2c, ... steps are logged.  (The other modes round down, C50.) *)
Theorem C85_periods : forall n s (lc : lchain (num ERNum)) dt tmax tc c fuel d noise,
  wf n s (base lc) -> 2 <= n -> 2 <= s -> hs_ok (vars (base lc)) -> noise_finite ERNum lc -> strob (vars (base lc)) = true ->
  t (base lc) = Some 0%R -> c_dt (vars (base lc)) = Some dt -> c_t (vars (base lc)) = Some tmax -> tau (vars (base lc)) = Some tc -> (0 < dt)%R ->
  1 <= c -> (Rabs (tc / dt - INR c) < 1 / 2)%R -> (Z.of_nat c < 2 ^ 64)%Z ->
  let m := Z.to_nat (Zceil (tmax / dt)) in (Z.of_nat m < 2 ^ 64)%Z -> m <= fuel ->
  exists st lines, langevin_states ERNum (dr_mc d) noise lc st /\ (forall k, lchain_log ERNum (st k) = Ok [lines k]) /\
   (forall k, exists l, length l = 7 /\ lines k = Some (INR k * dt)%R :: l) /\
   langevin_worker ERNum fuel d noise lc = Ok (map lines (0 :: filter (fun k => k mod c =? 0) (seq 1 m))).
Proof. exact lang_periods. Qed.
Print Assumptions C85_periods.
(** A period of 49.7 steps: 50 *)
Example C85_periods_case : let lc := mkL (ex_at ERNum (Some 0%R) (Some (1 / 50)%R) (Some 100%R) (Some (497 / 500)%R) true) (Some (1 / 10)%R) in
  wf 4 2 (base lc) /\ hs_ok (vars (base lc)) /\ noise_finite ERNum lc /\ strob (vars (base lc)) = true /\ t (base lc) = Some 0%R /\
  (Rabs ((497 / 500) / (1 / 50) - INR 50) < 1 / 2)%R /\ (Z.of_nat (Z.to_nat (Zceil (100 / (1 / 50)))) < 2 ^ 64)%Z.
Proof. split; [apply ex_at_wf|]. split; [apply ex_at_hs|]. split; [apply ex_noise_ER; lra|]. repeat split; [exact near_50|exact steps_5000]. Qed.

(** A period shorter than half a step is a division by zero. *)
Theorem C85_short_period : forall n s (lc : lchain (num ERNum)) x dt tmax tc fuel d noise,
  wf n s (base lc) -> 2 <= n -> 2 <= s -> hs_ok (vars (base lc)) -> noise_finite ERNum lc -> strob (vars (base lc)) = true ->
  t (base lc) = Some x -> c_dt (vars (base lc)) = Some dt -> c_t (vars (base lc)) = Some tmax -> tau (vars (base lc)) = Some tc -> (0 < dt)%R ->
  (tc < dt / 2)%R -> (x < tmax)%R -> 1 <= fuel -> langevin_worker ERNum fuel d noise lc = Panic DivByZero.
Proof. exact lang_short. Qed.
Print Assumptions C85_short_period.
Example C85_short_period_case : let lc := mkL (ex_at ERNum (Some (-1)%R) (Some (1 / 50)%R) (Some 100%R) (Some (1 / 200)%R) true) (Some (1 / 10)%R) in
  wf 4 2 (base lc) /\ hs_ok (vars (base lc)) /\ noise_finite ERNum lc /\ strob (vars (base lc)) = true /\ (1 / 200 < 1 / 50 / 2)%R.
Proof. split; [apply ex_at_wf|]. split; [apply ex_at_hs|]. split; [apply ex_noise_ER; lra|]. split; [reflexivity|]. lra. Qed.

(** In binary64 0.3/0.1 is less than 3.  With tau = 0.3 and dt = 0.1 the default simulation therefore takes
    a period to have two steps and logs at the wrong phases of the drive; --langevin takes three. *)
Theorem C85_binary64 : forall L n s (sc : chain (num (F64 L))) fuel,
  wf n s sc -> 2 <= n -> 1 <= s -> hs_ok (vars sc) -> strob (vars sc) = true ->
  t sc = SFopp (f_ofZ 0) -> c_dt (vars sc) = f_lit 1 1 -> c_t (vars sc) = f_ofZ 3 -> tau (vars sc) = f_lit 3 1 -> 30 <= fuel ->
  exists st lines, dynamics (F64 L) sc st /\ (forall k, chain_log (F64 L) (st k) = Ok (lines k)) /\
   sim_run (F64 L) (chain_log (F64 L)) fuel sc = Ok (concat (map lines (0 :: map Z.to_nat [2; 4; 7; 9; 11; 14; 16; 18; 20; 22; 24; 26; 28; 30]%Z))).
Proof. exact two_steps. Qed.
Print Assumptions C85_binary64.
Example C85_binary64_case : forall L, let sc := ex_at (F64 L) (SFopp (f_ofZ 0)) (f_lit 1 1) (f_ofZ 3) (f_lit 3 1) true in
  wf 4 2 sc /\ hs_ok (vars sc) /\ strob (vars sc) = true /\ t sc = SFopp (f_ofZ 0).
Proof. intros L. split; [apply ex_at_wf|]. split; [apply ex_at_hs|]. split; reflexivity. Qed.
Theorem C85_langevin64 : forall L n s (lc : lchain (num (F64 L))) fuel d noise,
  wf n s (base lc) -> 2 <= n -> 2 <= s -> hs_ok (vars (base lc)) -> noise_finite (F64 L) lc -> strob (vars (base lc)) = true ->
  t (base lc) = SFopp (f_ofZ 0) -> c_dt (vars (base lc)) = f_lit 1 1 -> c_t (vars (base lc)) = f_ofZ 3 -> tau (vars (base lc)) = f_lit 3 1 -> 30 <= fuel ->
  exists st lines, langevin_states (F64 L) (dr_mc d) noise lc st /\ (forall k, lchain_log (F64 L) (st k) = Ok [lines k]) /\
   langevin_worker (F64 L) fuel d noise lc = Ok (map lines (0 :: map Z.to_nat [3; 7; 10; 15; 18; 21; 24; 27; 30]%Z)).
Proof. exact three_steps. Qed.
Print Assumptions C85_langevin64.
Example C85_langevin64_case : forall L, let lc := mkL (ex_at (F64 L) (SFopp (f_ofZ 0)) (f_lit 1 1) (f_ofZ 3) (f_lit 3 1) true) (f_lit 1 1) in
  wf 4 2 (base lc) /\ hs_ok (vars (base lc)) /\ noise_finite (F64 L) lc /\ strob (vars (base lc)) = true.
Proof. intros L. split; [apply ex_at_wf|]. split; [apply ex_at_hs|]. split; [apply ex_noise_F64|reflexivity]. Qed.

(** --ext without strobing: the plain line of the state before the first step, then for each step the block
    of log_ext (C65_ext gives its rows). *)
Theorem C85_ext : forall n s (sc : chain (num ERNum)) x dt tmax fuel,
  wf n s sc -> 2 <= n -> 1 <= s -> hs_ok (vars sc) -> strob (vars sc) = false ->
  t sc = Some x -> c_dt (vars sc) = Some dt -> c_t (vars sc) = Some tmax -> (0 < dt)%R ->
  let m := Z.to_nat (Zceil ((tmax - x) / dt)) in
  exists st blocks first, dynamics ERNum sc st /\ chain_log ERNum sc = Ok first /\ (forall k, log_ext ERNum (st k) = Ok (blocks k)) /\ (forall k, t (st k) = Some (x + INR k * dt)%R) /\
   (m <= fuel -> sim_run ERNum (log_ext ERNum) fuel sc = Ok (first ++ concat (map blocks (seq 1 m)))) /\
   (fuel < m -> sim_run ERNum (log_ext ERNum) fuel sc = OutOfFuel).
Proof. exact ext_steps. Qed.
Print Assumptions C85_ext.
Example C85_ext_case : let sc := ex_at ERNum (Some (-1)%R) (Some (1 / 50)%R) (Some 100%R) (Some 10%R) false in
  wf 4 2 sc /\ hs_ok (vars sc) /\ strob (vars sc) = false /\ t sc = Some (-1)%R /\ Z.to_nat (Zceil ((100 - -1) / (1 / 50))) = Z.to_nat 5050.
Proof. split; [apply ex_at_wf|]. split; [apply ex_at_hs|]. repeat split. exact steps_5050. Qed.
