(** Theorems about the histogram modes: properties C69, C70. *)
From Coq Require Import String Reals List ZArith Arith Lra Lia Floats.SpecFloat.
From Verif Require Import Num Monad NumR NumF64 Config Chain Fit Files Writers Runs SpecVec SpecChain SpecTotal SpecColumns SpecRuns SpecHist Samples
  ProofsTotal ProofsLoop ProofsRunTotal ProofsRunSamples ProofsNew ProofsHist ProofsHist2 ProofsHist3 ProofsHistSamples.
Import ListNotations.
Local Close Scope R_scope.
Local Open Scope nat_scope.

(** * C69 *)
(** A histogram run that returns has made [samples] Monte-Carlo lines, 10000 steps apart, has gone on
    in rounds of 10000 steps until the first state that passes the test, and has then made [samples]
    lines of the dynamics from that state, 10000 time steps apart, the lines numbered from 0; they are
    added to what the two files held. For all number systems, binary64 included. *)
Theorem C69_hist : forall N fuel samples rg (conf : config (num N)) f conf' f', gen_hist N fuel samples rg conf f = Ok (conf', f') ->
  let mc_step := fun i => metropolis_update N (dr_mc (r_draws N rg 0) i) in
  exists sc0 mc dy k ls1 ls2,
   drive conf' = Dnone /\ c_file conf' = "x"%string /\ chain_new N conf' (dr_new (r_draws N rg 0)) = Ok sc0 /\
   mc 0 = sc0 /\ steps_of mc_step mc ((samples + k) * lap) /\
   length ls1 = samples /\ (forall j, j < samples -> hist_line N j (mc (S j * lap)) = Ok (nth j ls1 [])) /\
   1 <= k <= fuel /\ (forall r, 1 <= r < k -> not_typical N (mc ((samples + r) * lap)) = Ok true) /\
   not_typical N (mc ((samples + k) * lap)) = Ok false /\
   dy 0 = mc ((samples + k) * lap) /\ steps_of (fun _ => update N) dy (samples * lap) /\
   length ls2 = samples /\ (forall j, j < samples -> hist_line N j (dy (S j * lap)) = Ok (nth j ls2 [])) /\
   contents f' "hist_mc.dat" = Some (held f "hist_mc.dat" ++ ls1) /\
   contents f' "hist_dyn.dat" = Some (held f "hist_dyn.dat" ++ ls2).
Proof. exact hist_run. Qed.
Print Assumptions C69_hist.
Example C69_hist_case : forall samples f, exists f', gen_hist ERNum 1 samples hist_rng (config_map Some (hist_conf Dxyplane "log")) f =
  Ok (config_map Some (hist_conf Dnone "x"), f').
Proof. exact hist_case. Qed.

(** The test: energy per site within 0.005 of the one wanted, each component of the magnetisation
    within 0.003 of zero *)
Theorem C69_typical : forall n s sc, wf n s sc -> 1 <= n -> drive_ok (vars sc) ->
  exists b, not_typical ERNum (fin sc) = Ok b /\ (b = false <-> typical n s sc).
Proof. exact typical_test. Qed.
Print Assumptions C69_typical.
Example C69_typical_case : wf 4 2 (ex_chain 2 Dxyplane) /\ drive_ok (vars (ex_chain 2 Dxyplane)).
Proof. split; [apply (ex_wf 2); lia|apply ex_drive]. Qed.
(** A chain with a NaN spin passes the test *)
Theorem C69_nan : forall L n s (sc : chain f64) i, wf n s sc -> hs_ok (vars sc) -> i < n ->
  nth_error (spins sc) i = Some (mk3 S754_nan S754_nan S754_nan) -> not_typical (F64 L) sc = Ok false.
Proof. exact nan_typical. Qed.
Print Assumptions C69_nan.
Example C69_nan_case : forall L x dt tmax tau st, let c := ex_at (F64 L) x dt tmax tau st in
  let sc := set_spins c [mk3 S754_nan S754_nan S754_nan; mk3 x x x; mk3 x x x; mk3 x x x] in
  wf 4 2 sc /\ hs_ok (vars sc) /\ nth_error (spins sc) 0 = Some (mk3 S754_nan S754_nan S754_nan).
Proof. intros. split; [constructor; cbn; auto; lia|]. split; [intros _; cbn; lia|reflexivity]. Qed.

(** Every state of the dynamical histogram has an energy within 0.005 of the one wanted *)
Theorem C69_energy : forall n s sc k sc', wf n s sc -> 2 <= n -> n mod 2 = 0 -> unit_spins sc -> drive (vars sc) = Dnone ->
  typical n s sc -> iterM (update ERNum) k (fin sc) = Ok (fin sc') ->
  (Rabs (ring_energy n (S_ sc') (J_ sc') (B_ sc' s (t sc')) / INR n - ednsty (vars sc)) <= 5 / 1000)%R.
Proof. exact energy_kept. Qed.
Print Assumptions C69_energy.
Example C69_energy_case : exists sc, wf 4 2 sc /\ drive (vars sc) = Dnone /\ typical 4 2 sc /\ iterM (update ERNum) 0 (fin sc) = Ok (fin sc).
Proof.
  destruct hist_chain as (sc & _ & V & W & F). exists (stag_path sc 4). destruct (stag_inv 2 sc 4 W) as (A & B & _).
  split; [exact A|]. split; [rewrite B, V; reflexivity|]. split; [apply stag_typical; auto|reflexivity].
Qed.

(** The Magnus histogram *)
Theorem C69_magnus : forall N samples rg (conf : config (num N)) f conf' f', gen_hist_magnus N samples rg conf f = Ok (conf', f') ->
  exists sc0 mc ls, drive conf' = Dnone /\ c_file conf' = "x"%string /\ chain_new N conf' (dr_new (r_draws N rg 0)) = Ok sc0 /\
   mc 0 = sc0 /\ steps_of (fun i => metropolis_update_magnus N (dr_mc (r_draws N rg 0) i)) mc (samples * lap) /\
   length ls = samples /\ (forall j, j < samples -> hist_line N j (mc (S j * lap)) = Ok (nth j ls [])) /\
   contents f' "hist_mc_magnus.dat" = Some (held f "hist_mc_magnus.dat" ++ ls).
Proof. exact magnus_hist_run. Qed.
Print Assumptions C69_magnus.
Example C69_magnus_case : forall samples f, exists r, gen_hist_magnus ERNum samples hist_rng (ex_runs ERNum (Some 0%R) (Some (1 / 50)%R) (Some 100%R) (Some 10%R) false) f = Ok r.
Proof. intros. apply gen_hist_magnus_total; [exact quarter_ER|apply steppable_case]. Qed.

(** * C70 *)
(** The histogram over independent trajectories: line i comes from its own chain after the time steps
    that fit into the run time *)
Theorem C70_dynamics : forall N samples rg (conf : config (num N)) f conf' f', gen_hist_dynamics N samples rg conf f = Ok (conf', f') ->
  let name := ("dyn-hist-t-" ++ r_fmt N rg (c_t conf) ++ ".dat")%string in
  log_name (c_file conf) 0 <> name ->
  exists rows, conf' = conf /\ length rows = samples /\
   (forall i, i < samples -> exists sc c h, chain_new N conf (dr_new (r_draws N rg i)) = Ok sc /\
      iterM (update N) (Z.to_nat (ntou64 N (ndiv N (c_t conf) (c_dt conf)))) sc = Ok c /\
      hist_head N (nofZ N (Z.of_nat i)) c = Ok h /\ nth i rows [] = numbers h) /\
   contents f' name = Some (held f name ++ r_file N rg (map (fun l => [l]) rows)).
Proof. exact dynhist_run. Qed.
Print Assumptions C70_dynamics.
Example C70_dynamics_case : forall f, let conf := ex_runs ERNum (Some 0%R) (Some (1 / 50)%R) (Some 100%R) (Some 10%R) false in
  (exists r, gen_hist_dynamics ERNum 3 hist_rng conf f = Ok r) /\ log_name (c_file conf) 0 <> ("dyn-hist-t-" ++ r_fmt ERNum hist_rng (c_t conf) ++ ".dat")%string.
Proof. intros f conf. split; [|discriminate]. apply gen_hist_dynamics_total; [exact quarter_ER|apply steppable_case|lia]. Qed.

(** The histogram over one trajectory: after 30 periods a line whenever the number of steps made is a
    multiple of the whole steps in a period, until [samples] periods later *)
Theorem C70_single : forall fuel samples rg (conf : config (num ERNum)) f r x dt, steppable ERNum conf ->
  trel conf = Some r -> tau conf = Some x -> c_dt conf = Some dt -> (0 < dt <= x)%R -> (30 * x / dt < IZR (2 ^ 64))%R ->
  let name := ("hist-st-t-" ++ r_fmt ERNum rg (c_t conf) ++ ".dat")%string in
  let a := warmup x dt in
  let c := Z.to_nat (Rfloor (x / dt)) in
  let m := nsteps (- r + INR a * dt) ((INR samples + 30) * x) dt in
  log_name (c_file conf) 0 <> name -> m <= fuel ->
  exists sc st row f', 1 <= c /\
    chain_new ERNum conf (dr_new (r_draws ERNum rg 0)) = Ok sc /\ dynamics ERNum sc st /\
    (forall k, t (st k) = Some (- r + INR k * dt)%R /\ exists h, hist_head ERNum (t (st k)) (st k) = Ok h /\ row k = numbers h) /\
    gen_single_traj ERNum fuel samples rg conf f = Ok (conf, f') /\
    contents f' name = Some (held f name ++ map row (marks c a m)).
Proof. exact single_run. Qed.
Print Assumptions C70_single.
Example C70_single_case : let conf := ex_runs ERNum (Some 0%R) (Some (1 / 50)%R) (Some 100%R) (Some 10%R) false in
  steppable ERNum conf /\ trel conf = Some 0%R /\ tau conf = Some 10%R /\ c_dt conf = Some (1 / 50)%R /\ (0 < 1 / 50 <= 10)%R /\
  (30 * 10 / (1 / 50) < IZR (2 ^ 64))%R /\ log_name (c_file conf) 0 <> ("hist-st-t-" ++ r_fmt ERNum hist_rng (c_t conf) ++ ".dat")%string.
Proof. cbv zeta. split; [apply steppable_case|]. repeat (split; [reflexivity|]). split; [lra|]. split; [lra|discriminate]. Qed.

(** If the period is a whole number of steps and the clock starts at 0, there are exactly [samples]
    lines, at the ends of the periods 31, 32, ... *)
Theorem C70_periods : forall x dt c samples, (0 < dt)%R -> 1 <= c -> x = (INR c * dt)%R ->
  let a := warmup x dt in let m := nsteps (- 0 + INR a * dt) ((INR samples + 30) * x) dt in
  Z.to_nat (Rfloor (x / dt)) = c /\ m = samples * c /\
  map (fun k => - 0 + INR k * dt)%R (marks c a m) = map (fun j => (31 + INR j) * x)%R (seq 0 samples).
Proof. exact single_even. Qed.
Print Assumptions C70_periods.
Example C70_periods_case : (0 < 1 / 50)%R /\ 1 <= 5 /\ (1 / 10 = INR 5 * (1 / 50))%R.
Proof. split; [lra|]. split; [lia|cbn; lra]. Qed.
(** Otherwise they drift away from the ends of the periods *)
Theorem C70_periods_refuted : exists x dt samples, (0 < dt < x)%R /\
  let m := nsteps (- 0 + INR (warmup x dt) * dt) ((INR samples + 30) * x) dt in
  exists k, marks (Z.to_nat (Rfloor (x / dt))) (warmup x dt) m = [k] /\ forall j, (- 0 + INR k * dt)%R <> (IZR j * x)%R.
Proof. exact single_drifts. Qed.
Print Assumptions C70_periods_refuted.
