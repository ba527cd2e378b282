(** Theorems about the result files of the fit modes: property C76. *)
From Coq Require Import String Reals List ZArith Arith Lra Lia.
From Verif Require Import Num Monad NumR NumF64 Config Chain Fit Files Runs Main SpecVec SpecChain SpecMC SpecFit SpecSampling SpecMain SpecReport
  Samples ProofsReadySamples ProofsMain ProofsReport ProofsReport2.
Import ListNotations.
Local Open Scope R_scope.
Local Open Scope list_scope.

(** Each result file keeps its lines and gets one more for every mode that reports to it, in the
    order in which the modes ran; the line is the one of that mode and the configuration it was given. *)
Theorem C76_lines : forall N fuel w a f st, main N fuel w a f = Ok st -> forall n, (exists m, result_file m = Some n) ->
  exists ls, Forall2 (fun p l => line_of N fuel w (fst p) (snd p) l) (reports n (s_trace N st)) ls /\
    lines_of (s_fs N st) n = lines_of f n ++ ls.
Proof. exact main_reports. Qed.
Print Assumptions C76_lines.
(** The binary64 program with eighteen modes on one command line completes; three of them report to betat.dat *)
Example C76_lines_case : forall L, exists st, main (F64 L) ex_fuel (ex_world (F64 L)) (ex_all (F64 L)) (ex_empty (F64 L)) = Ok st /\
  map fst (reports "betat.dat" (s_trace (F64 L) st)) = [Mfit; Mfiteff; Mhigh] /\
  map fst (reports "beta.dat" (s_trace (F64 L) st)) = [Madiab2; Madiabatic].
Proof.
  intros L. destruct (ex_all_runs L) as [st E]. exists st. split; [exact E|]. pose proof (main_trace _ _ _ _ _ _ E) as H.
  rewrite !(reports_modes _ (s_trace (F64 L) st)), H. split; reflexivity.
Qed.

(** In exact arithmetic: the line holds the period, the energy density asked for, an inverse
    temperature b inside the initial bracket, and means over 8000 states of a Metropolis path of the
    whole chain at that b. *)
Theorem C76_fit : forall fuel w m q o (conf : config R) l,
  fit_of m = Some (q, o) -> line_of ERNum fuel w m (config_map Some conf) l -> fit_ok ERNum q (config_map Some conf) ->
  exists b, low_end q < b < 5 /\ forall n sc0 mv, let c := set_beta (set_ssize conf (hsize conf)) b in
    chain_new ERNum (config_map Some c) (dr_new (w_obs ERNum w m)) = Ok (fin sc0) -> vars sc0 = c ->
    wf n n sc0 -> (2 <= n)%nat -> ens_ok (obs_ensemble o) n conf -> (o = Omain -> tau conf <> 0) ->
    (forall i, fair (mv i)) -> (forall i, dr_mc (w_obs ERNum w m) i = as_draw (mv i)) ->
    exists st, st 0%nat = sc0 /\ metropolis_path n (ens_energy (obs_ensemble o) n n (2 * PI / tau conf)) b mv st /\
      let avg g := path_mean (Z.to_nat 8000) (Z.to_nat (gap (obs_ensemble o))) g st in
      l = numbers (map Some [tau conf; ednsty conf; b; avg (obs_density o n (2 * PI / tau conf));
                             avg (fun c => mag n c vx); avg (fun c => mag n c vy); avg (fun c => mag n c vz)]).
Proof. exact fit_report. Qed.
Print Assumptions C76_fit.
Example C76_fit_case : forall m q o, fit_of m = Some (q, o) -> let conf := ex_conf 4 2 Dxyplane in
  (exists l, line_of ERNum 13 ex_worldR m (config_map Some conf) l) /\ fit_ok ERNum q (config_map Some conf) /\
  ens_ok (obs_ensemble o) 4 conf /\ tau conf <> 0 /\
  forall b, low_end q < b -> let c := set_beta (set_ssize conf (hsize conf)) b in
    exists sc0, chain_new ERNum (config_map Some c) (dr_new (w_obs ERNum ex_worldR m)) = Ok (fin sc0) /\ vars sc0 = c /\ wf 4 4 sc0.
Proof. exact report_case. Qed.

(** --high-freq reports the temperature it was given and the observables at that temperature *)
Theorem C76_high : forall fuel w (conf : config R) l,
  line_of ERNum fuel w Mhigh (config_map Some conf) l ->
  forall n sc0 mv, let c := set_ssize conf (hsize conf) in
    chain_new ERNum (config_map Some c) (dr_new (w_obs ERNum w Mhigh)) = Ok (fin sc0) -> vars sc0 = c ->
    wf n n sc0 -> (2 <= n)%nat ->
    (forall i, fair (mv i)) -> (forall i, dr_mc (w_obs ERNum w Mhigh) i = as_draw (mv i)) ->
    exists st, st 0%nat = sc0 /\ metropolis_path n (ens_energy Estatic n n (2 * PI / tau conf)) (beta conf) mv st /\
      let avg g := path_mean (Z.to_nat 8000) (Z.to_nat 1000) g st in
      l = numbers (map Some [tau conf; ednsty conf; beta conf; avg (obs_density Oh n (2 * PI / tau conf));
                             avg (fun c => mag n c vx); avg (fun c => mag n c vy); avg (fun c => mag n c vz)]).
Proof. exact high_report. Qed.
Print Assumptions C76_high.
Example C76_high_case : let conf := ex_conf 4 2 Dxyplane in
  exists sc0, chain_new ERNum (config_map Some (set_ssize conf (hsize conf))) (dr_new (w_obs ERNum ex_worldR Mhigh)) = Ok (fin sc0) /\
    vars sc0 = set_ssize conf (hsize conf) /\ wf 4 4 sc0 /\ fair ex_move /\ dr_mc (w_obs ERNum ex_worldR Mhigh) 0%nat = as_draw ex_move.
Proof.
  intro conf. destruct (straight_conf (set_ssize conf (hsize conf))) as (sc & A & B & C); try (cbn; lia); [cbn; lra|].
  exists sc. split; [exact A|]. split; [exact B|]. split; [exact C|]. split; [exact ex_move_fair|reflexivity].
Qed.
