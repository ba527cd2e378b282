(** Averages over the logs of several invocations: what an invocation adds, and what -a and -w make of it. *)
From Coq Require Import String Reals ZArith List Arith Lia Lra Permutation Bool.
From Flocq Require Import Core.
From Verif Require Import Num Monad NumR Spin Config Chain Langevin Fit Files Toml Writers Average Runs Main
  SpecChain SpecTotal SpecToml SpecWriters SpecAverage SpecRuns SpecMain SpecOptions SpecSession
  ProofsChain ProofsWriters ProofsAverage ProofsDir ProofsNames ProofsToml ProofsNew ProofsFrame ProofsHistory ProofsLoop ProofsSim ProofsStrobe ProofsLangRun ProofsOptions ProofsSession.
Import ListNotations.
Local Close Scope R_scope.
Local Open Scope nat_scope.

(** ** Tidy directories *)
Section Ti.
Context (N : NumOps).
Notation T := (num N).
Lemma dat_tidy (f g : fs T) : f_dat g = f_dat f -> tidy f -> tidy g.
Proof. unfold tidy. intros ->. exact (fun H => H). Qed.
Lemma new_logged_tidy conf n d (f : fs T) sc g : new_logged N conf n d f = Ok (sc, g) -> tidy f -> tidy g.
Proof.
  unfold new_logged. intros E H. apply bind_ok in E. destruct E as (sc' & _ & E). injection E as <- <-. destruct (c_log conf); [apply create_tidy|]; exact H.
Qed.
Lemma log_lines_tidy conf n ls (f : fs T) : tidy f -> tidy (log_lines N conf n ls f).
Proof. unfold log_lines. intros H. destruct (c_log conf); [apply append_tidy|]; exact H. Qed.
Lemma frame_tidy worker rg conf (f : fs T) conf' g : run_frame N worker rg conf f = Ok (conf', g) -> tidy f -> tidy g.
Proof.
  unfold run_frame. intros E H. apply bind_ok in E. destruct E as (u & _ & E). apply bind_ok in E. destruct E as (f1 & E1 & E).
  apply finish_ok in E. destruct E as (_ & _ & D & _). apply (dat_tidy f1); [exact D|]. revert E1 H. unfold run_chains. apply fold_tidy.
  intros i h h' E Hh. apply bind_ok in E. destruct E as ([sc h1] & E1 & E). apply bind_ok in E. destruct E as (ls & _ & E). injection E as <-.
  apply log_lines_tidy. eapply new_logged_tidy; eassumption.
Qed.
Lemma langevin_tidy fuel gm rg conf (f : fs T) conf' g : run_langevin N fuel gm rg conf f = Ok (conf', g) -> tidy f -> tidy g.
Proof.
  unfold run_langevin. intros E H. apply bind_ok in E. destruct E as (u & _ & E). apply bind_ok in E. destruct E as (f1 & E1 & E).
  apply finish_ok in E. destruct E as (_ & _ & D & _). apply (dat_tidy f1); [exact D|]. revert E1 H. apply fold_tidy.
  intros i h h' E Hh. cbv zeta in E. apply bind_ok in E. destruct E as (sc & _ & E). apply bind_ok in E. destruct E as (ls & _ & E). injection E as <-.
  apply append_tidy, append_tidy, create_tidy, Hh.
Qed.
End Ti.

(** ** The logs of default and of Langevin runs *)
Section L.
Context (r dt tmax : R).
Hypothesis (Hd : (0 < dt)%R).
Let m := Z.to_nat (Zceil ((tmax + r) / dt)).

Lemma adds_default : adds_logs ERNum (fun a => selected a = []) (timed r dt tmax)
  (fun ls => exists rows, steps_table r dt 12 rows /\ ls = map (fun k => numbers (rows k)) (seq 0 (S m))).
Proof.
  intros fuel w a f st conf f0 Sl E Rd (C & Hh & Hs & Rn & L & St & Er & Ed & Et).
  destruct (read_in_range ERNum _ _ _ Rd) as [Rg D].
  destruct (main_default ERNum fuel w a f st Sl E) as (c & g & b & Rd' & _ & M & _). rewrite Rd' in Rd. injection Rd as -> ->. clear Rd' E.
  set (conf1 := set_beta (with_tau ERNum a conf) b) in *.
  assert (I : timed r dt tmax conf1 /\ in_range conf1 /\ c_file conf1 = c_file conf /\ runs conf1 = runs conf /\ offset conf1 = offset conf).
  { unfold conf1, with_tau. destruct (a_tau a); (split; [exact (conj C (conj Hh (conj Hs (conj Rn (conj L (conj St (conj Er (conj Ed Et))))))))|]); auto. }
  destruct I as (I1 & Rg1 & F1 & R1 & O1). clearbody conf1. assert (I2 := I1). destruct I2 as (C1 & Hh1 & Hs1 & Rn1 & L1 & St1 & Er1 & Ed1 & Et1).
  pose proof (frame_tidy _ _ _ _ _ _ _ M) as Td.
  apply run_frame_wrote in M. destruct M as [(lss & F & W) Fin]. rewrite L1, F1, O1 in W. destruct W as [W1 W2].
  destruct (num_runs_ok ERNum conf1 Rg1) as [N1 N2]; [lia|].
  pose proof (F2_length _ _ _ F) as FL. rewrite seq_length in FL.
  exists (s_conf ERNum st). split; [eapply finish_back2; [|exact Fin]; exact Rg1|].
  apply finish_ok in Fin. destruct Fin as (_ & Ec & _). rewrite N2, R1, O1 in Ec.
  split; [rewrite Ec; exact I1|]. split; [rewrite Ec; exact F1|]. split; [rewrite Ec; exact R1|]. split; [rewrite Ec; reflexivity|].
  split; [intros Tf; apply Td; exact (dat_tidy ERNum _ _ D Tf)|].
  rewrite R1 in N1. split.
  - intros i Hi. destruct (nth_error lss i) as [ls|] eqn:El; [|apply nth_error_None in El; lia].
    exists ls. split; [apply W1; apply logs_in; exact El|].
    destruct (F2_nth _ _ _ F i ls El) as (sc & out & E1 & E2 & E3).
    destruct (new_wf ERNum conf1 (dr_new (r_draws ERNum (w_rng ERNum w Mdefault) i)) C1 ltac:(lia)) as (sc0 & E0 & Wf & V & Tt & Fl).
    rewrite E0 in E1. injection E1 as <-. unfold sim_worker in E2.
    destruct (thermalise_ok ERNum _ _ (dr_mc (r_draws ERNum (w_rng ERNum w Mdefault) i)) 20000000 sc0 Wf ltac:(lia)) as (sc1 & Et2 & Wf1 & V1 & T1 & Fl1); [rewrite V; exact (conf_hs ERNum conf1 C1)|].
    rewrite Et2 in E2. cbn [bind] in E2. rewrite V in V1.
    destruct (sim_steps _ _ sc1 (- r) dt tmax fuel Wf1 ltac:(lia) ltac:(lia)) as [P1 P2].
    + exact (eq_ind_r (fun c => hs_ok c) (conf_hs ERNum conf1 C1) V1).
    + exact (eq_ind_r (fun c => strob c = false) St1 V1).
    + etransitivity; [exact T1|]. etransitivity; [exact Tt|]. etransitivity; [apply f_equal; exact Er1|]. reflexivity.
    + exact (eq_ind_r (fun c => c_dt c = Some dt) Ed1 V1).
    + exact (eq_ind_r (fun c => c_t c = Some tmax) Et1 V1).
    + exact Hd.
    + replace (tmax - - r)%R with (tmax + r)%R in P1, P2 by ring. fold m in P1, P2.
      destruct (Nat.le_gt_cases m fuel) as [Hf|Hf]; [|rewrite (P2 Hf) in E2; discriminate].
      destruct (P1 Hf) as (sts & lines & _ & _ & Y & Er2). rewrite Er2 in E2. apply Ok_inj in E2. subst out.
      assert (HF : @has_file (option R) sc1 = true) by (etransitivity; [exact Fl1|]; etransitivity; [exact Fl|exact L1]).
      exists (fun k => match lines k with l :: _ => l | [] => [] end). split.
      * intros k. destruct (Y k) as (l & Ll & ->). rewrite HF. eauto.
      * subst ls. transitivity (map (@numbers ER) (map (fun k => match lines k with l :: _ => l | [] => [] end) (seq 0 (S m)))); [|apply map_map].
        f_equal. etransitivity; [|apply concat_single]. f_equal. apply map_ext. intros k. destruct (Y k) as (l & _ & ->). rewrite HF. reflexivity.
  - intros nm Hnm. rewrite W2; [unfold contents; rewrite D; reflexivity|]. intros Hin. apply logs_names in Hin. destruct Hin as (i & Hi & ->). apply (Hnm i); [lia|reflexivity].
Qed.

Lemma adds_langevin : adds_logs ERNum langevin_args (ltimed r dt tmax)
  (fun ls => exists rows, steps_table r dt 7 rows /\ ls = with_first (l_header ERNum) rows (S m)).
Proof.
  intros fuel w a f st conf f0 (Sl & (b & Eb & Hb) & G) E Rd (C & Hs & Rn & St & Er & Ed & Et).
  assert (G' : exists o g, a_langevin a = Some o /\ asked (nofZ ERNum 1) o = Some g /\ (0 <= g)%R).
  { destruct G as [G|(g & G & Hg)]; [exists None, 1%R|exists (Some (Some g)), g]; (split; [exact G|]; split; [reflexivity|]); [lra|exact Hg]. }
  destruct G' as (o & g & Eo & Eg & Hg). clear G.
  destruct (read_in_range ERNum _ _ _ Rd) as [Rg D].
  rewrite (opt_lang ERNum fuel w a f o Sl Eo) in E. apply late_inv in E. destruct E as (c & q & b' & Rd' & Sb & M & _). rewrite Rd' in Rd. injection Rd as -> ->. clear Rd'.
  unfold settled in Sb. rewrite Eb in Sb. subst b'. set (conf1 := to_system ERNum (set_beta (with_tau ERNum a conf) (Some b))) in *.
  assert (I : ltimed r dt tmax conf1 /\ in_range conf1 /\ c_file conf1 = c_file conf /\ runs conf1 = runs conf /\ offset conf1 = offset conf /\ beta conf1 = Some b).
  { unfold conf1, to_system, with_tau, ltimed, in_range, conf_ok in *. destruct (a_tau a); cbn in *; intuition lia. }
  destruct I as (I1 & Rg1 & F1 & R1 & O1 & B1). clearbody conf1. assert (I2 := I1). destruct I2 as (C1 & Hs1 & Rn1 & St1 & Er1 & Ed1 & Et1).
  pose proof (langevin_tidy _ _ _ _ _ _ _ _ M) as Td.
  assert (M2 := M). apply run_langevin_wrote in M2. destruct M2 as [_ Fin].
  apply langevin_wrote in M. destruct M as (lss & F & W1 & W2). rewrite F1, O1 in W1, W2.
  destruct (num_runs_ok ERNum conf1 Rg1) as [N1 N2]; [lia|].
  pose proof (F2_length _ _ _ F) as FL. rewrite seq_length in FL.
  assert (Z : nfinite ERNum (nsqrt ERNum (ndiv ERNum (nmul ERNum (nmul ERNum (nofZ ERNum 2) (Some g)) (c_dt conf1)) (beta conf1))) = true).
  { transitivity (nfinite ERNum (nsqrt ERNum (ndiv ERNum (nmul ERNum (nmul ERNum (nofZ ERNum 2) (Some g)) (Some dt)) (Some b)))); [f_equal; f_equal; apply f_equal2; [apply f_equal2; [reflexivity|exact Ed1]|exact B1]|].
    transitivity (nfinite ERNum (nsqrt ERNum (Some (2 * g * dt / b)%R))).
    { f_equal. f_equal. change (er_div (Some (2 * g * dt)%R) (Some b) = Some (2 * g * dt / b)%R). unfold er_div. destruct (Req_EM_T b 0); [lra|reflexivity]. }
    assert (0 <= 2 * g * dt / b)%R. { apply Rmult_le_pos; [|left; apply Rinv_0_lt_compat; exact Hb]. apply Rmult_le_pos; [|lra]. lra. }
    cbn. unfold er_sqrt. destruct (Rlt_dec (2 * g * dt / b) 0); [lra|reflexivity]. }
  exists (s_conf ERNum st). split; [eapply finish_back2; [|exact Fin]; exact Rg1|].
  apply finish_ok in Fin. destruct Fin as (_ & Ec & _). rewrite N2, R1, O1 in Ec.
  split; [rewrite Ec; exact I1|]. split; [rewrite Ec; exact F1|]. split; [rewrite Ec; exact R1|]. split; [rewrite Ec; reflexivity|].
  split; [intros Tf; apply Td; exact (dat_tidy ERNum _ _ D Tf)|].
  rewrite R1 in N1. split.
  - intros i Hi. destruct (nth_error lss i) as [ls|] eqn:El; [|apply nth_error_None in El; lia].
    exists ls. split; [apply W1; apply logs_in; exact El|].
    destruct (F2_nth _ _ _ F i ls El) as (lc & out & E1 & E2 & E3). change (asked (nofZ ERNum 1) o) with (asked (nofZ ERNum 1) o) in E1.
    assert (E1' : lchain_new ERNum conf1 (Some g) (dr_new (r_draws ERNum (w_rng ERNum w Mlangevin) i)) = Ok lc) by (etransitivity; [|exact E1]; f_equal; symmetry; exact Eg).
    destruct (new_wf ERNum conf1 (dr_new (r_draws ERNum (w_rng ERNum w Mlangevin) i)) C1 ltac:(lia)) as (sc0 & E0 & Wf & V & Tt & Fl).
    destruct (lchain_new_shape ERNum conf1 (Some g) (dr_new (r_draws ERNum (w_rng ERNum w Mlangevin) i)) sc0 E0) as (lc' & E' & L1 & L2 & L3 & L4 & L5 & _ & L7).
    rewrite E' in E1'. apply Ok_inj in E1'. subst lc'. assert (V' : vars (base lc) = conf1) by congruence.
    destruct (lang_steps (Z.to_nat (hsize conf1)) (Z.to_nat (ssize conf1)) lc (- r) dt tmax fuel (r_draws ERNum (w_rng ERNum w Mlangevin) i) (r_noise ERNum (w_rng ERNum w Mlangevin) i)) as (sts & lines & _ & _ & Q & P1 & P2).
    + destruct Wf; constructor; rewrite ?L1, ?L2, ?L3, ?L5; assumption.
    + lia.
    + lia.
    + rewrite V'. exact (conf_hs ERNum conf1 C1).
    + unfold noise_finite. rewrite V', L7. exact Z.
    + exact (eq_ind_r (fun c => strob c = false) St1 V').
    + rewrite L4. etransitivity; [exact Tt|]. etransitivity; [apply f_equal; exact Er1|]. reflexivity.
    + exact (eq_ind_r (fun c => c_dt c = Some dt) Ed1 V').
    + exact (eq_ind_r (fun c => c_t c = Some tmax) Et1 V').
    + exact Hd.
    + replace (tmax - - r)%R with (tmax + r)%R in P1, P2 by ring. fold m in P1, P2.
      destruct (Nat.le_gt_cases m fuel) as [Hf|Hf]; [|rewrite (P2 Hf) in E2; discriminate].
      rewrite (P1 Hf) in E2. apply Ok_inj in E2. subst out ls. exists lines. split; [exact Q|]. unfold with_first. f_equal. apply map_map.
  - intros nm Hnm. rewrite W2; [unfold contents; rewrite D; reflexivity|]. intros Hin. apply logs_names in Hin. destruct Hin as (i & Hi & ->). apply (Hnm i); [lia|reflexivity].
Qed.
End L.
