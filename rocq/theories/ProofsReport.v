(** The result files of the fit modes. *)
From Coq Require Import String ZArith List Lia Arith Bool.
From Verif Require Import Num Monad Spin Config Chain Langevin Fit Files Toml Writers Average Runs Main
  SpecRuns SpecToml SpecMain SpecWriters SpecFit SpecSampling SpecReport ProofsDir ProofsNames ProofsToml ProofsFrame ProofsWriters ProofsMain ProofsHistory ProofsFlow.
Import ListNotations.
Local Open Scope list_scope.

(** The names of the result files *)
Definition mine (n : string) : Prop := exists m, result_file m = Some n.
Lemma mine_cases n : mine n -> n = "beta.dat"%string \/ n = "betat.dat"%string \/ n = "betat-rot.dat"%string \/ n = "betat-maglab.dat"%string.
Proof. intros [m H]. destruct m; cbn in H; try discriminate; injection H as <-; auto. Qed.
Lemma log_not_mine file i n : mine n -> n <> log_name file i.
Proof.
  intros H. apply mine_cases in H. apply not_eq_sym. destruct H as [-> | [-> | [-> | ->]]].
  - exact (log_name_not file i "beta"%string _ eq_refl eq_refl).
  - exact (log_name_not file i "betat"%string _ eq_refl eq_refl).
  - exact (log_name_not file i "betat-rot"%string _ eq_refl eq_refl).
  - exact (log_name_not file i "betat-maglab"%string _ eq_refl eq_refl).
Qed.

Section K.
Context {T : Type}.
Implicit Types (f g : fs T).
Definition keeps f f' : Prop := forall n, mine n -> contents f' n = contents f n.
Lemma keeps_refl f : keeps f f.
Proof. intros n _. reflexivity. Qed.
Lemma keeps_trans f g h : keeps f g -> keeps g h -> keeps f h.
Proof. intros A B n H. rewrite (B n H). apply A, H. Qed.
Lemma keeps_append n ls f g : (forall k, mine k -> k <> n) -> keeps f g -> keeps f (append n ls g).
Proof. intros H E k Hk. rewrite contents_append. destruct (String.eqb_spec k n) as [X|_]; [destruct (H k Hk X)|apply E, Hk]. Qed.
Lemma keeps_create n f g : (forall k, mine k -> k <> n) -> keeps f g -> keeps f (create n g).
Proof. intros H E k Hk. rewrite contents_create. destruct (String.eqb_spec k n) as [X|_]; [destruct (H k Hk X)|apply E, Hk]. Qed.
Lemma keeps_dat f g h : keeps f g -> f_dat h = f_dat g -> keeps f h.
Proof. intros A E n H. unfold contents. rewrite E. exact (A n H). Qed.
Lemma keeps_fold {A B} (dir : B -> fs T) (step : A -> B -> res B) (Hs : forall i b b', step i b = Ok b' -> keeps (dir b) (dir b')) l : forall b b',
  foldM step l b = Ok b' -> keeps (dir b) (dir b').
Proof.
  induction l as [|i l IH]; intros b b' E; cbn [foldM] in E.
  - apply Ok_inj in E. subst. apply keeps_refl.
  - apply bind_ok in E. destruct E as (b1 & E1 & E). eapply keeps_trans; [exact (Hs _ _ _ E1)|exact (IH _ _ E)].
Qed.
Lemma keeps_lines f g n : keeps f g -> mine n -> lines_of g n = lines_of f n.
Proof. intros K H. unfold lines_of. rewrite (K n H). reflexivity. Qed.
End K.
Ltac notmine := let k := fresh "k" in let H := fresh "H" in intros k H; apply mine_cases in H; destruct H as [->|[->|[->| ->]]]; discriminate.

Section W.
Context (N : NumOps).
Notation T := (num N).
Implicit Types (s : state N) (a : args T) (f : fs T) (conf c : config T).

Lemma new_keeps conf i d f sc f' : new_logged N conf i d f = Ok (sc, f') -> keeps f f'.
Proof.
  unfold new_logged. intros E. apply bind_ok in E. destruct E as (x & _ & E). apply Ok_inj in E. injection E as <- <-.
  destruct (c_log conf); [|apply keeps_refl]. apply keeps_create; [intros k; apply log_not_mine|apply keeps_refl].
Qed.
Lemma log_keeps conf i ls f : keeps f (log_lines N conf i ls f).
Proof. unfold log_lines. destruct (c_log conf); [|apply keeps_refl]. apply keeps_append; [intros k; apply log_not_mine|apply keeps_refl]. Qed.
Lemma touch_keeps conf f : keeps f (touch0 N conf f).
Proof. unfold touch0. destruct (c_log conf); [|apply keeps_refl]. apply keeps_create; [intros k; apply log_not_mine|apply keeps_refl]. Qed.
Definition kept (mk : config T -> fs T -> res (config T * fs T)) : Prop := forall c f c' f', mk c f = Ok (c', f') -> keeps f f'.
Lemma finish_keeps conf n f c' f' : finish N conf n f = Ok (c', f') -> keeps f f'.
Proof. intros E. apply finish_ok in E. destruct E as (_ & _ & E & _). eapply keeps_dat; [apply keeps_refl|exact E]. Qed.
Lemma frame_kept worker rg : kept (run_frame N worker rg).
Proof.
  intros c f c' f' E. unfold run_frame in E. apply bind_ok in E. destruct E as (u & _ & E). apply bind_ok in E. destruct E as (g & E1 & E).
  eapply keeps_trans; [|exact (finish_keeps _ _ _ _ _ E)]. unfold run_chains in E1. apply (keeps_fold (fun f => f)) in E1; [exact E1|]. clear.
  intros i f f' E. apply bind_ok in E. destruct E as ([sc g] & E1 & E). apply bind_ok in E. destruct E as (ls & _ & E). apply Ok_inj in E. subst f'.
  eapply keeps_trans; [exact (new_keeps _ _ _ _ _ _ E1)|apply log_keeps].
Qed.
Lemma langevin_kept fuel g rg : kept (run_langevin N fuel g rg).
Proof.
  intros c f c' f' E. unfold run_langevin in E. apply bind_ok in E. destruct E as (u & _ & E). apply bind_ok in E. destruct E as (h & E1 & E).
  eapply keeps_trans; [|exact (finish_keeps _ _ _ _ _ E)]. apply (keeps_fold (fun f => f)) in E1; [exact E1|]. clear.
  intros i f f' E. apply bind_ok in E. destruct E as (lc & _ & E). apply bind_ok in E. destruct E as (ls & _ & E). apply Ok_inj in E. subst f'.
  repeat (apply keeps_append; [intros k; apply log_not_mine|]). apply keeps_create; [intros k; apply log_not_mine|apply keeps_refl].
Qed.
Lemma profile_not_mine z k : mine k -> k <> profile_name z.
Proof. intros H. apply mine_cases in H. destruct H as [->|[->|[->| ->]]]; discriminate. Qed.
Lemma dyn_kept fuel rg : kept (run_dyn_profile N fuel rg).
Proof.
  intros c f c' f' E. unfold run_dyn_profile in E. apply bind_ok in E. destruct E as (u & _ & E). apply bind_ok in E. destruct E as ([g ms] & E1 & E).
  apply bind_ok in E. destruct E as (h & E2 & E). eapply keeps_trans; [|exact (finish_keeps _ _ _ _ _ E)].
  eapply keeps_trans; [|eapply (keeps_fold (fun f => f)); [|exact E2]].
  - apply (keeps_fold fst) in E1; cbn [fst] in E1.
    + eapply keeps_trans; [|exact E1]. clear. generalize f as g. induction checkpoints as [|z l IH]; intros g; [apply keeps_refl|].
      cbn [fold_left]. eapply keeps_trans; [|apply IH]. apply keeps_create; [intros k; apply profile_not_mine|apply keeps_refl].
    + clear. intros i [f l] [f' l'] E. cbn [fst]. apply bind_ok in E. destruct E as ([sc g] & E1 & E). apply bind_ok in E. destruct E as (ls & _ & E).
      apply Ok_inj in E. injection E as <- <-. exact (new_keeps _ _ _ _ _ _ E1).
  - clear. intros z f f' E. apply bind_ok in E. destruct E as (ls & _ & E). apply Ok_inj in E. subst. apply keeps_append; [intros k; apply profile_not_mine|apply keeps_refl].
Qed.
Lemma mc_frame_keeps {A} (worker : draws N -> Z -> chain T -> res A) rg conf f l f' : mc_frame N worker rg conf f = Ok (l, f') -> keeps f f'.
Proof.
  unfold mc_frame. intros E. apply bind_ok in E. destruct E as (ps & _ & E). apply (keeps_fold snd) in E; [exact E|]. clear.
  intros i [l f] [l' f'] E. cbn [snd]. apply bind_ok in E. destruct E as ([sc g] & E1 & E). apply bind_ok in E. destruct E as (n & _ & E).
  apply bind_ok in E. destruct E as (x & _ & E). apply Ok_inj in E. injection E as <- <-. exact (new_keeps _ _ _ _ _ _ E1).
Qed.
Lemma mc_kept upd rg : kept (run_mc_with N upd rg).
Proof.
  intros c f c' f' E. unfold run_mc_with in E. apply bind_ok in E. destruct E as ([l g] & E1 & E). apply Ok_inj in E. injection E as <- <-.
  apply keeps_append; [notmine|]. eapply keeps_trans; [|exact (mc_frame_keeps _ _ _ _ _ _ E1)]. apply keeps_append; [notmine|apply keeps_refl].
Qed.
Lemma mcp_kept rg : kept (run_mc_profile N rg).
Proof.
  intros c f c' f' E. unfold run_mc_profile in E. apply bind_ok in E. destruct E as ([l g] & E1 & E). apply bind_ok in E. destruct E as (ls & _ & E).
  apply Ok_inj in E. injection E as <- <-. apply keeps_append; [notmine|]. eapply keeps_trans; [|exact (mc_frame_keeps _ _ _ _ _ _ E1)].
  apply keeps_create; [notmine|apply keeps_refl].
Qed.
Lemma tau_kept fuel taus steps rg : kept (run_tau N fuel taus steps rg).
Proof.
  intros c f c' f' E. unfold run_tau in E. apply bind_ok in E. destruct E as (u & _ & E). apply bind_ok in E. destruct E as ([l g] & E1 & E).
  apply Ok_inj in E. injection E as <- <-. apply keeps_append; [notmine|]. apply (keeps_fold snd) in E1; cbn [snd] in E1.
  - eapply keeps_trans; [|exact E1]. apply keeps_append; [notmine|apply keeps_refl].
  - clear. intros i [l f] [l' f'] E. cbn [snd]. apply bind_ok in E. destruct E as (x & _ & E). apply bind_ok in E. destruct E as ([sc g] & E1 & E).
    apply bind_ok in E. destruct E as ([l0 o] & _ & E). apply Ok_inj in E. injection E as <- <-.
    eapply keeps_trans; [exact (new_keeps _ _ _ _ _ _ E1)|apply log_keeps].
Qed.
Lemma magnus_kept n rg : kept (gen_hist_magnus N n rg).
Proof.
  intros c f c' f' E. unfold gen_hist_magnus in E. cbv zeta in E. apply bind_ok in E. destruct E as ([sc g] & E1 & E). apply bind_ok in E. destruct E as ([sc' ls] & _ & E).
  apply Ok_inj in E. injection E as <- <-. apply keeps_append; [notmine|]. exact (new_keeps _ _ _ _ _ _ E1).
Qed.
Lemma hist_kept fuel n rg : kept (gen_hist N fuel n rg).
Proof.
  intros c f c' f' E. unfold gen_hist in E. cbv zeta in E. apply bind_ok in E. destruct E as ([sc g] & E1 & E). apply bind_ok in E. destruct E as ([sc' ls] & _ & E).
  apply bind_ok in E. destruct E as (sc2 & _ & E). apply bind_ok in E. destruct E as ([sc3 ls3] & _ & E). apply Ok_inj in E. injection E as <- <-.
  repeat (apply keeps_append; [notmine|]). exact (new_keeps _ _ _ _ _ _ E1).
Qed.
Lemma dynhist_kept n rg : kept (gen_hist_dynamics N n rg).
Proof.
  intros c f c' f' E. unfold gen_hist_dynamics in E. cbv zeta in E. apply bind_ok in E. destruct E as (u & _ & E). apply bind_ok in E. destruct E as ([l g] & E1 & E).
  apply Ok_inj in E. injection E as <- <-. apply keeps_append; [notmine|]. apply (keeps_fold snd) in E1; cbn [snd] in E1.
  - eapply keeps_trans; [|exact E1]. apply keeps_append; [notmine|apply keeps_refl].
  - clear. intros i [l f] [l' f'] E. cbn [snd]. apply bind_ok in E. destruct E as ([sc g] & E1 & E).
    apply bind_ok in E. destruct E as (sc1 & _ & E). apply bind_ok in E. destruct E as (h & _ & E). apply Ok_inj in E. injection E as <- <-.
    exact (new_keeps _ _ _ _ _ _ E1).
Qed.
Lemma traj_kept fuel n rg : kept (gen_single_traj N fuel n rg).
Proof.
  intros c f c' f' E. unfold gen_single_traj in E. cbv zeta in E. apply bind_ok in E. destruct E as ([sc g] & E1 & E). apply bind_ok in E. destruct E as (sc1 & _ & E).
  apply bind_ok in E. destruct E as ([sc2 ls] & _ & E). apply Ok_inj in E. injection E as <- <-. apply keeps_append; [notmine|].
  eapply keeps_trans; [|exact (new_keeps _ _ _ _ _ _ E1)]. apply keeps_append; [notmine|apply keeps_refl].
Qed.
Lemma avg_kept : kept (run_average N).
Proof.
  intros c f c' f' E. unfold run_average in E. apply bind_ok in E. destruct E as (ls & _ & E). apply Ok_inj in E. injection E as <- <-.
  apply keeps_append; [notmine|]. apply keeps_create; [notmine|apply keeps_refl].
Qed.
Lemma two_kept : kept (run_two_point N).
Proof.
  intros c f c' f' E. unfold run_two_point in E. apply bind_ok in E. destruct E as (ls & _ & E). apply Ok_inj in E. injection E as <- <-.
  apply keeps_append; [notmine|]. apply keeps_create; [notmine|apply keeps_refl].
Qed.
Lemma mean_keeps rg c f e f' : trajectory_mean_e N rg c f = Ok (e, f') -> keeps f f'.
Proof.
  unfold trajectory_mean_e. intros E. apply bind_ok in E. destruct E as (u & _ & E). apply bind_ok in E. destruct E as ([l g] & E1 & E).
  apply Ok_inj in E. injection E as <- <-. apply (keeps_fold snd) in E1; [exact E1|]. clear.
  intros i [l f] [l' f'] E. cbn [snd]. apply bind_ok in E. destruct E as ([sc g] & E1 & E).
  apply bind_ok in E. destruct E as (sc1 & _ & E). apply bind_ok in E. destruct E as (h & _ & E). apply Ok_inj in E. injection E as <- <-.
  exact (new_keeps _ _ _ _ _ _ E1).
Qed.

(** ** Reports *)
Context (fuel : nat) (w : world N).
Definition told s s' : Prop := exists l, s_trace N s' = s_trace N s ++ l /\
  forall n, mine n -> exists ls, Forall2 (fun p l => line_of N fuel w (fst p) (snd p) l) (reports n l) ls /\
    lines_of (s_fs N s') n = lines_of (s_fs N s) n ++ ls.
Lemma told_nil s : told s s.
Proof. exists []. split; [rewrite app_nil_r; reflexivity|]. intros n _. exists []. split; [constructor|rewrite app_nil_r; reflexivity]. Qed.
Lemma told_trans s1 s2 s3 : told s1 s2 -> told s2 s3 -> told s1 s3.
Proof.
  intros (l1 & A1 & B1) (l2 & A2 & B2). exists (l1 ++ l2). rewrite A2, A1, app_assoc. split; [reflexivity|]. intros n Hn.
  destruct (B1 n Hn) as (x1 & F1 & E1). destruct (B2 n Hn) as (x2 & F2 & E2). exists (x1 ++ x2). unfold reports in *. rewrite filter_app.
  split; [apply Forall2_app; assumption|]. rewrite E2, E1, app_assoc. reflexivity.
Qed.
Lemma told_when {A} (o : option A) k s s' : (forall x s s', o = Some x -> k x s = Ok s' -> told s s') -> when N o k s = Ok s' -> told s s'.
Proof. intros H E. destruct o as [x|]; cbn in E; [exact (H x _ _ eq_refl E)|]. apply Ok_inj in E. subst. apply told_nil. Qed.
Lemma told_quiet md ce s c' f' : result_file md = None -> keeps (s_fs N s) f' -> told s (leave N md ce s (c', f')).
Proof.
  intros H K. exists [(md, ce)]. split; [reflexivity|]. intros n Hn. exists []. unfold reports. cbn [filter fst]. rewrite H. split; [constructor|].
  rewrite app_nil_r. exact (keeps_lines _ _ _ K Hn).
Qed.
Lemma told_run md mk s s' : result_file md = None -> kept mk -> do_run N md mk s = Ok s' -> told s s'.
Proof. intros H K E. unfold do_run in E. apply bind_ok in E. destruct E as ([c' f'] & E1 & E). apply Ok_inj in E. subst s'. apply told_quiet; [exact H|exact (K _ _ _ _ E1)]. Qed.
Lemma told_line md name ce s c' g l : result_file md = Some name -> keeps (s_fs N s) g -> line_of N fuel w md ce l ->
  told s (leave N md ce s (c', append name [l] g)).
Proof.
  intros H K L. exists [(md, ce)]. split; [reflexivity|]. intros n Hn. unfold reports. cbn [filter fst]. rewrite H. cbn [s_fs leave snd].
  unfold lines_of. rewrite contents_append, (String.eqb_sym n name). destruct (String.eqb_spec name n) as [->|X].
  - exists [l]. split; [repeat constructor; exact L|]. rewrite (K n Hn). destruct (contents (s_fs N s) n); reflexivity.
  - exists []. split; [constructor|]. rewrite (K n Hn), app_nil_r. reflexivity.
Qed.

Lemma told_fit md q o name te ce s s' mid :
  result_file md = Some name -> fit_of md = Some (q, o) -> te = ednsty ce -> (forall b, mid (set_beta (fit_conf q ce) b) = set_beta (fit_conf q ce) b) ->
  fit_and_observe N md name w (find_of N q fuel) (obs_of N o) mid te ce s = Ok s' -> told s s'.
Proof.
  intros H Fo -> Hm E. unfold fit_and_observe in E. apply bind_ok in E. destruct E as ([b c1] & E1 & E).
  assert (C : c1 = fit_conf q ce) by (destruct q; apply find_conf in E1; exact E1). subst c1. rewrite Hm in E.
  apply bind_ok in E. destruct E as ([[[[r0 r1] r2] r3] c2] & E2 & E). apply Ok_inj in E. subst s'.
  assert (C : c2 = set_ssize (set_beta (fit_conf q ce) b) (hsize (set_beta (fit_conf q ce) b))) by (destruct o; apply observe_conf in E2; exact E2).
  assert (Et : tau c2 = tau ce) by (rewrite C; destruct q; reflexivity). assert (Eb : beta c2 = b) by (rewrite C; reflexivity). rewrite Et, Eb.
  apply told_line; [exact H|apply touch_keeps|]. eapply l_fit; eassumption.
Qed.

Lemma adiabatic_line c0 me b g g' r0 r1 r2 r3 c1 c2 :
  trajectory_mean_e N (w_rng N w Madiabatic) c0 g = Ok (me, g') ->
  find_beta N fuel (fun k => r_draws N (w_rng N w Madiabatic) (num_runs N c0 + k))
    (set_hs (set_ednsty c0 me) [nofZ N 1; nofZ N 0; minus_omega N (set_ednsty c0 me)]) = Ok (b, c1) ->
  get_obs N (w_obs N w Madiabatic) (set_beta c1 b) = Ok (r0, r1, r2, r3, c2) ->
  line_of N fuel w Madiabatic c0 (numbers [tau c2; beta (set_hs (set_ednsty c0 me) [nofZ N 1; nofZ N 0; minus_omega N (set_ednsty c0 me)]); b; r0; r1; r2; r3; me]).
Proof.
  intros Q1 Q2 Q3. change (minus_omega N (set_ednsty c0 me)) with (m_omega N c0) in *.
  remember (set_hs (set_ednsty c0 me) [nofZ N 1; nofZ N 0; m_omega N c0]) as cx eqn:Ex.
  pose proof (find_conf _ _ _ _ _ _ _ _ Q2) as C1. pose proof (observe_conf _ _ _ _ _ _ _ _ _ _ _ Q3) as C2.
  assert (E1 : tau c2 = tau c0) by (rewrite C2, C1, Ex; destruct c0; reflexivity).
  assert (E2 : beta cx = beta c0) by (rewrite Ex; destruct c0; reflexivity). rewrite E1, E2.
  assert (C3 : c1 = fit_conf Sbeta cx) by exact C1. rewrite C3 in Q2, Q3.
  eapply l_adiabatic; [reflexivity|exact Q1|exact Ex|exact Q2|exact Q3].
Qed.
Lemma told_Mrot x s s' : do_rot N fuel w x s = Ok s' -> told s s'.
Proof.
  unfold do_rot. cbv zeta. intros Q. eapply (told_fit Mrot Srot Orot); [..|exact Q]; [reflexivity|reflexivity| |]; [destruct (s_conf N s); reflexivity|].
  intros b. destruct (s_conf N s); reflexivity.
Qed.
Lemma told_Mmaglab x s s' : do_maglab N fuel w x s = Ok s' -> told s s'.
Proof.
  unfold do_maglab. cbv zeta. intros Q. eapply (told_fit Mmaglab Smaglab Omaglab); [..|exact Q]; [reflexivity|reflexivity| |]; [destruct (s_conf N s); reflexivity|].
  intros b. destruct (s_conf N s); reflexivity.
Qed.
Lemma told_Mfit x s s' : do_fit N fuel w x s = Ok s' -> told s s'.
Proof.
  unfold do_fit. cbv zeta. intros Q. eapply (told_fit Mfit Sbeta Omain); [..|exact Q]; [reflexivity|reflexivity| |]; [destruct (s_conf N s); reflexivity|].
  intros b. destruct (s_conf N s); reflexivity.
Qed.
Lemma told_Mfiteff x s s' : do_fiteff N fuel w x s = Ok s' -> told s s'.
Proof.
  unfold do_fiteff. cbv zeta. intros Q. eapply (told_fit Mfiteff Sbetah Oh); [..|exact Q]; [reflexivity|reflexivity| |]; [destruct (s_conf N s); reflexivity|].
  intros b. destruct (s_conf N s); reflexivity.
Qed.
Lemma told_adiab2 x s s' : do_adiab2 N fuel w x s = Ok s' -> told s s'.
Proof.
  unfold do_adiab2. cbv zeta. set (c := set_hfield _ _). clearbody c. intros Q. apply bind_ok in Q. destruct Q as ([b c1] & Q1 & Q). apply Ok_inj in Q. subst s'.
  pose proof (find_conf _ _ _ _ _ _ _ _ Q1) as ->. apply told_line; [reflexivity|apply touch_keeps|]. apply l_adiab2; [reflexivity|exact Q1].
Qed.
Lemma told_high x s s' : do_high N w x s = Ok s' -> told s s'.
Proof.
  unfold do_high. cbv zeta. remember (set_hfield _ _) as c eqn:Ec. intros Q. apply bind_ok in Q. destruct Q as ([[[[r0 r1] r2] r3] c2] & Q1 & Q). apply Ok_inj in Q. subst s'.
  assert (x = ednsty c) by (rewrite Ec; destruct (s_conf N s); reflexivity). subst x. clear Ec.
  pose proof (observe_conf _ _ _ _ _ _ _ _ _ _ _ Q1) as C.
  assert (E1 : tau c2 = tau c) by (rewrite C; reflexivity). assert (E2 : beta c2 = beta c) by (rewrite C; reflexivity). rewrite E1, E2.
  apply told_line; [reflexivity|apply touch_keeps|]. eapply l_high; [reflexivity|exact Q1].
Qed.
Lemma told_adiabatic x s s' : do_adiabatic N fuel w x s = Ok s' -> told s s'.
Proof.
  unfold do_adiabatic. cbv zeta. set (c := set_tau _ _). clearbody c. intros Q. apply bind_ok in Q. destruct Q as ([me f1] & Q1 & Q).
  apply bind_ok in Q. destruct Q as ([b c1] & Q2 & Q). apply bind_ok in Q. destruct Q as ([[[[r0 r1] r2] r3] c2] & Q3 & Q). apply Ok_inj in Q. subst s'.
  apply told_line; [reflexivity|eapply keeps_trans; [exact (mean_keeps _ _ _ _ _ Q1)|apply touch_keeps]|].
  exact (adiabatic_line _ _ _ _ _ _ _ _ _ _ _ Q1 Q2 Q3).
Qed.
Lemma before_told a s s' : main_before N fuel w a s = Ok s' -> told s s'.
Proof.
  unfold main_before. intros E. cbv zeta in E.
  repeat (apply bind_ok in E; let x := fresh "s" in let H := fresh "H" in destruct E as (x & H & E)).
  eapply told_trans; [eapply told_when; [|eassumption]; intros ? ? ? _ Q; apply Ok_inj in Q; subst; apply told_quiet; [reflexivity|apply keeps_refl]|].
  eapply told_trans; [eapply told_when; [|eassumption]; intros ? ? ? _; apply told_run; [reflexivity|]; intros c f c' f' Q; apply bind_ok in Q; destruct Q as ([c1 f1] & Q & Q'); apply Ok_inj in Q'; injection Q' as <- <-; exact (frame_kept _ _ _ _ _ _ Q)|].
  eapply told_trans; [eapply told_when; [|eassumption]; intros ? ? ? _; apply told_run; [reflexivity|apply tau_kept]|].
  eapply told_trans.
  { eapply told_when; [|eassumption]. intros x ? ? _ Q. exact (told_adiab2 _ _ _ Q). }
  eapply told_trans; [eapply told_when; [|eassumption]; intros x ? ? _ Q; exact (told_Mrot _ _ _ Q)|].
  eapply told_trans; [eapply told_when; [|eassumption]; intros x ? ? _ Q; exact (told_Mmaglab _ _ _ Q)|].
  eapply told_trans; [eapply told_when; [|eassumption]; intros x ? ? _ Q; exact (told_Mfit _ _ _ Q)|].
  eapply told_trans; [eapply told_when; [|eassumption]; intros x ? ? _ Q; exact (told_Mfiteff _ _ _ Q)|].
  eapply told_trans.
  { eapply told_when; [|eassumption]. intros x ? ? _ Q. exact (told_high _ _ _ Q). }
  eapply told_when; [|eassumption]. intros x ? ? _ Q. exact (told_adiabatic _ _ _ Q).
Qed.
Lemma after_told a s s' : main_after N fuel w a s = Ok s' -> told s s'.
Proof.
  unfold main_after. intros E.
  repeat (apply bind_ok in E; let x := fresh "s" in let H := fresh "H" in destruct E as (x & H & E)).
  eapply told_trans; [eapply told_when; [|eassumption]; intros ? ? ? _; apply told_run; [reflexivity|apply hist_kept]|].
  eapply told_trans; [eapply told_when; [|eassumption]; intros ? ? ? _; apply told_run; [reflexivity|apply dynhist_kept]|].
  eapply told_trans; [eapply told_when; [|eassumption]; intros ? ? ? _; apply told_run; [reflexivity|apply magnus_kept]|].
  eapply told_trans; [eapply told_when; [|eassumption]; intros ? ? ? _; apply told_run; [reflexivity|apply traj_kept]|].
  eapply told_trans; [eapply told_when; [|eassumption]; intros ? ? ? _; apply told_run; [reflexivity|apply avg_kept]|].
  eapply told_trans; [eapply told_when; [|eassumption]; intros ? ? ? _; apply told_run; [reflexivity|apply two_kept]|].
  eapply told_trans; [eapply told_when; [|eassumption]; intros ? ? ? _; apply told_run; [reflexivity|apply mc_kept]|].
  eapply told_trans; [eapply told_when; [|eassumption]; intros ? ? ? _; apply told_run; [reflexivity|apply mcp_kept]|].
  eapply told_trans; [eapply told_when; [|eassumption]; intros ? ? ? _; apply told_run; [reflexivity|apply dyn_kept]|].
  eapply told_trans; [eapply told_when; [|eassumption]; intros ? ? ? _; apply told_run; [reflexivity|apply mc_kept]|].
  eapply told_trans.
  { eapply told_when; [|eassumption]. intros ? sx ? _ Q. cbv zeta in Q. 
    apply (told_run Mlangevin _ _ _ eq_refl (langevin_kept _ _ _)) in Q. exact Q. }
  eapply told_when; [|eassumption]. intros ? ? ? _. apply told_run; [reflexivity|apply frame_kept].
Qed.
End W.

Theorem main_reports N fuel w a f st : main N fuel w a f = Ok st -> forall n, mine n ->
  exists ls, Forall2 (fun p l => line_of N fuel w (fst p) (snd p) l) (reports n (s_trace N st)) ls /\
    lines_of (s_fs N st) n = lines_of f n ++ ls.
Proof.
  intros E n Hn. unfold main in E. apply bind_ok in E. destruct E as ([conf f0] & Rd & E). cbv zeta in E.
  destruct (read_in_range _ _ _ _ Rd) as [_ Df].
  apply bind_ok in E. destruct E as (s1 & E1 & E). apply bind_ok in E. destruct E as (s2 & E2 & E). apply bind_ok in E. destruct E as (s3 & E3 & E).
  apply before_told in E1. apply after_told in E3. apply settle_ok in E2. destruct E2 as (b & _ & ->).
  assert (E4 : told N fuel w s3 st).
  { destruct (s_default N s3); [|apply Ok_inj in E; subst; apply told_nil]. revert E. apply told_run; [reflexivity|apply frame_kept]. }
  pose proof (told_trans N fuel w _ _ _ E3 E4) as (l2 & A2 & B2). destruct E1 as (l1 & A1 & B1). cbn [s_conf s_fs s_trace app] in *.
  destruct (B1 n Hn) as (x1 & F1 & L1). destruct (B2 n Hn) as (x2 & F2 & L2). exists (x1 ++ x2). rewrite A2, A1. unfold reports in *. rewrite filter_app.
  split; [apply Forall2_app; assumption|]. rewrite L2, L1, app_assoc. f_equal. f_equal. unfold lines_of, contents. rewrite Df. reflexivity.
Qed.
