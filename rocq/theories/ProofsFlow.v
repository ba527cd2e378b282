(** How the configuration flows through the modes. *)
From Coq Require Import String ZArith List Lia Arith Bool.
From Verif Require Import Num Monad Spin Config Chain Langevin Fit Files Toml Writers Average Runs Main
  SpecRuns SpecToml SpecMain ProofsDir ProofsFrame ProofsMain ProofsHistory.
Import ListNotations.
Local Open Scope list_scope.

Section F.
Context (N : NumOps).
Notation T := (num N).
Implicit Types (s : state N) (a : args T) (f : fs T) (conf c : config T).

Definition flows a (ms : mode -> Prop) s s' : Prop :=
  exists l, s_trace N s' = s_trace N s ++ l /\ pass N a (s_conf N s) l (s_conf N s') /\ Forall (fun p => ms (fst p)) l.
Lemma flows_nil a ms s : flows a ms s s.
Proof. exists []. rewrite app_nil_r. repeat constructor. Qed.
Lemma pass_app a c1 l1 c2 l2 c3 : pass N a c1 l1 c2 -> pass N a c2 l2 c3 -> pass N a c1 (l1 ++ l2) c3.
Proof. induction 1; intros H2; cbn; [exact H2|]. econstructor; eauto. Qed.
Lemma flows_trans a ms s1 s2 s3 : flows a ms s1 s2 -> flows a ms s2 s3 -> flows a ms s1 s3.
Proof.
  intros (l1 & A1 & B1 & C1) (l2 & A2 & B2 & C2). exists (l1 ++ l2). rewrite A2, A1, app_assoc. split; [reflexivity|].
  split; [eapply pass_app; eassumption|]. apply Forall_app. auto.
Qed.
Lemma flows_leave a (ms : mode -> Prop) md ce s c' f' : ms md -> entry N a md (s_conf N s) ce -> left_by N md ce c' -> flows a ms s (leave N md ce s (c', f')).
Proof.
  intros Hm He Hl. exists [(md, ce)]. split; [reflexivity|]. split; [|repeat constructor; exact Hm].
  econstructor; [exact He|exact Hl|]. constructor.
Qed.
Lemma flows_run a (ms : mode -> Prop) md mk s s' : ms md -> (forall c, entry N a md c c) ->
  (forall c f c' f', mk c f = Ok (c', f') -> left_by N md c c') -> do_run N md mk s = Ok s' -> flows a ms s s'.
Proof.
  intros Hm He Hl E. unfold do_run in E. apply bind_ok in E. destruct E as ([c' f'] & E1 & E). apply Ok_inj in E. subst s'.
  apply flows_leave; [exact Hm|apply He|exact (Hl _ _ _ _ E1)].
Qed.
Lemma flows_when {A} a ms (o : option A) k s s' : (forall x s s', o = Some x -> k x s = Ok s' -> flows a ms s s') -> when N o k s = Ok s' -> flows a ms s s'.
Proof. intros H E. destruct o as [x|]; cbn in E; [exact (H x _ _ eq_refl E)|]. apply Ok_inj in E. subst. apply flows_nil. Qed.

Lemma u32_runs (z : Z) : u32 (Z.of_nat (as_usize z)) = (z mod 2 ^ 32)%Z.
Proof.
  unfold u32, as_usize. rewrite Z2Nat.id by (apply Z.mod_pos_bound; lia).
  rewrite (Z.div_mod z (2 ^ 64)) at 2 by lia. rewrite Z.add_comm, Z.mul_comm.
  replace (z / 2 ^ 64 * 2 ^ 64)%Z with (z / 2 ^ 64 * 2 ^ 32 * 2 ^ 32)%Z by lia. rewrite Z_mod_plus_full. reflexivity.
Qed.
Lemma finish_left conf f conf' f' : finish N conf (num_runs N conf) f = Ok (conf', f') -> conf' = set_offset conf (offset conf + runs conf mod 2 ^ 32)%Z.
Proof. intros E. apply finish_ok in E. destruct E as (_ & E & _). unfold num_runs in E. rewrite u32_runs in E. exact E. Qed.
Lemma frame_left worker rg c f c' f' : run_frame N worker rg c f = Ok (c', f') -> c' = set_offset c (offset c + runs c mod 2 ^ 32)%Z.
Proof. intros E. apply run_frame_wrote in E. destruct E as [_ E]. exact (finish_left _ _ _ _ E). Qed.

Ltac oks E := repeat (apply bind_ok in E; let x := fresh "x" in let H := fresh "H" in destruct E as (x & H & E);
   repeat match type of x with (_ * _)%type => destruct x as [x ?] end).
Ltac same E := oks E; congruence.
Lemma find_conf est low fuel rng c b c' : find_with N est low fuel rng c = Ok (b, c') -> c' = c.
Proof. unfold find_with. intros E. oks E. congruence. Qed.
Lemma observe_conf upd inner en d c r0 r1 r2 r3 c' : observe N upd inner en d c = Ok (r0, r1, r2, r3, c') -> c' = set_ssize c (hsize c).
Proof. unfold observe. intros E. oks E. congruence. Qed.

Lemma fit_flows a (ms : mode -> Prop) md name w fd ob mid te ce s s' : ms md -> entry N a md (s_conf N s) ce ->
  (forall rng b c', fd rng ce = Ok (b, c') -> forall d r0 r1 r2 r3 c2, ob d (mid (set_beta c' b)) = Ok (r0, r1, r2, r3, c2) -> left_by N md ce c2) ->
  fit_and_observe N md name w fd ob mid te ce s = Ok s' -> flows a ms s s'.
Proof.
  intros Hm He Hl E. unfold fit_and_observe in E. apply bind_ok in E. destruct E as ([b c1] & E1 & E).
  apply bind_ok in E. destruct E as ([[[[r0 r1] r2] r3] c2] & E2 & E). apply Ok_inj in E. subst s'.
  apply flows_leave; [exact Hm|exact He|exact (Hl _ _ _ E1 _ _ _ _ _ _ E2)].
Qed.

Lemma before_flows fuel w a s s' : main_before N fuel w a s = Ok s' -> flows a (fun m => early m = true) s s'.
Proof.
  unfold main_before. intros E. cbv zeta in E.
  repeat (apply bind_ok in E; let x := fresh "s" in let H := fresh "H" in destruct E as (x & H & E)).
  eapply flows_trans; [eapply flows_when; [|eassumption]; intros ? ? ? _ Q; apply Ok_inj in Q; subst; apply flows_leave; reflexivity|].
  eapply flows_trans; [eapply flows_when; [|eassumption]; intros ? ? ? _; apply flows_run; try reflexivity; intros ? ? ? ? Q; oks Q; cbn; congruence|].
  eapply flows_trans; [eapply flows_when; [|eassumption]; intros ? ? ? _; apply flows_run; try reflexivity; intros ? ? ? ? Q; unfold run_tau in Q; oks Q; cbn; congruence|].
  eapply flows_trans.
  { eapply flows_when; [|eassumption]. intros x ? ? Hx Q. unfold do_adiab2 in Q. oks Q. apply Ok_inj in Q. subst. apply flows_leave; [reflexivity| |].
    - exists x. split; [exact Hx|reflexivity].
    - match goal with Q : find_beta2 _ _ _ _ = _ |- _ => apply find_conf in Q; rewrite Q end. reflexivity. }
  eapply flows_trans.
  { eapply flows_when; [|eassumption]. intros x ? ? Hx. apply fit_flows; [reflexivity|exists x; auto|].
    intros ? b ? Q1 ? ? ? ? ? ? Q2. apply find_conf in Q1. apply observe_conf in Q2. subst. exists b. reflexivity. }
  eapply flows_trans.
  { eapply flows_when; [|eassumption]. intros x ? ? Hx. apply fit_flows; [reflexivity|exists x; auto|].
    intros ? b ? Q1 ? ? ? ? ? ? Q2. apply find_conf in Q1. apply observe_conf in Q2. subst. exists b. reflexivity. }
  eapply flows_trans.
  { eapply flows_when; [|eassumption]. intros x ? ? Hx. apply fit_flows; [reflexivity|exists x; auto|].
    intros ? b ? Q1 ? ? ? ? ? ? Q2. apply find_conf in Q1. apply observe_conf in Q2. subst. exists b. reflexivity. }
  eapply flows_trans.
  { eapply flows_when; [|eassumption]. intros x ? ? Hx. apply fit_flows; [reflexivity|exists x; auto|].
    intros ? b ? Q1 ? ? ? ? ? ? Q2. apply find_conf in Q1. apply observe_conf in Q2. subst. exists b. reflexivity. }
  eapply flows_trans.
  { eapply flows_when; [|eassumption]. intros x ? ? Hx Q. unfold do_high in Q. apply bind_ok in Q. destruct Q as ([[[[r0 r1] r2] r3] c2] & E2 & Q). apply Ok_inj in Q. subst.
    apply flows_leave; [reflexivity|exists x; auto|]. apply observe_conf in E2. exact E2. }
  eapply flows_when; [|eassumption]. intros x ? ? Hx Q. unfold do_adiabatic in Q. apply bind_ok in Q. destruct Q as ([me f1] & Q1 & Q).
  apply bind_ok in Q. destruct Q as ([b c1] & Q2 & Q). apply bind_ok in Q. destruct Q as ([[[[r0 r1] r2] r3] c2] & Q3 & Q). apply Ok_inj in Q. subst.
  apply flows_leave; [reflexivity|exists x; auto|]. apply find_conf in Q2. apply observe_conf in Q3. subst. exists me, b. reflexivity.
Qed.

Lemma after_flows fuel w a s s' : main_after N fuel w a s = Ok s' -> flows a (fun m => early m = false) s s'.
Proof.
  unfold main_after. intros E.
  repeat (apply bind_ok in E; let x := fresh "s" in let H := fresh "H" in destruct E as (x & H & E)).
  eapply flows_trans; [eapply flows_when; [|eassumption]; intros ? ? ? _; apply flows_run; try reflexivity; intros ? ? ? ? Q; unfold gen_hist in Q; oks Q; apply Ok_inj in Q; apply (f_equal fst) in Q; cbn [fst] in Q; rewrite <- Q; reflexivity|].
  eapply flows_trans; [eapply flows_when; [|eassumption]; intros ? ? ? _; apply flows_run; try reflexivity; intros ? ? ? ? Q; unfold gen_hist_dynamics in Q; oks Q; cbn; congruence|].
  eapply flows_trans; [eapply flows_when; [|eassumption]; intros ? ? ? _; apply flows_run; try reflexivity; intros ? ? ? ? Q; unfold gen_hist_magnus in Q; oks Q; apply Ok_inj in Q; apply (f_equal fst) in Q; cbn [fst] in Q; rewrite <- Q; reflexivity|].
  eapply flows_trans; [eapply flows_when; [|eassumption]; intros ? ? ? _; apply flows_run; try reflexivity; intros ? ? ? ? Q; unfold gen_single_traj in Q; oks Q; cbn; congruence|].
  eapply flows_trans; [eapply flows_when; [|eassumption]; intros ? ? ? _; apply flows_run; try reflexivity; intros ? ? ? ? Q; unfold run_average in Q; oks Q; cbn; congruence|].
  eapply flows_trans; [eapply flows_when; [|eassumption]; intros ? ? ? _; apply flows_run; try reflexivity; intros ? ? ? ? Q; unfold run_two_point in Q; oks Q; cbn; congruence|].
  eapply flows_trans; [eapply flows_when; [|eassumption]; intros ? ? ? _; apply flows_run; try reflexivity; intros ? ? ? ? Q; unfold run_mc, run_mc_with in Q; oks Q; cbn; congruence|].
  eapply flows_trans; [eapply flows_when; [|eassumption]; intros ? ? ? _; apply flows_run; try reflexivity; intros ? ? ? ? Q; unfold run_mc_profile in Q; oks Q; cbn; congruence|].
  eapply flows_trans.
  { eapply flows_when; [|eassumption]. intros ? ? ? _. apply flows_run; try reflexivity. intros c ? ? ? Q. unfold run_dyn_profile in Q.
    do 3 (apply bind_ok in Q; let x := fresh "x" in let H := fresh "H" in destruct Q as (x & H & Q); try destruct x as [x ?]).
    exact (finish_left (set_ct c _) _ _ _ Q). }
  eapply flows_trans; [eapply flows_when; [|eassumption]; intros ? ? ? _; apply flows_run; try reflexivity; intros ? ? ? ? Q; unfold run_mc_magnus, run_mc_with in Q; oks Q; cbn; congruence|].
  eapply flows_trans.
  { eapply flows_when; [|eassumption]. intros ? sx ? _ Q. cbv zeta in Q. unfold do_run in Q. apply bind_ok in Q. destruct Q as ([c' f'] & Q1 & Q). apply Ok_inj in Q. subst.
    cbn [s_conf s_fs s_trace] in *. unfold run_langevin in Q1.
    do 2 (apply bind_ok in Q1; let x := fresh "x" in let H := fresh "H" in destruct Q1 as (x & H & Q1)). apply finish_left in Q1.
    exists [(Mlangevin, set_hsize (s_conf N sx) (ssize (s_conf N sx)))]. split; [reflexivity|]. split; [|repeat constructor].
    econstructor; [reflexivity|exact Q1|]. constructor. }
  eapply flows_when; [|eassumption]. intros ? ? ? _. apply flows_run; try reflexivity. intros ? ? ? ? Q. exact (frame_left _ _ _ _ _ _ Q).
Qed.

Theorem main_flows fuel w a f st conf f0 : read_config N f = Ok (conf, f0) -> main N fuel w a f = Ok st ->
  exists l1 l2 c1 b, s_trace N st = l1 ++ l2 /\ Forall (fun p => early (fst p) = true) l1 /\ Forall (fun p => early (fst p) = false) l2 /\
    pass N a (match a_tau a with Some x => set_tau conf x | None => conf end) l1 c1 /\
    (a_beta a = Some b \/ (a_beta a = None /\ solve_beta N fuel (ednsty c1) = Ok b)) /\
    pass N a (set_beta c1 b) l2 (s_conf N st).
Proof.
  intros Rd E. unfold main in E. rewrite Rd in E. cbn [bind] in E. cbv zeta in E.
  apply bind_ok in E. destruct E as (s1 & E1 & E). apply bind_ok in E. destruct E as (s2 & E2 & E). apply bind_ok in E. destruct E as (s3 & E3 & E).
  apply before_flows in E1. apply after_flows in E3. unfold settle_beta in E2. apply bind_ok in E2. destruct E2 as (b & Eb & E2). apply Ok_inj in E2. subst s2.
  assert (E4 : flows a (fun m => early m = false) s3 st).
  { destruct (s_default N s3); [|apply Ok_inj in E; subst; apply flows_nil].
    revert E. apply flows_run; try reflexivity. intros ? ? ? ? Q. exact (frame_left _ _ _ _ _ _ Q). }
  pose proof (flows_trans _ _ _ _ _ E3 E4) as (l2 & A2 & B2 & C2). destruct E1 as (l1 & A1 & B1 & C1).
  cbn [s_conf s_fs s_trace app] in *. exists l1, l2, (s_conf N s1), b. rewrite A2, A1. split; [reflexivity|]. split; [exact C1|]. split; [exact C2|].
  split; [exact B1|]. split; [|exact B2]. destruct (a_beta a); [left; congruence|right; auto].
Qed.
End F.
