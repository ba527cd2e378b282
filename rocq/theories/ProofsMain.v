From Coq Require Import String ZArith List Lia Arith Bool.
From Verif Require Import Num Monad Spin Config Chain Langevin Fit Files Toml Writers Average Runs Main
  SpecRuns SpecToml SpecMain ProofsDir ProofsNames ProofsToml ProofsFrame.
Import ListNotations.
Local Open Scope list_scope.

Section M.
Context (N : NumOps).
Notation T := (num N).
Implicit Types (s : state N) (a : args T).

(** A step that enters the modes [l] (at most one) and keeps the default flag iff there are none *)
Definition enters (l : list mode) (s s' : state N) : Prop :=
  map fst (s_trace N s') = map fst (s_trace N s) ++ l /\
  s_default N s' = match l with [] => s_default N s | _ => false end.
Lemma enters_nil s : enters [] s s.
Proof. split; [rewrite app_nil_r|]; reflexivity. Qed.
Lemma enters_app l1 l2 s s1 s2 : enters l1 s s1 -> enters l2 s1 s2 -> enters (l1 ++ l2) s s2.
Proof.
  intros [A B] [A' B']. split; [rewrite A', A, app_assoc; reflexivity|]. rewrite B', B. destruct l1, l2; reflexivity.
Qed.
Lemma enters_leave md c s p : enters [md] s (leave N md c s p).
Proof. split; [cbn; rewrite map_app|]; reflexivity. Qed.
Lemma enters_run md mk s s' : do_run N md mk s = Ok s' -> enters [md] s s'.
Proof. unfold do_run. intros E. apply bind_ok in E. destruct E as (p & _ & E). injection E as <-. apply enters_leave. Qed.
Lemma enters_when {A} (o : option A) md k s s' : (forall x s s', k x s = Ok s' -> enters [md] s s') ->
  when N o k s = Ok s' -> enters (on md o) s s'.
Proof. intros H E. destruct o as [x|]; cbn in *; [exact (H x s s' E)|]. injection E as <-. apply enters_nil. Qed.
Lemma enters_flag b md k s s' : (forall x s s', k x s = Ok s' -> enters [md] s s') ->
  when N (flag b) k s = Ok s' -> enters (onb md b) s s'.
Proof. intros H E. destruct b; cbn in *; [exact (H tt s s' E)|]. injection E as <-. apply enters_nil. Qed.

Ltac oks E := repeat (apply bind_ok in E; let x := fresh "x" in let H := fresh "H" in destruct E as (x & H & E);
   repeat match type of x with (_ * _)%type => destruct x as [x ?] end).
Lemma enters_fit md nm w fd ob mid te conf s s' :
  fit_and_observe N md nm w fd ob mid te conf s = Ok s' -> enters [md] s s'.
Proof. unfold fit_and_observe. intros E. oks E. injection E as <-. apply enters_leave. Qed.
Lemma enters_adiab2 fuel w x s s' : do_adiab2 N fuel w x s = Ok s' -> enters [Madiab2] s s'.
Proof. unfold do_adiab2. intros E. oks E. injection E as <-. apply enters_leave. Qed.
Lemma enters_high w x s s' : do_high N w x s = Ok s' -> enters [Mhigh] s s'.
Proof. unfold do_high. intros E. oks E. injection E as <-. apply enters_leave. Qed.
Lemma enters_adiabatic fuel w x s s' : do_adiabatic N fuel w x s = Ok s' -> enters [Madiabatic] s s'.
Proof. unfold do_adiabatic. intros E. oks E. injection E as <-. apply enters_leave. Qed.

Lemma before_enters fuel w a s s' : main_before N fuel w a s = Ok s' ->
  enters (onb Mdesc (a_config_desc a) ++ onb Mext (a_ext a) ++ on Mtau (a_n_steps_taus a) ++ on Madiab2 (a_adiab2 a) ++
  on Mrot (a_rot a) ++ on Mmaglab (a_maglab a) ++ on Mfit (a_fit a) ++ on Mfiteff (a_fit_effective a) ++
  on Mhigh (a_high_freq a) ++ on Madiabatic (a_adiabatic a)) s s'.
Proof.
  unfold main_before. intros E.
  repeat (apply bind_ok in E; let x := fresh "s" in let H := fresh "H" in destruct E as (x & H & E)).
  eapply enters_app; [eapply enters_flag; [|eassumption]; intros ? ? ? [= <-]; apply enters_leave|].
  eapply enters_app; [eapply enters_flag; [|eassumption]; intros ? ? ?; apply enters_run|].
  eapply enters_app; [eapply enters_when; [|eassumption]; intros ? ? ?; apply enters_run|].
  eapply enters_app; [eapply enters_when; [|eassumption]; intros ? ? ?; apply enters_adiab2|].
  eapply enters_app; [eapply enters_when; [|eassumption]; intros ? ? ?; apply enters_fit|].
  eapply enters_app; [eapply enters_when; [|eassumption]; intros ? ? ?; apply enters_fit|].
  eapply enters_app; [eapply enters_when; [|eassumption]; intros ? ? ?; apply enters_fit|].
  eapply enters_app; [eapply enters_when; [|eassumption]; intros ? ? ?; apply enters_fit|].
  eapply enters_app; [eapply enters_when; [|eassumption]; intros ? ? ?; apply enters_high|].
  eapply enters_when; [|eassumption]; intros ? ? ?; apply enters_adiabatic.
Qed.
Lemma after_enters fuel w a s s' : main_after N fuel w a s = Ok s' ->
  enters (on Mhist (a_hist a) ++ on Mdynhist (a_dynhist a) ++
  on Mmagnus (a_magnus_hist a) ++ on Mtraj (a_singletraj a) ++ onb Mavg (a_avg a) ++ onb Mtwopoint (a_two_point a) ++
  onb Mmc (a_mc a) ++ onb Mmcprofile (a_mc_profile a) ++ onb Mdynprofile (a_dyn_profile a) ++ onb Mmcfull (a_mc_full a) ++
  on Mlangevin (a_langevin a) ++ onb Mresponse (a_response a)) s s'.
Proof.
  unfold main_after. intros E.
  repeat (apply bind_ok in E; let x := fresh "s" in let H := fresh "H" in destruct E as (x & H & E)).
  do 4 (eapply enters_app; [eapply enters_when; [|eassumption]; intros ? ? ?; apply enters_run|]).
  do 6 (eapply enters_app; [eapply enters_flag; [|eassumption]; intros ? ? ?; apply enters_run|]).
  eapply enters_app; [eapply enters_when; [|eassumption]; intros ? ? ?; apply enters_run|].
  eapply enters_flag; [|eassumption]; intros ? ? ?; apply enters_run.
Qed.

Lemma selected_split a : selected a =
  (onb Mdesc (a_config_desc a) ++ onb Mext (a_ext a) ++ on Mtau (a_n_steps_taus a) ++ on Madiab2 (a_adiab2 a) ++
  on Mrot (a_rot a) ++ on Mmaglab (a_maglab a) ++ on Mfit (a_fit a) ++ on Mfiteff (a_fit_effective a) ++
  on Mhigh (a_high_freq a) ++ on Madiabatic (a_adiabatic a)) ++
  (on Mhist (a_hist a) ++ on Mdynhist (a_dynhist a) ++
  on Mmagnus (a_magnus_hist a) ++ on Mtraj (a_singletraj a) ++ onb Mavg (a_avg a) ++ onb Mtwopoint (a_two_point a) ++
  onb Mmc (a_mc a) ++ onb Mmcprofile (a_mc_profile a) ++ onb Mdynprofile (a_dyn_profile a) ++ onb Mmcfull (a_mc_full a) ++
  on Mlangevin (a_langevin a) ++ onb Mresponse (a_response a)).
Proof. unfold selected. rewrite <- !app_assoc. reflexivity. Qed.

Theorem main_trace fuel w a f st : main N fuel w a f = Ok st ->
  map fst (s_trace N st) = match selected a with [] => [Mdefault] | l => l end.
Proof.
  unfold main. intros E. apply bind_ok in E. destruct E as ([conf f1] & E0 & E).
  set (c0 := match a_tau a with Some x => set_tau conf x | None => conf end) in *. cbv zeta in E.
  apply bind_ok in E. destruct E as (s1 & E1 & E). apply bind_ok in E. destruct E as (s2 & E2 & E).
  apply bind_ok in E. destruct E as (s3 & E3 & E).
  apply before_enters in E1. apply after_enters in E3.
  assert (E2' : enters [] s1 s2).
  { unfold settle_beta in E2. apply bind_ok in E2. destruct E2 as (b & _ & E2). injection E2 as <-. split; [cbn; rewrite app_nil_r|]; reflexivity. }
  pose proof (enters_app _ _ _ _ _ E1 (enters_app _ _ _ _ _ E2' E3)) as H. cbn [app] in H. rewrite <- selected_split in H.
  destruct H as [A B]. cbn [s_trace s_default map app] in A, B. rewrite B in E.
  destruct (selected a) as [|md l] eqn:S.
  - apply enters_run in E. destruct E as [E _]. rewrite E, A. reflexivity.
  - injection E as <-. exact A.
Qed.
End M.
