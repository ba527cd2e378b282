(** The modes that empty log files. *)
From Coq Require Import String ZArith List Lia Arith Bool.
From Verif Require Import Num Monad Spin Config Chain Langevin Fit Files Toml Writers Average Runs Main
  SpecRuns SpecToml SpecMain SpecWriters ProofsDir ProofsNames ProofsToml ProofsFrame ProofsWriters ProofsMain ProofsHistory ProofsFlow.
Import ListNotations.
Local Open Scope list_scope.

Definition emptied {T} (file : string) (k : nat) (f f' : fs T) : Prop :=
  forall i, contents f' (log_name file i) = if i <? k then Some [] else contents f (log_name file i).
Section E.
Context {T : Type}.
Implicit Types (f g : fs T).
Lemma emptied_refl file f : emptied file 0 f f.
Proof. intros i. reflexivity. Qed.
Lemma emptied_append file k f g n ls : (forall i, log_name file i <> n) -> emptied file k f g -> emptied file k f (append n ls g).
Proof. intros H E i. rewrite contents_append. destruct (String.eqb_spec (log_name file i) n) as [X|_]; [destruct (H i X)|apply E]. Qed.
Lemma emptied_create file k f g n : (forall i, log_name file i <> n) -> emptied file k f g -> emptied file k f (create n g).
Proof. intros H E i. rewrite contents_create. destruct (String.eqb_spec (log_name file i) n) as [X|_]; [destruct (H i X)|apply E]. Qed.
Lemma emptied_log file j k f g : j <= k <= S j -> emptied file k f g -> emptied file (S j) f (create (log_name file j) g).
Proof.
  intros H E i. rewrite contents_create. destruct (String.eqb_spec (log_name file i) (log_name file j)) as [X|X].
  - apply log_name_inj in X. subst j. destruct (Nat.ltb_spec i (S i)); [reflexivity|lia].
  - rewrite E. assert (i <> j) by (intros ->; auto). destruct (Nat.ltb_spec i k), (Nat.ltb_spec i (S j)); try reflexivity; lia.
Qed.
End E.
Ltac notlog s := let i := fresh in intros i; exact (log_name_not _ i s _ eq_refl eq_refl).

Section W.
Context (N : NumOps).
Notation T := (num N).
Implicit Types (s : state N) (a : args T) (f : fs T) (conf c : config T).
Ltac oks E := repeat (apply bind_ok in E; let x := fresh "x" in let H := fresh "H" in destruct E as (x & H & E);
   repeat match type of x with (_ * _)%type => destruct x as [x ?] end).

Lemma new_logged_fs conf n d f sc f' : new_logged N conf n d f = Ok (sc, f') -> c_log conf = true -> f' = create (log_name (c_file conf) n) f.
Proof. unfold new_logged. intros E L. oks E. rewrite L in E. congruence. Qed.

(** a fold that creates log 0 in each round *)
Lemma fold_log0 {A} (step : nat -> (A * fs T) -> res (A * fs T)) file f : (forall i l g l' g', step i (l, g) = Ok (l', g') -> g' = create (log_name file 0) g) ->
  forall n k l g l' g', foldM step (seq k n) (l, g) = Ok (l', g') -> (exists j, j <= 1 /\ emptied file j f g) -> (exists j, j <= 1 /\ (1 <= n -> j = 1) /\ emptied file j f g').
Proof.
  intros H. induction n as [|n IH]; intros k l g l' g' E (j & Hj & Em); cbn [seq foldM] in E.
  - apply Ok_inj in E. injection E as <- <-. exists j. split; [exact Hj|]. split; [lia|exact Em].
  - apply bind_ok in E. destruct E as ([l1 g1] & E1 & E). apply H in E1. subst g1.
    assert (E1 : emptied file 1 f (create (log_name file 0) g)) by (apply (emptied_log file 0 j); [lia|exact Em]).
    destruct n as [|n]; [cbn in E; apply Ok_inj in E; injection E as <- <-; exists 1; auto|].
    apply IH in E; [|exists 1; auto]. destruct E as (j' & X & B & C). exists j'. split; [exact X|]. split; [intros _; apply B; lia|exact C].
Qed.
(** a fold that creates log i in round i *)
Lemma fold_logs {A} (step : nat -> (A * fs T) -> res (A * fs T)) file f : (forall i l g l' g', step i (l, g) = Ok (l', g') -> g' = create (log_name file i) g) ->
  forall n k l g l' g', foldM step (seq k n) (l, g) = Ok (l', g') -> emptied file k f g -> emptied file (k + n) f g'.
Proof.
  intros H. induction n as [|n IH]; intros k l g l' g' E Em; cbn [seq foldM] in E.
  - apply Ok_inj in E. injection E as <- <-. rewrite Nat.add_0_r. exact Em.
  - apply bind_ok in E. destruct E as ([l1 g1] & E1 & E). apply H in E1. subst g1. apply IH in E; [rewrite <- Nat.add_succ_comm; exact E|].
    apply (emptied_log file k k); [lia|exact Em].
Qed.

Lemma mapM_len {A B} (g : A -> res B) l : forall r, mapM g l = Ok r -> length r = length l.
Proof. induction l as [|x l IH]; intros r E; cbn in E; [apply Ok_inj in E; subst; reflexivity|]. oks E. apply Ok_inj in E. subst r. cbn. f_equal. apply IH. assumption. Qed.
Lemma mc_split_len th p l : mc_split th p = Ok l -> length l = Z.to_nat (Z.min th p).
Proof.
  unfold mc_split, mc_threads. intros E. destruct (_ =? 0)%Z in E; [discriminate|]. apply mapM_len in E. rewrite E. unfold range. rewrite seq_length.
  destruct (Z.leb_spec p th); lia.
Qed.
Lemma mc_frame_empties {A} (worker : draws N -> Z -> chain T -> res A) rg conf f g l g' : c_log conf = true -> mc_frame N worker rg conf g = Ok (l, g') ->
  emptied (c_file conf) 0 f g -> emptied (c_file conf) (Z.to_nat (Z.min (threads conf) (mc_points conf))) f g'.
Proof.
  intros L E Em. unfold mc_frame in E. apply bind_ok in E. destruct E as (ps & E1 & E). apply mc_split_len in E1. rewrite <- E1.
  unfold range in E. rewrite Nat.sub_0_r in E. eapply (fold_logs _ (c_file conf) f) in E; [exact E| |exact Em].
  intros i l0 g0 l' g2 Es. cbn beta iota in Es. oks Es. apply Ok_inj in Es. injection Es as <- <-. eapply new_logged_fs; eassumption.
Qed.
Lemma pool_pos th u : pool_new th = Ok u -> (th <> 0)%Z.
Proof. unfold pool_new. destruct (Z.eqb_spec th 0); [discriminate|auto]. Qed.

Definition wipes_run (mk : config T -> fs T -> res (config T * fs T)) (k : config T -> nat) : Prop :=
  forall conf f conf' f', mk conf f = Ok (conf', f') -> c_log conf = true -> (0 <= threads conf)%Z -> apart (c_file conf) -> emptied (c_file conf) (k conf) f f'.
Lemma mc_with_wipes upd rg : wipes_run (run_mc_with N upd rg) (fun c => Z.to_nat (Z.min (threads c) (mc_points c))).
Proof.
  intros conf f conf' f' E L Th Ap. unfold run_mc_with in E. apply bind_ok in E. destruct E as ([l g] & E & E'). apply Ok_inj in E'. injection E' as <- <-.
  apply emptied_append; [notlog "mc_live"%string|]. eapply mc_frame_empties; try eassumption. apply emptied_append; [notlog "mc_live"%string|apply emptied_refl].
Qed.
Lemma run_mc_wipes rg : wipes_run (run_mc N rg) (fun c => Z.to_nat (Z.min (threads c) (mc_points c))).
Proof. exact (mc_with_wipes _ rg). Qed.
Lemma run_mcf_wipes rg : wipes_run (run_mc_magnus N rg) (fun c => Z.to_nat (Z.min (threads c) (mc_points c))).
Proof. exact (mc_with_wipes _ rg). Qed.
Lemma mc_profile_wipes rg : wipes_run (run_mc_profile N rg) (fun c => Z.to_nat (Z.min (threads c) (mc_points c))).
Proof.
  intros conf f conf' f' E L Th Ap. unfold run_mc_profile in E. apply bind_ok in E. destruct E as ([l g] & E & E'). apply bind_ok in E'. destruct E' as (ls & _ & E'). apply Ok_inj in E'. injection E' as <- <-.
  apply emptied_append; [notlog "mc_profile"%string|]. eapply mc_frame_empties; try eassumption. apply emptied_create; [notlog "mc_profile"%string|apply emptied_refl].
Qed.
Lemma dynhist_wipes samples rg : wipes_run (gen_hist_dynamics N samples rg) (fun _ => 1).
Proof.
  intros conf f conf' f' E L Th Ap. unfold gen_hist_dynamics in E. apply bind_ok in E. destruct E as (u & Ep & E). apply bind_ok in E. destruct E as ([l g] & E & E'). apply Ok_inj in E'. injection E' as <- <-.
  assert (NL : forall i, log_name (c_file conf) i <> ("dyn-hist-t-" ++ r_fmt N rg (c_t conf) ++ ".dat")%string) by (intros i; apply Ap).
  apply emptied_append; [exact NL|]. unfold range in E. rewrite Nat.sub_0_r in E.
  eapply (fold_log0 _ (c_file conf) f) in E; [destruct E as (j & _ & X & Em)| |exists 0; split; [lia|apply emptied_append; [exact NL|apply emptied_refl]]].
  - rewrite <- X; [exact Em|]. apply pool_pos in Ep. unfold mc_threads in Ep. destruct (Z.leb_spec (Z.of_nat samples) (threads conf)); [lia|].
    lia.
  - intros i l0 g0 l' g2 Es. cbn beta iota in Es. oks Es. apply Ok_inj in Es. injection Es as <- <-. eapply new_logged_fs; eassumption.
Qed.
Lemma traj_wipes fuel samples rg : wipes_run (gen_single_traj N fuel samples rg) (fun _ => 1).
Proof.
  intros conf f conf' f' E L Th Ap. unfold gen_single_traj in E. cbv zeta in E. apply bind_ok in E. destruct E as ([sc g] & E1 & E). apply bind_ok in E. destruct E as (sc1 & _ & E).
  apply bind_ok in E. destruct E as ([sc2 ls] & _ & E). apply Ok_inj in E. injection E as <- <-. apply new_logged_fs in E1; [|exact L]. subst g.
  assert (NL : forall i, log_name (c_file conf) i <> ("hist-st-t-" ++ r_fmt N rg (c_t conf) ++ ".dat")%string) by (intros i; apply Ap).
  apply emptied_append; [exact NL|]. apply (emptied_log _ 0 0); [lia|]. apply emptied_append; [exact NL|apply emptied_refl].
Qed.
Lemma touch_empties conf f g j : c_log conf = true -> j <= 1 -> emptied (c_file conf) j f g -> emptied (c_file conf) 1 f (touch0 N conf g).
Proof. intros L Hj E. unfold touch0. rewrite L. apply (emptied_log _ 0 j); [lia|exact E]. Qed.

(** Early modes *)
Definition wiped1 (s s' : state N) : Prop := s_default N s' = false /\ emptied (c_file (s_conf N s)) 1 (s_fs N s) (s_fs N s').
Ltac okc E := match type of E with Ok _ = Ok _ => apply Ok_inj in E; subst end.
Lemma adiab2_wipes fuel w x s s' : do_adiab2 N fuel w x s = Ok s' -> c_log (s_conf N s) = true -> wiped1 s s'.
Proof.
  intros E L. unfold do_adiab2 in E. cbv zeta in E. apply bind_ok in E. destruct E as ([r c] & _ & E). apply Ok_inj in E. subst s'.
  split; [reflexivity|]. cbn [s_fs leave snd]. apply emptied_append; [notlog "beta"%string|]. 
  match goal with |- emptied _ _ _ (touch0 N ?c ?g) => apply (touch_empties c _ g 0); [exact L|lia|apply emptied_refl] end.
Qed.
Lemma fit_wipes md name st w fd ob mid te ce s s' : fit_and_observe N md name w fd ob mid te ce s = Ok s' -> name = (st ++ ".dat")%string ->
  (exists ch : Ascii.ascii, last_char st = Some ch /\ digit ch = false) ->
  c_log ce = true -> c_file ce = c_file (s_conf N s) -> wiped1 s s'.
Proof.
  intros E -> (ch & H1 & H2) L F. unfold fit_and_observe in E. apply bind_ok in E. destruct E as ([b c1] & _ & E).
  apply bind_ok in E. destruct E as ([[[[r0 r1] r2] r3] c2] & _ & E). apply Ok_inj in E. subst s'. split; [reflexivity|]. cbn [s_fs leave snd]. rewrite <- F.
  apply emptied_append; [intros i; exact (log_name_not _ i st ch H1 H2)|]. apply (touch_empties ce _ _ 0); [exact L|lia|apply emptied_refl].
Qed.
Lemma rot_wipes fuel w x s s' : do_rot N fuel w x s = Ok s' -> c_log (s_conf N s) = true -> wiped1 s s'.
Proof.
  unfold do_rot. cbv zeta. intros E L. eapply (fit_wipes _ _ "betat-rot"%string); [exact E|reflexivity|eexists; split; reflexivity|exact L|reflexivity].
Qed.
Lemma maglab_wipes fuel w x s s' : do_maglab N fuel w x s = Ok s' -> c_log (s_conf N s) = true -> wiped1 s s'.
Proof.
  unfold do_maglab. cbv zeta. intros E L. eapply (fit_wipes _ _ "betat-maglab"%string); [exact E|reflexivity|eexists; split; reflexivity|exact L|reflexivity].
Qed.
Lemma do_fit_wipes fuel w x s s' : do_fit N fuel w x s = Ok s' -> c_log (s_conf N s) = true -> wiped1 s s'.
Proof.
  unfold do_fit. cbv zeta. intros E L. eapply (fit_wipes _ _ "betat"%string); [exact E|reflexivity|eexists; split; reflexivity|exact L|reflexivity].
Qed.
Lemma fiteff_wipes fuel w x s s' : do_fiteff N fuel w x s = Ok s' -> c_log (s_conf N s) = true -> wiped1 s s'.
Proof.
  unfold do_fiteff. cbv zeta. intros E L. eapply (fit_wipes _ _ "betat"%string); [exact E|reflexivity|eexists; split; reflexivity|exact L|reflexivity].
Qed.
Lemma high_wipes w x s s' : do_high N w x s = Ok s' -> c_log (s_conf N s) = true -> wiped1 s s'.
Proof.
  intros E L. unfold do_high in E. cbv zeta in E. apply bind_ok in E. destruct E as ([[[[r0 r1] r2] r3] c2] & _ & E). apply Ok_inj in E. subst s'.
  split; [reflexivity|]. cbn [s_fs leave snd]. apply emptied_append; [notlog "betat"%string|].
  match goal with |- emptied _ _ _ (touch0 N ?c ?g) => apply (touch_empties c _ g 0); [exact L|lia|apply emptied_refl] end.
Qed.
Lemma adiabatic_wipes fuel w x s s' : do_adiabatic N fuel w x s = Ok s' -> c_log (s_conf N s) = true -> wiped1 s s'.
Proof.
  intros E L. unfold do_adiabatic in E. cbv zeta in E. apply bind_ok in E. destruct E as ([me f1] & E1 & E). apply bind_ok in E. destruct E as ([r c1] & _ & E).
  apply bind_ok in E. destruct E as ([[[[r0 r1] r2] r3] c2] & _ & E). apply Ok_inj in E. subst s'. split; [reflexivity|]. cbn [s_fs leave snd].
  apply emptied_append; [notlog "beta"%string|]. unfold trajectory_mean_e in E1. apply bind_ok in E1. destruct E1 as (u & _ & E1). apply bind_ok in E1. destruct E1 as ([l g] & E1 & E2).
  apply Ok_inj in E2. injection E2 as <- <-. unfold range in E1.
  eapply (fold_log0 _ (c_file (s_conf N s)) (s_fs N s)) in E1; [destruct E1 as (j & Hj & _ & Em)| |exists 0; split; [lia|apply emptied_refl]].
  - match goal with |- emptied _ _ _ (touch0 N ?c ?g) => apply (touch_empties c _ g j); [exact L|exact Hj|exact Em] end.
  - intros i l0 g0 l' g2 Es. cbn beta iota in Es. oks Es. apply Ok_inj in Es. injection Es as <- <-.
    match goal with H : new_logged _ _ _ _ _ = _ |- _ => apply new_logged_fs in H; [exact H|exact L] end.
Qed.

Lemma early1 fuel w a f st (k : state N -> res (state N)) conf f0 :
  (main N fuel w a f = let* '(conf, f0) := read_config N f in
      let* s := (let* s := k (mkSt N (with_tau N a conf) f0 true []) in Ok s) in
      let* s := settle_beta N fuel a s in if s_default N s then do_run N Mdefault (run_sim N fuel (w_rng N w Mdefault)) s else Ok s) ->
  main N fuel w a f = Ok st -> read_config N f = Ok (conf, f0) ->
  (forall s', k (mkSt N (with_tau N a conf) f0 true []) = Ok s' -> wiped1 (mkSt N (with_tau N a conf) f0 true []) s') ->
  emptied (c_file conf) 1 f (s_fs N st).
Proof.
  intros H E Rd K. rewrite H, Rd in E. cbn [bind] in E. apply bind_ok in E. destruct E as (s1 & E1 & E). apply bind_ok in E1. destruct E1 as (s1' & E1 & E'). apply Ok_inj in E'. subst s1'.
  apply K in E1. destruct E1 as [D Em]. apply bind_ok in E. destruct E as (s2 & E2 & E). apply settle_ok in E2. destruct E2 as (b & _ & ->). cbn [s_default] in E. rewrite D in E.
  apply Ok_inj in E. subst st. cbn [s_fs s_conf] in *. destruct (read_in_range _ _ _ _ Rd) as [_ Df].
  intros i. specialize (Em i). unfold contents in *. rewrite <- Df. unfold with_tau in Em. destruct (a_tau a); exact Em.
Qed.
Lemma late1 md (mk : args T -> nat -> world N -> config T -> fs T -> res (config T * fs T)) k fuel w a f st conf f0 :
  (main N fuel w a f = let* '(conf, f0) := read_config N f in
      let* s := settle_beta N fuel a (mkSt N (with_tau N a conf) f0 true []) in
      do_run N md (mk a fuel w) (mkSt N (s_conf N s) (s_fs N s) (s_default N s) (s_trace N s))) ->
  main N fuel w a f = Ok st -> read_config N f = Ok (conf, f0) -> wipes_run (mk a fuel w) k -> (forall b, k (set_beta (with_tau N a conf) b) = k conf) ->
  c_log conf = true -> apart (c_file conf) -> emptied (c_file conf) (k conf) f (s_fs N st).
Proof.
  intros H E Rd K Kc L Ap. destruct (main_after1 N md mk (fun c => c) fuel w a f st H E) as (c & g & b & Rd' & _ & M & _).
  rewrite Rd in Rd'. injection Rd' as <- <-. destruct (read_in_range _ _ _ _ Rd) as [Rg Df].
  assert (X : c_log (set_beta (with_tau N a conf) b) = c_log conf /\ c_file (set_beta (with_tau N a conf) b) = c_file conf /\ threads (set_beta (with_tau N a conf) b) = threads conf)
    by (unfold with_tau; destruct (a_tau a); auto). destruct X as (X1 & X2 & X3).
  unfold in_range in Rg.
  assert (M' := K _ _ _ _ M ltac:(rewrite X1; exact L) ltac:(rewrite X3; lia) ltac:(rewrite X2; exact Ap)). clear M. rename M' into M.
  intros i. specialize (M i). rewrite X2, Kc in M. unfold contents in *. rewrite <- Df. exact M.
Qed.

Ltac sel := let H := fresh "H" in unfold selected; rewrite !in_app_iff; intros H;
  repeat (destruct H as [H|H]); first [apply in_on in H | apply in_onb in H]; let A := fresh in let B := fresh in destruct H as [A B]; (discriminate A || exact B).
Lemma sel_adiab2 a : In Madiab2 (selected a) -> exists x, a_adiab2 a = Some x. Proof. sel. Qed.
Lemma sel_rot a : In Mrot (selected a) -> exists x, a_rot a = Some x. Proof. sel. Qed.
Lemma sel_maglab a : In Mmaglab (selected a) -> exists x, a_maglab a = Some x. Proof. sel. Qed.
Lemma sel_fit a : In Mfit (selected a) -> exists x, a_fit a = Some x. Proof. sel. Qed.
Lemma sel_fiteff a : In Mfiteff (selected a) -> exists x, a_fit_effective a = Some x. Proof. sel. Qed.
Lemma sel_high a : In Mhigh (selected a) -> exists x, a_high_freq a = Some x. Proof. sel. Qed.
Lemma sel_adiabatic a : In Madiabatic (selected a) -> exists x, a_adiabatic a = Some x. Proof. sel. Qed.
Lemma sel_dynhist a : In Mdynhist (selected a) -> exists x, a_dynhist a = Some x. Proof. sel. Qed.
Lemma sel_traj a : In Mtraj (selected a) -> exists x, a_singletraj a = Some x. Proof. sel. Qed.
Lemma sel_mc a : In Mmc (selected a) -> a_mc a = true. Proof. sel. Qed.
Lemma sel_mcp a : In Mmcprofile (selected a) -> a_mc_profile a = true. Proof. sel. Qed.
Lemma sel_mcf a : In Mmcfull (selected a) -> a_mc_full a = true. Proof. sel. Qed.

Ltac offs H :=
  unfold main, main_before, main_after;
  try rewrite (off_desc N _ (fun h => ltac:(discriminate (H _ h)))); try rewrite (off_ext N _ (fun h => ltac:(discriminate (H _ h))));
  try rewrite (off_tau N _ (fun h => ltac:(discriminate (H _ h)))); try rewrite (off_adiab2 N _ (fun h => ltac:(discriminate (H _ h))));
  try rewrite (off_rot N _ (fun h => ltac:(discriminate (H _ h)))); try rewrite (off_maglab N _ (fun h => ltac:(discriminate (H _ h))));
  try rewrite (off_fit N _ (fun h => ltac:(discriminate (H _ h)))); try rewrite (off_fiteff N _ (fun h => ltac:(discriminate (H _ h))));
  try rewrite (off_high N _ (fun h => ltac:(discriminate (H _ h)))); try rewrite (off_adiabatic N _ (fun h => ltac:(discriminate (H _ h))));
  try rewrite (off_hist N _ (fun h => ltac:(discriminate (H _ h)))); try rewrite (off_dynhist N _ (fun h => ltac:(discriminate (H _ h))));
  try rewrite (off_magnus N _ (fun h => ltac:(discriminate (H _ h)))); try rewrite (off_traj N _ (fun h => ltac:(discriminate (H _ h))));
  try rewrite (off_avg N _ (fun h => ltac:(discriminate (H _ h)))); try rewrite (off_two N _ (fun h => ltac:(discriminate (H _ h))));
  try rewrite (off_mc N _ (fun h => ltac:(discriminate (H _ h)))); try rewrite (off_mcp N _ (fun h => ltac:(discriminate (H _ h))));
  try rewrite (off_dynp N _ (fun h => ltac:(discriminate (H _ h)))); try rewrite (off_mcf N _ (fun h => ltac:(discriminate (H _ h))));
  try rewrite (off_lang N _ (fun h => ltac:(discriminate (H _ h)))); try rewrite (off_resp N _ (fun h => ltac:(discriminate (H _ h))));
  cbn [flag when bind].
Ltac early_eq a := unfold with_tau; destruct (read_config N _) as [[conf1 f1]| |]; [|reflexivity|reflexivity]; cbn [bind];
  match goal with |- context [mkSt N ?c ?g true []] => set (s0 := mkSt N c g true []) end;
  match goal with |- bind ?x _ = _ => destruct x as [s1| |]; reflexivity end.
Ltac after1 := unfold with_tau; destruct (read_config N _) as [[conf1 f1]| |]; [|reflexivity|reflexivity]; cbn [bind];
  destruct (settle_beta N _ _ _) as [s1| |]; [|reflexivity|reflexivity]; cbn [bind s_conf s_fs s_default s_trace];
  destruct s1; unfold do_run; cbn [s_conf s_fs s_default s_trace];
  match goal with |- context [bind ?x _] => destruct x; reflexivity end.

Lemma wipe_Madiab2 fuel w a f st conf f0 (Rd : read_config N f = Ok (conf, f0)) (E : main N fuel w a f = Ok st) (L : c_log conf = true) (Ap : apart (c_file conf)) : only N Madiab2 a -> In Madiab2 (selected a) -> c_log (with_tau N a conf) = true ->
  (forall b c, c = set_beta (with_tau N a conf) b -> Z.to_nat (Z.min (threads c) (mc_points c)) = Z.to_nat (Z.min (threads conf) (mc_points conf))) ->
  emptied (c_file conf) 1 f (s_fs N st).
Proof.
  intros H I LT KT.
  destruct (sel_adiab2 a I) as [x Hx]. eapply (early1 fuel w a f st (do_adiab2 N fuel w x)); [|exact E|exact Rd|intros s'; intros Es; exact (adiab2_wipes _ _ _ _ _ Es LT)].
    (offs H; rewrite Hx; cbn [when bind]; early_eq a).
Qed.
Lemma wipe_Mrot fuel w a f st conf f0 (Rd : read_config N f = Ok (conf, f0)) (E : main N fuel w a f = Ok st) (L : c_log conf = true) (Ap : apart (c_file conf)) : only N Mrot a -> In Mrot (selected a) -> c_log (with_tau N a conf) = true ->
  (forall b c, c = set_beta (with_tau N a conf) b -> Z.to_nat (Z.min (threads c) (mc_points c)) = Z.to_nat (Z.min (threads conf) (mc_points conf))) ->
  emptied (c_file conf) 1 f (s_fs N st).
Proof.
  intros H I LT KT.
  destruct (sel_rot a I) as [x Hx]. eapply (early1 fuel w a f st (do_rot N fuel w x)); [|exact E|exact Rd|intros s' Es; exact (rot_wipes _ _ _ _ _ Es LT)].
    (offs H; rewrite Hx; cbn [when bind]; early_eq a).
Qed.
Lemma wipe_Mmaglab fuel w a f st conf f0 (Rd : read_config N f = Ok (conf, f0)) (E : main N fuel w a f = Ok st) (L : c_log conf = true) (Ap : apart (c_file conf)) : only N Mmaglab a -> In Mmaglab (selected a) -> c_log (with_tau N a conf) = true ->
  (forall b c, c = set_beta (with_tau N a conf) b -> Z.to_nat (Z.min (threads c) (mc_points c)) = Z.to_nat (Z.min (threads conf) (mc_points conf))) ->
  emptied (c_file conf) 1 f (s_fs N st).
Proof.
  intros H I LT KT.
  destruct (sel_maglab a I) as [x Hx]. eapply (early1 fuel w a f st (do_maglab N fuel w x)); [|exact E|exact Rd|intros s' Es; exact (maglab_wipes _ _ _ _ _ Es LT)].
    (offs H; rewrite Hx; cbn [when bind]; early_eq a).
Qed.
Lemma wipe_Mfit fuel w a f st conf f0 (Rd : read_config N f = Ok (conf, f0)) (E : main N fuel w a f = Ok st) (L : c_log conf = true) (Ap : apart (c_file conf)) : only N Mfit a -> In Mfit (selected a) -> c_log (with_tau N a conf) = true ->
  (forall b c, c = set_beta (with_tau N a conf) b -> Z.to_nat (Z.min (threads c) (mc_points c)) = Z.to_nat (Z.min (threads conf) (mc_points conf))) ->
  emptied (c_file conf) 1 f (s_fs N st).
Proof.
  intros H I LT KT.
  destruct (sel_fit a I) as [x Hx]. eapply (early1 fuel w a f st (do_fit N fuel w x)); [|exact E|exact Rd|intros s' Es; exact (do_fit_wipes _ _ _ _ _ Es LT)].
    (offs H; rewrite Hx; cbn [when bind]; early_eq a).
Qed.
Lemma wipe_Mfiteff fuel w a f st conf f0 (Rd : read_config N f = Ok (conf, f0)) (E : main N fuel w a f = Ok st) (L : c_log conf = true) (Ap : apart (c_file conf)) : only N Mfiteff a -> In Mfiteff (selected a) -> c_log (with_tau N a conf) = true ->
  (forall b c, c = set_beta (with_tau N a conf) b -> Z.to_nat (Z.min (threads c) (mc_points c)) = Z.to_nat (Z.min (threads conf) (mc_points conf))) ->
  emptied (c_file conf) 1 f (s_fs N st).
Proof.
  intros H I LT KT.
  destruct (sel_fiteff a I) as [x Hx]. eapply (early1 fuel w a f st (do_fiteff N fuel w x)); [|exact E|exact Rd|intros s' Es; exact (fiteff_wipes _ _ _ _ _ Es LT)].
    (offs H; rewrite Hx; cbn [when bind]; early_eq a).
Qed.
Lemma wipe_Mhigh fuel w a f st conf f0 (Rd : read_config N f = Ok (conf, f0)) (E : main N fuel w a f = Ok st) (L : c_log conf = true) (Ap : apart (c_file conf)) : only N Mhigh a -> In Mhigh (selected a) -> c_log (with_tau N a conf) = true ->
  (forall b c, c = set_beta (with_tau N a conf) b -> Z.to_nat (Z.min (threads c) (mc_points c)) = Z.to_nat (Z.min (threads conf) (mc_points conf))) ->
  emptied (c_file conf) 1 f (s_fs N st).
Proof.
  intros H I LT KT.
  destruct (sel_high a I) as [x Hx]. eapply (early1 fuel w a f st (do_high N w x)); [|exact E|exact Rd|intros s' Es; exact (high_wipes _ _ _ _ Es LT)].
    (offs H; rewrite Hx; cbn [when bind]; early_eq a).
Qed.
Lemma wipe_Madiabatic fuel w a f st conf f0 (Rd : read_config N f = Ok (conf, f0)) (E : main N fuel w a f = Ok st) (L : c_log conf = true) (Ap : apart (c_file conf)) : only N Madiabatic a -> In Madiabatic (selected a) -> c_log (with_tau N a conf) = true ->
  (forall b c, c = set_beta (with_tau N a conf) b -> Z.to_nat (Z.min (threads c) (mc_points c)) = Z.to_nat (Z.min (threads conf) (mc_points conf))) ->
  emptied (c_file conf) 1 f (s_fs N st).
Proof.
  intros H I LT KT.
  destruct (sel_adiabatic a I) as [x Hx]. eapply (early1 fuel w a f st (do_adiabatic N fuel w x)); [|exact E|exact Rd|intros s' Es; exact (adiabatic_wipes _ _ _ _ _ Es LT)].
    (offs H; rewrite Hx; cbn [when bind]; early_eq a).
Qed.
Lemma wipe_Mdynhist fuel w a f st conf f0 (Rd : read_config N f = Ok (conf, f0)) (E : main N fuel w a f = Ok st) (L : c_log conf = true) (Ap : apart (c_file conf)) : only N Mdynhist a -> In Mdynhist (selected a) -> c_log (with_tau N a conf) = true ->
  (forall b c, c = set_beta (with_tau N a conf) b -> Z.to_nat (Z.min (threads c) (mc_points c)) = Z.to_nat (Z.min (threads conf) (mc_points conf))) ->
  emptied (c_file conf) 1 f (s_fs N st).
Proof.
  intros H I LT KT.
  destruct (sel_dynhist a I) as [x Hx]. eapply (late1 Mdynhist (fun a fuel w => gen_hist_dynamics N (points 1000 x) (w_rng N w Mdynhist)) (fun _ => 1) fuel w a f st conf f0); [|exact E|exact Rd|apply dynhist_wipes|reflexivity|exact L|exact Ap].
    (offs H; rewrite Hx; cbn [flag when bind]; after1).
Qed.
Lemma wipe_Mtraj fuel w a f st conf f0 (Rd : read_config N f = Ok (conf, f0)) (E : main N fuel w a f = Ok st) (L : c_log conf = true) (Ap : apart (c_file conf)) : only N Mtraj a -> In Mtraj (selected a) -> c_log (with_tau N a conf) = true ->
  (forall b c, c = set_beta (with_tau N a conf) b -> Z.to_nat (Z.min (threads c) (mc_points c)) = Z.to_nat (Z.min (threads conf) (mc_points conf))) ->
  emptied (c_file conf) 1 f (s_fs N st).
Proof.
  intros H I LT KT.
  destruct (sel_traj a I) as [x Hx]. eapply (late1 Mtraj (fun a fuel w => gen_single_traj N fuel (points 1000 x) (w_rng N w Mtraj)) (fun _ => 1) fuel w a f st conf f0); [|exact E|exact Rd|apply traj_wipes|reflexivity|exact L|exact Ap].
    (offs H; rewrite Hx; cbn [flag when bind]; after1).
Qed.
Lemma wipe_Mmc fuel w a f st conf f0 (Rd : read_config N f = Ok (conf, f0)) (E : main N fuel w a f = Ok st) (L : c_log conf = true) (Ap : apart (c_file conf)) : only N Mmc a -> In Mmc (selected a) -> c_log (with_tau N a conf) = true ->
  (forall b c, c = set_beta (with_tau N a conf) b -> Z.to_nat (Z.min (threads c) (mc_points c)) = Z.to_nat (Z.min (threads conf) (mc_points conf))) ->
  emptied (c_file conf) (Z.to_nat (Z.min (threads conf) (mc_points conf))) f (s_fs N st).
Proof.
  intros H I LT KT.
  eapply (late1 Mmc (fun a fuel w => run_mc N (w_rng N w Mmc)) (fun c => Z.to_nat (Z.min (threads c) (mc_points c))) fuel w a f st conf f0); [|exact E|exact Rd|apply run_mc_wipes|intros b; exact (KT b _ eq_refl)|exact L|exact Ap].
    (offs H; rewrite (sel_mc a I); cbn [flag when bind]; after1).
Qed.
Lemma wipe_Mmcprofile fuel w a f st conf f0 (Rd : read_config N f = Ok (conf, f0)) (E : main N fuel w a f = Ok st) (L : c_log conf = true) (Ap : apart (c_file conf)) : only N Mmcprofile a -> In Mmcprofile (selected a) -> c_log (with_tau N a conf) = true ->
  (forall b c, c = set_beta (with_tau N a conf) b -> Z.to_nat (Z.min (threads c) (mc_points c)) = Z.to_nat (Z.min (threads conf) (mc_points conf))) ->
  emptied (c_file conf) (Z.to_nat (Z.min (threads conf) (mc_points conf))) f (s_fs N st).
Proof.
  intros H I LT KT.
  eapply (late1 Mmcprofile (fun a fuel w => run_mc_profile N (w_rng N w Mmcprofile)) (fun c => Z.to_nat (Z.min (threads c) (mc_points c))) fuel w a f st conf f0); [|exact E|exact Rd|apply mc_profile_wipes|intros b; exact (KT b _ eq_refl)|exact L|exact Ap].
    (offs H; rewrite (sel_mcp a I); cbn [flag when bind]; after1).
Qed.
Lemma wipe_Mmcfull fuel w a f st conf f0 (Rd : read_config N f = Ok (conf, f0)) (E : main N fuel w a f = Ok st) (L : c_log conf = true) (Ap : apart (c_file conf)) : only N Mmcfull a -> In Mmcfull (selected a) -> c_log (with_tau N a conf) = true ->
  (forall b c, c = set_beta (with_tau N a conf) b -> Z.to_nat (Z.min (threads c) (mc_points c)) = Z.to_nat (Z.min (threads conf) (mc_points conf))) ->
  emptied (c_file conf) (Z.to_nat (Z.min (threads conf) (mc_points conf))) f (s_fs N st).
Proof.
  intros H I LT KT.
  eapply (late1 Mmcfull (fun a fuel w => run_mc_magnus N (w_rng N w Mmcfull)) (fun c => Z.to_nat (Z.min (threads c) (mc_points c))) fuel w a f st conf f0); [|exact E|exact Rd|apply run_mcf_wipes|intros b; exact (KT b _ eq_refl)|exact L|exact Ap].
    (offs H; rewrite (sel_mcf a I); cbn [flag when bind]; after1).
Qed.
Theorem wipe fuel w a f st conf f0 m k : selected a = [m] -> wiped conf m = Some k -> read_config N f = Ok (conf, f0) -> main N fuel w a f = Ok st ->
  c_log conf = true -> apart (c_file conf) ->
  forall i, contents (s_fs N st) (log_name (c_file conf) i) = if i <? k then Some [] else contents f (log_name (c_file conf) i).
Proof.
  intros Sl Wk Rd E L Ap. change (emptied (c_file conf) k f (s_fs N st)).
  assert (H : only N m a) by (intros m'; rewrite Sl; intros [<-|[]]; reflexivity).
  assert (I : In m (selected a)) by (rewrite Sl; left; reflexivity).
  assert (LT : c_log (with_tau N a conf) = true) by (unfold with_tau; destruct (a_tau a); exact L).
  assert (KT : forall b c, c = set_beta (with_tau N a conf) b -> Z.to_nat (Z.min (threads c) (mc_points c)) = Z.to_nat (Z.min (threads conf) (mc_points conf)))
    by (intros b c ->; unfold with_tau; destruct (a_tau a); reflexivity).
  destruct m; try discriminate Wk; cbn in Wk; injection Wk as <-.
  - eapply wipe_Madiab2; eassumption.
  - eapply wipe_Mrot; eassumption.
  - eapply wipe_Mmaglab; eassumption.
  - eapply wipe_Mfit; eassumption.
  - eapply wipe_Mfiteff; eassumption.
  - eapply wipe_Mhigh; eassumption.
  - eapply wipe_Madiabatic; eassumption.
  - eapply wipe_Mdynhist; eassumption.
  - eapply wipe_Mtraj; eassumption.
  - eapply wipe_Mmc; eassumption.
  - eapply wipe_Mmcprofile; eassumption.
  - eapply wipe_Mmcfull; eassumption.
Qed.
End W.
