From Coq Require Import String ZArith List Lia Arith Bool.
From Verif Require Import Num Monad Spin Config Chain Langevin Fit Files Toml Writers Average Runs Main
  SpecRuns SpecToml SpecMain ProofsDir ProofsNames ProofsToml ProofsFrame ProofsMain.
Import ListNotations.
Local Open Scope list_scope.

Lemma Ok_inj {A} (a b : A) : Ok a = Ok b -> a = b.
Proof. congruence. Qed.
Section H.
Context (N : NumOps).
Notation T := (num N).
Implicit Types (s : state N) (a : args T) (f : fs T) (conf : config T).

Ltac offl := let H := fresh "H" in let E := fresh "E" in intros H;
  match goal with |- ?x = _ => destruct x eqn:E; [|reflexivity] end; exfalso; apply H; unfold selected; rewrite !in_app_iff, E; cbn; tauto.
Ltac offb := offl.
Lemma off_desc a : ~ In Mdesc (selected a) -> a_config_desc a = false. Proof. offb. Qed.
Lemma off_ext a : ~ In Mext (selected a) -> a_ext a = false. Proof. offb. Qed.
Lemma off_tau a : ~ In Mtau (selected a) -> a_n_steps_taus a = None. Proof. offl. Qed.
Lemma off_adiab2 a : ~ In Madiab2 (selected a) -> a_adiab2 a = None. Proof. offl. Qed.
Lemma off_rot a : ~ In Mrot (selected a) -> a_rot a = None. Proof. offl. Qed.
Lemma off_maglab a : ~ In Mmaglab (selected a) -> a_maglab a = None. Proof. offl. Qed.
Lemma off_fit a : ~ In Mfit (selected a) -> a_fit a = None. Proof. offl. Qed.
Lemma off_fiteff a : ~ In Mfiteff (selected a) -> a_fit_effective a = None. Proof. offl. Qed.
Lemma off_high a : ~ In Mhigh (selected a) -> a_high_freq a = None. Proof. offl. Qed.
Lemma off_adiabatic a : ~ In Madiabatic (selected a) -> a_adiabatic a = None. Proof. offl. Qed.
Lemma off_hist a : ~ In Mhist (selected a) -> a_hist a = None. Proof. offl. Qed.
Lemma off_dynhist a : ~ In Mdynhist (selected a) -> a_dynhist a = None. Proof. offl. Qed.
Lemma off_magnus a : ~ In Mmagnus (selected a) -> a_magnus_hist a = None. Proof. offl. Qed.
Lemma off_traj a : ~ In Mtraj (selected a) -> a_singletraj a = None. Proof. offl. Qed.
Lemma off_avg a : ~ In Mavg (selected a) -> a_avg a = false. Proof. offb. Qed.
Lemma off_two a : ~ In Mtwopoint (selected a) -> a_two_point a = false. Proof. offb. Qed.
Lemma off_mc a : ~ In Mmc (selected a) -> a_mc a = false. Proof. offb. Qed.
Lemma off_mcp a : ~ In Mmcprofile (selected a) -> a_mc_profile a = false. Proof. offb. Qed.
Lemma off_dynp a : ~ In Mdynprofile (selected a) -> a_dyn_profile a = false. Proof. offb. Qed.
Lemma off_mcf a : ~ In Mmcfull (selected a) -> a_mc_full a = false. Proof. offb. Qed.
Lemma off_lang a : ~ In Mlangevin (selected a) -> a_langevin a = None. Proof. offl. Qed.
Lemma off_resp a : ~ In Mresponse (selected a) -> a_response a = false. Proof. offb. Qed.

Lemma in_on {A} m m' (o : option A) : In m (on m' o) -> m = m' /\ exists x, o = Some x.
Proof. destruct o; cbn; [intros [<-|[]]; eauto|intros []]. Qed.
Lemma in_onb m m' b : In m (onb m' b) -> m = m' /\ b = true.
Proof. destruct b; cbn; [intros [<-|[]]; auto|intros []]. Qed.
Ltac sel := let H := fresh "H" in unfold selected; rewrite !in_app_iff; intros H;
  repeat (destruct H as [H|H]); first [apply in_on in H | apply in_onb in H]; let A := fresh in let B := fresh in destruct H as [A B]; (discriminate A || exact B).
Lemma sel_ext a : In Mext (selected a) -> a_ext a = true. Proof. sel. Qed.
Lemma sel_dynp a : In Mdynprofile (selected a) -> a_dyn_profile a = true. Proof. sel. Qed.
Lemma sel_lang a : In Mlangevin (selected a) -> exists x, a_langevin a = Some x. Proof. sel. Qed.
Lemma sel_resp a : In Mresponse (selected a) -> a_response a = true. Proof. sel. Qed.

(** Only the mode [m] is asked for *)
Definition only (m : mode) a : Prop := forall m', In m' (selected a) -> m' = m.
Ltac offs H :=
  unfold main, main_before, main_after;
  try rewrite (off_desc _ (fun h => ltac:(discriminate (H _ h)))); try rewrite (off_ext _ (fun h => ltac:(discriminate (H _ h))));
  try rewrite (off_tau _ (fun h => ltac:(discriminate (H _ h)))); try rewrite (off_adiab2 _ (fun h => ltac:(discriminate (H _ h))));
  try rewrite (off_rot _ (fun h => ltac:(discriminate (H _ h)))); try rewrite (off_maglab _ (fun h => ltac:(discriminate (H _ h))));
  try rewrite (off_fit _ (fun h => ltac:(discriminate (H _ h)))); try rewrite (off_fiteff _ (fun h => ltac:(discriminate (H _ h))));
  try rewrite (off_high _ (fun h => ltac:(discriminate (H _ h)))); try rewrite (off_adiabatic _ (fun h => ltac:(discriminate (H _ h))));
  try rewrite (off_hist _ (fun h => ltac:(discriminate (H _ h)))); try rewrite (off_dynhist _ (fun h => ltac:(discriminate (H _ h))));
  try rewrite (off_magnus _ (fun h => ltac:(discriminate (H _ h)))); try rewrite (off_traj _ (fun h => ltac:(discriminate (H _ h))));
  try rewrite (off_avg _ (fun h => ltac:(discriminate (H _ h)))); try rewrite (off_two _ (fun h => ltac:(discriminate (H _ h))));
  try rewrite (off_mc _ (fun h => ltac:(discriminate (H _ h)))); try rewrite (off_mcp _ (fun h => ltac:(discriminate (H _ h))));
  try rewrite (off_dynp _ (fun h => ltac:(discriminate (H _ h)))); try rewrite (off_mcf _ (fun h => ltac:(discriminate (H _ h))));
  try rewrite (off_lang _ (fun h => ltac:(discriminate (H _ h)))); try rewrite (off_resp _ (fun h => ltac:(discriminate (H _ h))));
  cbn [flag when bind].

Definition with_tau a conf : config T := match a_tau a with Some x => set_tau conf x | None => conf end.
(** the settled temperature *)
Definition settled fuel a conf b : Prop :=
  match a_beta a with Some b' => b = b' | None => solve_beta N fuel (ednsty conf) = Ok b end.

Lemma settle_ok fuel a s s' : settle_beta N fuel a s = Ok s' ->
  exists b, settled fuel a (s_conf N s) b /\ s' = mkSt N (set_beta (s_conf N s) b) (s_fs N s) (s_default N s) (s_trace N s).
Proof.
  unfold settle_beta, settled. intros E. apply bind_ok in E. destruct E as (b & E1 & E). injection E as <-. exists b. split; [|reflexivity].
  destruct (a_beta a); [congruence|exact E1].
Qed.

Lemma main_default fuel w a f st : selected a = [] -> main N fuel w a f = Ok st ->
  exists conf f0 b, read_config N f = Ok (conf, f0) /\ settled fuel a (with_tau a conf) b /\
    run_sim N fuel (w_rng N w Mdefault) (set_beta (with_tau a conf) b) f0 = Ok (s_conf N st, s_fs N st) /\
    s_trace N st = [(Mdefault, set_beta (with_tau a conf) b)].
Proof.
  intros S. assert (H : only Mdefault a) by (intros m; rewrite S; intros []).
  offs H. fold (with_tau a). intros E. apply bind_ok in E. destruct E as ([conf f0] & E0 & E).
  apply bind_ok in E. destruct E as (s1 & E1 & E). apply settle_ok in E1. destruct E1 as (b & Hb & ->).
  cbn [s_conf s_fs s_default s_trace] in *. unfold do_run in E. apply bind_ok in E. destruct E as ([c' f'] & E2 & E). apply Ok_inj in E. subst st. cbn [s_conf s_fs s_default s_trace leave fst snd].
  exists conf, f0, b. auto.
Qed.
Lemma main_ext fuel w a f st : selected a = [Mext] -> main N fuel w a f = Ok st ->
  exists conf f0 c', read_config N f = Ok (conf, f0) /\
    run_ext N fuel (w_rng N w Mext) (with_tau a conf) f0 = Ok (c', s_fs N st) /\
    s_trace N st = [(Mext, with_tau a conf)] /\ offset (s_conf N st) = offset conf.
Proof.
  intros S. assert (H : only Mext a) by (intros m; rewrite S; intros [<-|[]]; reflexivity).
  offs H. fold (with_tau a). intros E. apply bind_ok in E. destruct E as ([conf f0] & E0 & E).
  assert (X : a_ext a = true).
  { apply sel_ext. rewrite S. left. reflexivity. }
  rewrite X in E. cbn [flag when] in E.
  apply bind_ok in E. destruct E as (s1 & E1 & E). apply bind_ok in E1. destruct E1 as (s0 & E1 & E1'). apply Ok_inj in E1'. subst s0.
  unfold do_run in E1. apply bind_ok in E1. destruct E1 as ([c1 f1] & E2 & E1).
  apply bind_ok in E2. destruct E2 as ([c2 f2] & E2 & E3). injection E3 as <- <-. apply Ok_inj in E1. subst s1.
  apply bind_ok in E. destruct E as (s2 & E3 & E). apply settle_ok in E3. destruct E3 as (b & Hb & ->).
  cbn [s_conf s_fs s_default s_trace leave fst snd] in *. apply Ok_inj in E. subst st. cbn.
  exists conf, f0, c2. split; [exact E0|]. split; [exact E2|]. split; [reflexivity|]. unfold with_tau. destruct (a_tau a); reflexivity.
Qed.
Lemma main_after1 (md : mode) (mk : args T -> nat -> world N -> config T -> fs T -> res (config T * fs T)) (mid : config T -> config T) fuel w a f st :
  (main N fuel w a f = let* '(conf, f0) := read_config N f in
      let* s := settle_beta N fuel a (mkSt N (with_tau a conf) f0 true []) in
      do_run N md (mk a fuel w) (mkSt N (mid (s_conf N s)) (s_fs N s) (s_default N s) (s_trace N s))) ->
  main N fuel w a f = Ok st ->
  exists conf f0 b, read_config N f = Ok (conf, f0) /\ settled fuel a (with_tau a conf) b /\
    mk a fuel w (mid (set_beta (with_tau a conf) b)) f0 = Ok (s_conf N st, s_fs N st) /\
    s_trace N st = [(md, mid (set_beta (with_tau a conf) b))].
Proof.
  intros H E. rewrite H in E. clear H. apply bind_ok in E. destruct E as ([conf f0] & E0 & E).
  apply bind_ok in E. destruct E as (s1 & E1 & E). apply settle_ok in E1. destruct E1 as (b & Hb & ->).
  cbn [s_conf s_fs s_default s_trace] in *. unfold do_run in E. apply bind_ok in E. destruct E as ([c' f'] & E2 & E). apply Ok_inj in E. subst st. cbn [s_conf s_fs s_default s_trace leave fst snd].
  exists conf, f0, b. auto.
Qed.
Ltac after1 := unfold with_tau; destruct (read_config N _) as [[conf f0]| |]; [|reflexivity|reflexivity]; cbn [bind];
  destruct (settle_beta N _ _ _) as [s| |]; [|reflexivity|reflexivity]; cbn [bind s_conf s_fs s_default s_trace];
  destruct s; unfold do_run; cbn [s_conf s_fs s_default s_trace];
  match goal with |- context [bind ?x _] => destruct x; reflexivity end.
Lemma main_dyn fuel w a f st : selected a = [Mdynprofile] -> main N fuel w a f = Ok st ->
  exists conf f0 b, read_config N f = Ok (conf, f0) /\ settled fuel a (with_tau a conf) b /\
    run_dyn_profile N fuel (w_rng N w Mdynprofile) (set_beta (with_tau a conf) b) f0 = Ok (s_conf N st, s_fs N st) /\
    s_trace N st = [(Mdynprofile, set_beta (with_tau a conf) b)].
Proof.
  intros S. assert (H : only Mdynprofile a) by (intros m; rewrite S; intros [<-|[]]; reflexivity).
  apply (main_after1 Mdynprofile (fun a fuel w => run_dyn_profile N fuel (w_rng N w Mdynprofile)) (fun c => c)).
  offs H. rewrite (sel_dynp a) by (rewrite S; left; reflexivity). cbn [flag when bind]. after1.
Qed.
Lemma main_resp fuel w a f st : selected a = [Mresponse] -> main N fuel w a f = Ok st ->
  exists conf f0 b, read_config N f = Ok (conf, f0) /\ settled fuel a (with_tau a conf) b /\
    run_sim_response N fuel (w_rng N w Mresponse) (set_beta (with_tau a conf) b) f0 = Ok (s_conf N st, s_fs N st) /\
    s_trace N st = [(Mresponse, set_beta (with_tau a conf) b)].
Proof.
  intros S. assert (H : only Mresponse a) by (intros m; rewrite S; intros [<-|[]]; reflexivity).
  apply (main_after1 Mresponse (fun a fuel w => run_sim_response N fuel (w_rng N w Mresponse)) (fun c => c)).
  offs H. rewrite (sel_resp a) by (rewrite S; left; reflexivity). cbn [flag when bind]. after1.
Qed.
Definition to_system (c : config T) : config T := set_hsize c (ssize c).
Lemma main_lang fuel w a f st : selected a = [Mlangevin] -> main N fuel w a f = Ok st ->
  exists g conf f0 b, read_config N f = Ok (conf, f0) /\ settled fuel a (with_tau a conf) b /\
    run_langevin N fuel g (w_rng N w Mlangevin) (to_system (set_beta (with_tau a conf) b)) f0 = Ok (s_conf N st, s_fs N st) /\
    s_trace N st = [(Mlangevin, to_system (set_beta (with_tau a conf) b))].
Proof.
  intros S. assert (H : only Mlangevin a) by (intros m; rewrite S; intros [<-|[]]; reflexivity).
  destruct (sel_lang a) as [o Ho]; [rewrite S; left; reflexivity|]. intros E.
  exists (match o with Some g => g | None => nofZ N 1 end). revert E.
  apply (main_after1 Mlangevin (fun a fuel w => run_langevin N fuel (match o with Some g => g | None => nofZ N 1 end) (w_rng N w Mlangevin)) to_system).
  offs H. rewrite Ho. cbn [flag when bind]. unfold to_system. after1.
Qed.

Lemma read_in_range f conf f0 : read_config N f = Ok (conf, f0) -> in_range conf /\ f_dat f0 = f_dat f.
Proof.
  unfold read_config. destruct (f_conf f) as [| |l].
  - intros E. apply bind_ok in E. destruct E as (f1 & E1 & E). injection E as <- <-. split; [apply default_in_range|].
    unfold save_config in E1. apply bind_ok in E1. destruct E1 as (l & _ & E1). injection E1 as <-. reflexivity.
  - discriminate.
  - destruct (from_toml N l) as [c|] eqn:F; [|discriminate]. intros [= <- <-]. split; [|reflexivity].
    assert (I : forall lo hi k df z, (lo <= df <= hi)%Z -> field N l k (de_int N lo hi) df = Some z -> (lo <= z <= hi)%Z).
    { intros lo hi k df z Hd E0. unfold field in E0. destruct (lookup k l); [|injection E0 as <-; exact Hd]. apply de_int_is in E0. apply E0. }
    unfold from_toml in F. destruct (distinct (map fst l)); cbn [negb] in F; [|discriminate].
    repeat match type of F with (match field _ _ ?k ?d ?x with Some _ => _ | None => None end) = _ =>
      let E := fresh "E" in destruct (field N l k d x) eqn:E; [|discriminate F] end.
    injection F as <-. unfold in_range. cbn.
    repeat match goal with H : field N l _ (de_i32 N) _ = _ |- _ => apply I in H; [|cbn; lia]
     | H : field N l _ (de_u32 N) _ = _ |- _ => apply I in H; [|cbn; lia]
     | H : field N l _ (de_usize N) _ = _ |- _ => apply I in H; [|cbn; lia] end.
    lia.
Qed.

Lemma finish_back conf num f conf' f' : in_range conf -> finish N conf num f = Ok (conf', f') -> 
  read_config N f' = Ok (conf', f').
Proof.
  intros R E. apply finish_ok in E. destruct E as (B & C & _ & l & E1 & E2). unfold read_config. rewrite E2.
  assert (R' : in_range conf') by (subst conf'; unfold in_range in *; cbn; lia).
  destruct (round_trip N conf' R') as (l' & E3 & E4). rewrite E3 in E1. injection E1 as <-. rewrite E4. reflexivity.
Qed.
Lemma read_conf_only f g conf f0 : f_conf f = f_conf g -> f_conf f <> Missing -> read_config N f = Ok (conf, f0) -> read_config N g = Ok (conf, g).
Proof.
  intros E M. unfold read_config. rewrite E in *. destruct (f_conf g); [contradiction|discriminate|].
  destruct (from_toml N l); [|discriminate]. intros [= <- <-]. reflexivity.
Qed.
Lemma finish_back2 conf num f conf' f' : in_range conf -> finish N conf num f = Ok (conf', mkFs (f_conf f') (f_dat f)) ->
  read_config N f' = Ok (conf', f').
Proof.
  intros R E. pose proof (finish_back _ _ _ _ _ R E) as H. apply (read_conf_only _ f') in H; [exact H|reflexivity|].
  cbn. apply finish_ok in E. destruct E as (_ & _ & _ & l & _ & E). cbn in E. rewrite E. discriminate.
Qed.

Lemma num_runs_ok conf : in_range conf -> (0 <= runs conf)%Z -> num_runs N conf = Z.to_nat (runs conf) /\ u32 (Z.of_nat (num_runs N conf)) = runs conf.
Proof.
  intros R H. assert (A : num_runs N conf = Z.to_nat (runs conf)).
  { unfold num_runs, as_usize. unfold in_range in R. rewrite Z.mod_small by lia. reflexivity. }
  split; [exact A|]. rewrite A, Z2Nat.id by lia. unfold u32. unfold in_range in R. apply Z.mod_small. lia.
Qed.

(** What a completed saving invocation does *)
Definition invoked conf f f' : Prop :=
  exists conf' lss,
    read_config N f' = Ok (conf', f') /\ offset conf' = (offset conf + runs conf)%Z /\ runs conf' = runs conf /\
    c_file conf' = c_file conf /\ c_log conf' = c_log conf /\ length lss = Z.to_nat (runs conf) /\
    (forall i ls, nth_error lss i = Some ls -> contents f' (log_name (c_file conf) (Z.to_nat (offset conf) + i)) = Some ls) /\
    (forall n, ~ In n profiles -> (forall i, (i < Z.to_nat (runs conf))%nat -> n <> log_name (c_file conf) (Z.to_nat (offset conf) + i)) ->
       contents f' n = contents f n).

Lemma invoked_of conf conf1 f f0 f1 f2 f' conf' lss :
  in_range conf1 -> (0 <= runs conf)%Z -> f_dat f0 = f_dat f -> runs conf1 = runs conf -> offset conf1 = offset conf ->
  c_file conf1 = c_file conf -> c_log conf1 = c_log conf ->
  length lss = num_runs N conf1 ->
  (forall n, ~ In n profiles -> contents f1 n = contents f0 n) ->
  wrote f1 f2 (logs (c_file conf1) (Z.to_nat (offset conf1)) lss) ->
  (forall n, ~ In n profiles -> contents f' n = contents f2 n) ->
  finish N conf1 (num_runs N conf1) f0 = Ok (conf', mkFs (f_conf f') (f_dat f0)) -> invoked conf f f'.
Proof.
  intros R H0 D E1 E2 E3 E4 L P1 [W1 W2] P2 F.
  destruct (num_runs_ok conf1 R) as [N1 N2]; [lia|]. exists conf', lss.
  split; [eapply finish_back2; eassumption|]. apply finish_ok in F. destruct F as (_ & C & _). subst conf'. cbn.
  rewrite N2. split; [lia|]. split; [exact E1|]. split; [exact E3|]. split; [exact E4|]. split; [congruence|].
  assert (NP : forall k, ~ In (log_name (c_file conf) k) profiles).
  { intros k H. unfold profiles in H. apply in_map_iff in H. destruct H as (z & Hz & _). symmetry in Hz. exact (log_not_profile _ _ _ Hz). }
  rewrite E2, E3 in *. split.
  - intros i ls H. rewrite P2 by apply NP. apply W1. apply logs_in. exact H.
  - intros n Hn H. rewrite P2, W2, P1; [unfold contents; rewrite D; reflexivity|exact Hn| |exact Hn].
    intros Hin. apply logs_names in Hin. destruct Hin as (i & Hi & ->). apply (H i); [lia|reflexivity].
Qed.

Lemma range_of conf conf1 : in_range conf -> hsize conf1 = hsize conf \/ hsize conf1 = ssize conf -> ssize conf1 = ssize conf ->
  runs conf1 = runs conf -> method conf1 = method conf -> offset conf1 = offset conf -> threads conf1 = threads conf ->
  mc_points conf1 = mc_points conf -> in_range conf1.
Proof. unfold in_range. intros; lia. Qed.
Ltac rg := eapply range_of; [eassumption|..]; unfold with_tau, to_system; try (destruct (a_tau _)); cbn; auto.

Lemma frame_invoked worker rg conf conf1 f f0 f' conf' : in_range conf1 -> (0 <= runs conf)%Z -> f_dat f0 = f_dat f ->
  runs conf1 = runs conf -> offset conf1 = offset conf -> c_file conf1 = c_file conf -> c_log conf1 = c_log conf -> c_log conf = true ->
  run_frame N worker rg conf1 f0 = Ok (conf', f') -> invoked conf f f'.
Proof.
  intros R H0 D E1 E2 E3 E4 L E. apply run_frame_wrote in E. destruct E as [(lss & F & W) Fin].
  rewrite E4, L in W. eapply (invoked_of conf conf1 f f0 f0 f' f'); try eassumption; try reflexivity.
  apply F2_length in F. rewrite seq_length in F. auto.
Qed.

Theorem saving_invoked fuel w a f st conf f0 : saving a -> main N fuel w a f = Ok st -> read_config N f = Ok (conf, f0) ->
  (0 <= runs conf)%Z -> c_log conf = true -> invoked conf f (s_fs N st).
Proof.
  intros S E Rd H0 L. destruct (read_in_range _ _ _ Rd) as [R D].
  destruct S as [S|[S|[S|[S|S]]]].
  - destruct (main_default fuel w a f st S E) as (c & g & b & Rd' & _ & M & _). rewrite Rd' in Rd. injection Rd as -> ->.
    eapply frame_invoked; try exact M; try exact D; try exact L; try exact H0; try rg.
    all: unfold with_tau; destruct (a_tau a); reflexivity.
  - destruct (main_ext fuel w a f st S E) as (c & g & b & Rd' & M & _). rewrite Rd' in Rd. injection Rd as -> ->.
    eapply frame_invoked; try exact M; try exact D; try exact L; try exact H0; try rg.
    all: unfold with_tau; destruct (a_tau a); reflexivity.
  - destruct (main_dyn fuel w a f st S E) as (c & g & b & Rd' & _ & M & _). rewrite Rd' in Rd. injection Rd as -> ->.
    apply run_dyn_wrote in M. destruct M as [(lss & Ll & Le & f1 & P1 & f2 & W & P2) Fin].
    assert (L1 : c_log (set_beta (with_tau a conf) b) = true) by (unfold with_tau; destruct (a_tau a); exact L). rewrite L1 in W.
    set (conf1 := set_ct (set_beta (with_tau a conf) b) (nmul N (tau (set_beta (with_tau a conf) b)) (nofZ N 4000))) in *.
    eapply (invoked_of conf conf1 f f0 f1 f2); try exact W; try exact P1; try exact P2; try exact D; try exact H0; try exact Fin; try exact Ll; try rg.
    all: unfold conf1, with_tau; destruct (a_tau a); first [reflexivity | left; reflexivity | right; reflexivity].
  - destruct (main_lang fuel w a f st S E) as (gm & c & g & b & Rd' & _ & M & _). rewrite Rd' in Rd. injection Rd as -> ->.
    apply run_langevin_wrote in M. destruct M as [(lss & Ll & Le & W) Fin].
    eapply (invoked_of conf (to_system (set_beta (with_tau a conf) b)) f f0 f0 (s_fs N st)); try exact W; try exact D; try exact H0; try exact Fin; try exact Ll; try reflexivity; try rg.
    all: unfold to_system, with_tau; destruct (a_tau a); reflexivity.
  - destruct (main_resp fuel w a f st S E) as (c & g & b & Rd' & _ & M & _). rewrite Rd' in Rd. injection Rd as -> ->.
    eapply frame_invoked; try exact M; try exact D; try exact L; try exact H0; try rg.
    all: unfold with_tau; destruct (a_tau a); reflexivity.
Qed.

(** Histories *)
Theorem history_logs f l : history N f l -> forall conf f0, read_config N f = Ok (conf, f0) -> (0 <= runs conf)%Z -> c_log conf = true ->
  forall k g g', nth_error l k = Some (g, g') ->
  (forall m h h', nth_error l m = Some (h, h') -> (k <= m)%nat -> forall i, (i < Z.to_nat (runs conf))%nat ->
    exists ls, contents g' (log_name (c_file conf) (Z.to_nat (offset conf) + k * Z.to_nat (runs conf) + i)) = Some ls /\
               contents h' (log_name (c_file conf) (Z.to_nat (offset conf) + k * Z.to_nat (runs conf) + i)) = Some ls) /\
  (forall n, ~ In n profiles -> (forall i, (i < Z.to_nat (runs conf))%nat -> n <> log_name (c_file conf) (Z.to_nat (offset conf) + k * Z.to_nat (runs conf) + i)) ->
     contents g' n = contents g n).
Proof.
  assert (OUT : forall f l, history N f l -> forall conf f0, read_config N f = Ok (conf, f0) -> (0 <= runs conf)%Z -> c_log conf = true ->
    forall x m h h', (x < Z.to_nat (offset conf))%nat -> nth_error l m = Some (h, h') ->
      contents h' (log_name (c_file conf) x) = contents f (log_name (c_file conf) x)).
  { clear f l. induction 1 as [f|fuel w a f st l Sv E Hh IH]; intros conf f0 Rd R0 L x m h h' Hx Hm; [destruct m; discriminate|].
    destruct (saving_invoked _ _ _ _ _ _ _ Sv E Rd R0 L) as (conf' & lss & Rd' & O' & R' & F' & L' & Ln & W1 & W2).
    assert (O : (0 <= offset conf)%Z) by (destruct (read_in_range _ _ _ Rd) as [Q _]; unfold in_range in Q; lia).
    assert (X : contents (s_fs N st) (log_name (c_file conf) x) = contents f (log_name (c_file conf) x)).
    { apply W2.
      - intros H. unfold profiles in H. apply in_map_iff in H. destruct H as (z & Hz & _). symmetry in Hz. exact (log_not_profile _ _ _ Hz).
      - intros i Hi H. apply log_name_inj in H. lia. }
    destruct m as [|m].
    - cbn in Hm. injection Hm as <- <-. exact X.
    - cbn in Hm. rewrite <- X, <- F'. eapply IH; [exact Rd'|lia|congruence| |exact Hm]. rewrite O'. lia. }
  induction 1 as [f|fuel w a f st l Sv E Hh IH]; intros conf f0 Rd R0 L k g g' Hk; [destruct k; discriminate|].
  destruct (saving_invoked _ _ _ _ _ _ _ Sv E Rd R0 L) as (conf' & lss & Rd' & O' & R' & F' & L' & Ln & W1 & W2).
  assert (O : (0 <= offset conf)%Z) by (destruct (read_in_range _ _ _ Rd) as [Q _]; unfold in_range in Q; lia).
  destruct k as [|k].
  - cbn in Hk. injection Hk as <- <-. rewrite Nat.mul_0_l, Nat.add_0_r. split; [|exact W2].
    intros m h h' Hm _ i Hi. destruct (nth_error lss i) as [ls|] eqn:El; [|apply nth_error_None in El; lia].
    exists ls. pose proof (W1 i ls El) as C. split; [exact C|]. rewrite <- C. destruct m as [|m]; cbn in Hm.
    + injection Hm as <- <-. reflexivity.
    + rewrite <- F'. apply (OUT _ _ Hh conf' _ Rd') with (m := m) (h := h); [lia|congruence|rewrite O'; lia|exact Hm].
  - cbn in Hk. destruct (IH conf' _ Rd' ltac:(lia) ltac:(congruence) k g g' Hk) as [I1 I2].
    replace (Z.to_nat (offset conf')) with (Z.to_nat (offset conf) + Z.to_nat (runs conf))%nat in * by (rewrite O'; lia).
    rewrite R', F' in *. replace (Z.to_nat (offset conf) + S k * Z.to_nat (runs conf))%nat with
      (Z.to_nat (offset conf) + Z.to_nat (runs conf) + k * Z.to_nat (runs conf))%nat by lia.
    split; [|exact I2]. intros m h h' Hm Hkm. destruct m as [|m]; [lia|]. cbn in Hm. apply I1 with (m := m) (h := h); [exact Hm|lia].
Qed.
End H.
