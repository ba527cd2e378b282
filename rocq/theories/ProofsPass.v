(** Consequences of the flow of the configuration through the modes. *)
From Coq Require Import String ZArith List Lia Arith Bool.
From Verif Require Import Num Monad Spin Config Chain Langevin Fit Files Toml Writers Average Runs Main
  SpecRuns SpecToml SpecMain ProofsDir ProofsNames ProofsToml ProofsFrame ProofsMain ProofsHistory ProofsFlow.
Import ListNotations.
Local Open Scope list_scope.

Section F.
Context (N : NumOps).
Notation T := (num N).
Implicit Types (s : state N) (a : args T) (f : fs T) (conf c : config T).

Lemma pass_split a c l1 p l2 c' : pass N a c (l1 ++ p :: l2) c' -> exists c1, pass N a c l1 c1 /\ pass N a c1 (p :: l2) c'.
Proof.
  revert c. induction l1 as [|q l1 IH]; intros c H; cbn [app] in H; [exists c; split; [constructor|exact H]|].
  inversion H as [|m c0 ce c1 l c2 He Hl Hp]; subst. destruct (IH _ Hp) as (c3 & A & B). exists c3. split; [econstructor; eassumption|exact B].
Qed.

(** The temperature of the late modes *)
Lemma pass_beta a c l c' : pass N a c l c' -> Forall (fun p => early (fst p) = false) l -> forall m ce, In (m, ce) l -> beta ce = beta c.
Proof.
  induction 1 as [c|m c ce c1 l c' He Hl Hp IH]; intros F m0 ce0 Hin; [destruct Hin|]. inversion F as [|? ? F1 F2]; subst.
  assert (X : beta ce = beta c /\ beta c1 = beta c).
  { destruct m; cbn in F1, He, Hl; try discriminate; subst; auto. }
  destruct X as [X1 X2]. destruct Hin as [[= <- <-]|Hin]; [exact X1|]. rewrite (IH F2 _ _ Hin). exact X2.
Qed.
Theorem late_beta fuel w a f st conf f0 : read_config N f = Ok (conf, f0) -> main N fuel w a f = Ok st ->
  exists b, (forall m c, In (m, c) (s_trace N st) -> early m = false -> beta c = b) /\
    match a_beta a with
    | Some x => b = x
    | None => exists c1, solve_beta N fuel (ednsty c1) = Ok b /\ (Forall (fun m => early m = false \/ m = Mdesc \/ m = Mext \/ m = Mtau) (selected a) -> ednsty c1 = ednsty conf)
    end.
Proof.
  intros Rd E. pose proof (main_trace N _ _ _ _ _ E) as TR. destruct (main_flows N _ _ _ _ _ _ _ Rd E) as (l1 & l2 & c1 & b & A & F1 & F2 & P1 & B & P2).
  exists b. split.
  - intros m c Hin Hm. rewrite A in Hin. apply in_app_iff in Hin. destruct Hin as [Hin|Hin].
    + rewrite Forall_forall in F1. pose proof (F1 _ Hin) as X. cbn in X. congruence.
    + rewrite (pass_beta _ _ _ _ P2 F2 _ _ Hin). reflexivity.
  - destruct B as [B|[B1 B2]]; [rewrite B; reflexivity|]. rewrite B1. exists c1. split; [exact B2|]. intros Fs.
    assert (G : forall m ce, In (m, ce) l1 -> m = Mdesc \/ m = Mext \/ m = Mtau).
    { intros m ce Hin. assert (Hm : In m (map fst (s_trace N st))) by (rewrite A, map_app; apply in_app_iff; left; apply (in_map fst) in Hin; exact Hin).
      rewrite Forall_forall in F1. pose proof (F1 _ Hin) as X. cbn in X. rewrite TR in Hm.
      destruct (selected a) as [|q ms] eqn:S; [destruct Hm as [<-|[]]; discriminate X|].
      rewrite Forall_forall in Fs. destruct (Fs _ Hm) as [Y|Y]; [congruence|exact Y]. }
    clear - P1 G. remember (match a_tau a with Some x => set_tau conf x | None => conf end) as c eqn:Ec.
    assert (X : ednsty c = ednsty conf) by (subst; destruct (a_tau a); reflexivity). rewrite <- X. clear X Ec.
    induction P1 as [c|m c ce c2 l c' He Hl Hp IH]; [reflexivity|]. rewrite IH by (intros m0 ce0 H; apply (G m0 ce0); right; exact H).
    destruct (G m ce (or_introl eq_refl)) as [-> | [-> | ->]]; cbn in He, Hl; subst; reflexivity.
Qed.

(** --ext and --n-steps are given the configuration of the file *)
Lemma pass_first a c l c' x y z rest : pass N a c l c' -> map fst l = onb Mdesc x ++ onb Mext y ++ @on T Mtau z ++ rest ->
  ~ In Mext rest -> ~ In Mtau rest -> forall m ce, In (m, ce) l -> m = Mext \/ m = Mtau -> ce = c.
Proof.
  intros P E NE NT m ce Hin Hm.
  assert (K : forall c l c' z, pass N a c l c' -> map fst l = @on T Mtau z ++ rest -> In (m, ce) l -> ce = c).
  { clear - NE NT Hm. intros c l c' z P E Hin. destruct z as [z|]; cbn in E.
    - destruct P as [|m1 c ce1 c1 l c' He Hl Hp]; [destruct Hin|]. injection E as -> E. destruct Hin as [[= <- <-]|Hin]; [exact He|].
      exfalso. apply (in_map fst) in Hin. rewrite E in Hin. cbn in Hin. destruct Hm as [-> | ->]; contradiction.
    - exfalso. apply (in_map fst) in Hin. rewrite E in Hin. cbn in Hin. destruct Hm as [-> | ->]; contradiction. }
  assert (K2 : forall c l c' y, pass N a c l c' -> map fst l = onb Mext y ++ @on T Mtau z ++ rest -> In (m, ce) l -> ce = c).
  { intros c0 l0 c0' y0 P0 E0 Hin0. destruct y0; cbn [onb app] in E0; [|eapply K; eassumption].
    destruct P0 as [|m1 c0 ce1 c1 l0 c0' He Hl Hp]; [destruct Hin0|]. cbn [map fst] in E0. injection E0 as -> E0.
    destruct Hin0 as [[= <- <-]|Hin0]; [exact He|]. rewrite (K _ _ _ _ Hp E0 Hin0). cbn in He, Hl. congruence. }
  destruct x; cbn [onb app] in E; [|eapply K2; eassumption].
  destruct P as [|m1 c ce1 c1 l c' He Hl Hp]; [destruct Hin|]. cbn [map fst] in E. injection E as -> E.
  destruct Hin as [[= <- <-]|Hin]; [destruct Hm; discriminate|]. rewrite (K2 _ _ _ _ Hp E Hin). cbn in He, Hl. congruence.
Qed.
Lemma forall_early l : Forall (fun p : mode * config T => early (fst p) = true) l -> forall m, In m (map fst l) -> early m = true.
Proof. intros H m Hm. apply in_map_iff in Hm. destruct Hm as (p & <- & Hp). rewrite Forall_forall in H. exact (H p Hp). Qed.
Theorem file_conf fuel w a f st conf f0 : read_config N f = Ok (conf, f0) -> main N fuel w a f = Ok st ->
  forall m c, In (m, c) (s_trace N st) -> m = Mext \/ m = Mtau -> c = match a_tau a with Some x => set_tau conf x | None => conf end.
Proof.
  intros Rd E m c Hin Hm. pose proof (main_trace N _ _ _ _ _ E) as TR. destruct (main_flows N _ _ _ _ _ _ _ Rd E) as (l1 & l2 & c1 & b & A & F1 & F2 & P1 & B & P2).
  assert (Hin1 : In (m, c) l1).
  { rewrite A in Hin. apply in_app_iff in Hin. destruct Hin as [Hin|Hin]; [exact Hin|]. rewrite Forall_forall in F2. pose proof (F2 _ Hin) as X. cbn in X.
    destruct Hm as [-> | ->]; discriminate X. }
  assert (SEL : map fst (s_trace N st) = selected a).
  { rewrite TR. destruct (selected a) eqn:S; [|reflexivity]. exfalso. apply (in_map fst) in Hin. rewrite TR in Hin. destruct Hin as [X|[]]. cbn in X. subst m. destruct Hm; discriminate. }
  assert (Q : exists rest, map fst l1 = onb Mdesc (a_config_desc a) ++ onb Mext (a_ext a) ++ on Mtau (match a_n_steps_taus a with Some _ => Some (nofZ N 0) | None => None end) ++ rest /\
              ~ In Mext rest /\ ~ In Mtau rest).
  { rewrite A, map_app in SEL. unfold selected in SEL.
    assert (TA : on Mtau (a_n_steps_taus a) = on Mtau (match a_n_steps_taus a with Some _ => Some (nofZ N 0) | None => None end)) by (destruct (a_n_steps_taus a); reflexivity).
    rewrite TA in SEL. clear TA.
    match type of SEL with _ = ?d ++ ?e ++ ?t ++ ?r => set (R := r) in SEL; set (pre := d ++ e ++ t) in SEL end.
    assert (SP : map fst l1 ++ map fst l2 = (onb Mdesc (a_config_desc a) ++ onb Mext (a_ext a) ++ on Mtau (match a_n_steps_taus a with Some _ => Some (nofZ N 0) | None => None end)) ++ R).
    { rewrite <- !app_assoc. exact SEL. }
    assert (NR : ~ In Mext R /\ ~ In Mtau R).
    { unfold R. rewrite !in_app_iff. split; intros H; repeat (destruct H as [H|H]; [first [apply in_on in H|apply in_onb in H]; destruct H; discriminate|]);
        first [apply in_on in H|apply in_onb in H]; destruct H; discriminate. }
    apply app_eq_app in SP. destruct SP as (q & [[SP1 SP2]|[SP1 SP2]]).
    - exists q. rewrite SP1, <- !app_assoc. split; [reflexivity|]. rewrite SP2 in NR. rewrite !in_app_iff in NR. tauto.
    - (* the early modes end before: impossible to be strictly shorter *)
      destruct q as [|q0 q]; [exists []; rewrite app_nil_r in SP1; rewrite <- SP1, app_nil_r; rewrite <- ?app_assoc; rewrite ?app_nil_r; cbn; tauto|].
      exfalso. assert (In q0 (map fst l2)) by (rewrite SP2; left; reflexivity).
      assert (In q0 (onb Mdesc (a_config_desc a) ++ onb Mext (a_ext a) ++ on Mtau (match a_n_steps_taus a with Some _ => Some (nofZ N 0) | None => None end))) as H2 by (rewrite SP1; apply in_app_iff; right; left; reflexivity).
      assert (early q0 = false) by (apply in_map_iff in H; destruct H as (p & <- & Hp); rewrite Forall_forall in F2; exact (F2 p Hp)).
      rewrite !in_app_iff in H2. destruct H2 as [H2|[H2|H2]]; first [apply in_on in H2|apply in_onb in H2]; destruct H2 as [-> _]; discriminate. }
  destruct Q as (rest & Q & NE & NT). exact (pass_first a _ _ _ _ _ _ _ P1 Q NE NT _ _ Hin1 Hm).
Qed.

(** The early modes do not see -b *)
Theorem early_blind fuel w a f b1 b2 st1 st2 : main N fuel w (with_beta a b1) f = Ok st1 -> main N fuel w (with_beta a b2) f = Ok st2 ->
  filter (fun p => early (fst p)) (s_trace N st1) = filter (fun p => early (fst p)) (s_trace N st2).
Proof.
  assert (G : forall b st, main N fuel w (with_beta a b) f = Ok st -> exists conf f0 s1, read_config N f = Ok (conf, f0) /\
     main_before N fuel w a (mkSt N (match a_tau a with Some x => set_tau conf x | None => conf end) f0 true []) = Ok s1 /\
     filter (fun p => early (fst p)) (s_trace N st) = s_trace N s1).
  { intros b st E. unfold main in E. apply bind_ok in E. destruct E as ([conf f0] & E0 & E). cbv zeta in E.
    apply bind_ok in E. destruct E as (s1 & E1 & E). apply bind_ok in E. destruct E as (s2 & E2 & E). apply bind_ok in E. destruct E as (s3 & E3 & E).
    exists conf, f0, s1. split; [exact E0|]. split; [exact E1|].
    apply before_flows in E1. apply after_flows in E3.
    assert (E4 : flows N (with_beta a b) (fun m => early m = false) s3 st).
    { destruct (s_default N s3); [|apply Ok_inj in E; subst; apply flows_nil].
      revert E. apply flows_run; try reflexivity. intros ? ? ? ? Q. exact (frame_left _ _ _ _ _ _ _ Q). }
    unfold settle_beta in E2. apply bind_ok in E2. destruct E2 as (bb & _ & E2). apply Ok_inj in E2. subst s2.
    pose proof (flows_trans _ _ _ _ _ _ E3 E4) as (l2 & A2 & _ & C2). destruct E1 as (l1 & A1 & _ & C1).
    cbn [s_trace] in *. rewrite A2, A1. cbn [app]. rewrite filter_app.
    replace (filter _ l2) with (@nil (mode * config T)).
    - rewrite app_nil_r. clear - C1. induction C1 as [|p l H F IH]; [reflexivity|]. cbn. rewrite H. congruence.
    - clear - C2. induction C2 as [|p l H F IH]; [reflexivity|]. cbn. rewrite H. exact IH. }
  intros E1 E2. destruct (G _ _ E1) as (c & g & s & R1 & M1 & T1). destruct (G _ _ E2) as (c' & g' & s' & R2 & M2 & T2).
  rewrite T1, T2. rewrite R1 in R2. injection R2 as <- <-. congruence.
Qed.

(** Log numbers within one invocation *)
Lemma pass_offset a c l c' : pass N a c l c' -> (0 <= runs c < 2 ^ 31)%Z -> forall l1 m ce l2, l = l1 ++ (m, ce) :: l2 ->
  offset ce = (offset c + Z.of_nat (count_adv l1) * runs c)%Z /\ runs ce = runs c.
Proof.
  intros P R. assert (ST : forall m c ce c1, entry N a m c ce -> left_by N m ce c1 -> (0 <= runs c < 2 ^ 31)%Z ->
     offset ce = offset c /\ runs ce = runs c /\ runs c1 = runs c /\ offset c1 = (offset c + (if advances m then runs c else 0))%Z).
  { clear. intros m c ce c1 He Hl R. assert (X : (runs c mod 2 ^ 32 = runs c)%Z) by (apply Z.mod_small; lia).
    destruct m; cbn [entry left_by] in He, Hl; repeat match goal with H : exists _, _ |- _ => destruct H | H : _ /\ _ |- _ => destruct H end; subst; cbn [advances];
    cbn [offset runs set_offset set_hsize set_ssize set_beta set_hs set_hfield set_ednsty set_tau set_ct set_xfile]; rewrite ?X, ?Z.add_0_r; auto. }
  induction P as [c|m c ce c1 l c' He Hl Hp IH]; intros l1 m0 ce0 l2 E; [destruct l1; discriminate|].
  destruct (ST _ _ _ _ He Hl R) as (S1 & S2 & S3 & S4).
  destruct l1 as [|q l1]; cbn [app] in E.
  - injection E as <- <- <-. cbn. split; [lia|exact S2].
  - injection E as <- E. destruct (IH ltac:(rewrite S3; exact R) _ _ _ _ E) as [I1 I2]. rewrite I1, I2, S3, S4. split; [|reflexivity].
    unfold count_adv. cbn [filter fst]. destruct (advances m); cbn [length]; lia.
Qed.
Theorem offsets fuel w a f st conf f0 : read_config N f = Ok (conf, f0) -> main N fuel w a f = Ok st -> (0 <= runs conf)%Z ->
  forall l1 m c l2, s_trace N st = l1 ++ (m, c) :: l2 -> offset c = (offset conf + Z.of_nat (count_adv l1) * runs conf)%Z /\ runs c = runs conf.
Proof.
  intros Rd E R l1 m c l2 TR. destruct (main_flows N _ _ _ _ _ _ _ Rd E) as (k1 & k2 & c1 & b & A & F1 & F2 & P1 & B & P2).
  destruct (read_in_range _ _ _ _ Rd) as [Q _]. unfold in_range in Q.
  set (c0 := match a_tau a with Some x => set_tau conf x | None => conf end) in *.
  assert (X : runs c0 = runs conf /\ offset c0 = offset conf) by (unfold c0; destruct (a_tau a); auto). destruct X as [X1 X2].
  assert (NA : forall l c c', pass N a c l c' -> Forall (fun p => early (fst p) = true) l -> runs c' = runs c /\ offset c' = offset c).
  { clear. induction 1 as [c|m c ce c1 l c' He Hl Hp IH]; intros F; [auto|]. inversion F as [|? ? F1 F2]; subst. destruct (IH F2) as [I1 I2]. rewrite I1, I2.
    destruct m; cbn in F1; try discriminate; cbn [entry left_by] in He, Hl; repeat match goal with H : exists _, _ |- _ => destruct H | H : _ /\ _ |- _ => destruct H end; subst; auto. }
  destruct (NA _ _ _ P1 F1) as [Y1 Y2].
  assert (CA : forall l : list (mode * config T), Forall (fun p => early (fst p) = true) l -> count_adv l = 0%nat).
  { clear. induction 1 as [|p l H F IH]; [reflexivity|]. unfold count_adv in *. cbn. destruct (fst p); cbn in *; try discriminate; exact IH. }
  rewrite A in TR. apply app_eq_app in TR. destruct TR as (q & [[T1 T2]|[T1 T2]]).
  - destruct q as [|q0 q].
    + cbn in T2. destruct (pass_offset _ _ _ _ P2 ltac:(cbn; lia) [] m c l2 (eq_sym T2)) as [I1 I2]. cbn [set_beta offset runs] in I1, I2.
      rewrite app_nil_r in T1. subst k1. rewrite (CA _ F1). cbn [count_adv filter length] in I1. rewrite I1, I2, Y1, Y2. lia.
    + injection T2 as <- T2. destruct (pass_offset _ _ _ _ P1 ltac:(lia) l1 m c q T1) as [I1 I2]. rewrite I1, I2. rewrite X1, X2. auto.
  - destruct (pass_offset _ _ _ _ P2 ltac:(cbn; lia) q m c l2 T2) as [I1 I2]. cbn [set_beta offset runs] in I1, I2.
    subst l1. unfold count_adv in *. rewrite filter_app, app_length. rewrite (CA _ F1 : length _ = 0%nat). rewrite I1, I2, Y1, Y2. cbn [Nat.add]. lia.
Qed.

(** Traces of histogram modes in the shared configuration *)
Theorem hist_leaves fuel w a f st : main N fuel w a f = Ok st -> forall l1 m0 c0 l2, s_trace N st = l1 ++ (m0, c0) :: l2 -> m0 = Mhist \/ m0 = Mmagnus ->
  forall m c, In (m, c) l2 -> drive c = Dnone /\ c_file c = "x"%string.
Proof.
  intros E l1 m0 c0 l2 TR M0. assert (Rd : exists conf f0, read_config N f = Ok (conf, f0)).
  { unfold main in E. apply bind_ok in E. destruct E as ([conf f0] & E & _). eauto. }
  destruct Rd as (conf & f0 & Rd). destruct (main_flows N _ _ _ _ _ _ _ Rd E) as (k1 & k2 & c1 & b & A & F1 & F2 & P1 & B & P2).
  assert (KP : forall l c c', pass N a c l c' -> Forall (fun p => early (fst p) = false) l -> drive c = Dnone -> c_file c = "x"%string ->
     forall m ce, In (m, ce) l -> drive ce = Dnone /\ c_file ce = "x"%string).
  { clear. induction 1 as [c|m c ce c1 l c' He Hl Hp IH]; intros F D X m0 ce0 Hin; [destruct Hin|]. inversion F as [|? ? F1 F2]; subst.
    assert (Y : (drive ce = Dnone /\ c_file ce = "x"%string) /\ drive c1 = Dnone /\ c_file c1 = "x"%string).
    { destruct m; cbn in F1; try discriminate; cbn [entry left_by] in He, Hl; subst; auto. }
    destruct Y as [Y1 [Y2 Y3]]. destruct Hin as [[= <- <-]|Hin]; [exact Y1|]. exact (IH F2 Y2 Y3 _ _ Hin). }
  assert (HL : exists q, k2 = q ++ (m0, c0) :: l2).
  { rewrite A in TR. apply app_eq_app in TR. destruct TR as (q & [[T1 T2]|[T1 T2]]); [|exists q; exact T2].
    destruct q as [|q0 q]; [exists []; symmetry; exact T2|]. exfalso. injection T2 as <- T2. rewrite T1 in F1. apply Forall_app in F1. destruct F1 as [_ F1].
    inversion F1 as [|? ? X]; subst. cbn in X. destruct M0 as [-> | ->]; discriminate. }
  destruct HL as (q & ->). apply Forall_app in F2. destruct F2 as [_ F2]. inversion F2 as [|? ? _ F3]; subst.
  apply pass_split in P2. destruct P2 as (c2 & _ & P2). inversion P2 as [|m' c' ce' c3 l' c4 He Hl Hp]; subst.
  apply (KP _ _ _ Hp F3); destruct M0 as [-> | ->]; cbn in Hl; subst; reflexivity.
Qed.

(** What is saved *)
Theorem default_saved fuel w a f st conf f0 : selected a = [] -> read_config N f = Ok (conf, f0) -> main N fuel w a f = Ok st -> (0 <= runs conf)%Z ->
  exists b, match a_beta a with Some x => b = x | None => solve_beta N fuel (ednsty conf) = Ok b end /\
    read_config N (s_fs N st) =
      Ok (set_offset (set_beta (match a_tau a with Some x => set_tau conf x | None => conf end) b) (offset conf + runs conf)%Z, s_fs N st).
Proof.
  intros S Rd E R. destruct (main_default N _ _ _ _ _ S E) as (c & g & b & Rd' & Sb & M & _). rewrite Rd' in Rd. injection Rd as -> ->.
  exists b. split; [unfold settled in Sb; unfold with_tau in Sb; destruct (a_beta a); [exact Sb|]; destruct (a_tau a); exact Sb|].
  apply run_frame_wrote in M. destruct M as [_ M]. destruct (read_in_range _ _ _ _ Rd') as [Q _].
  assert (Q' : in_range (set_beta (with_tau N a conf) b)) by (unfold in_range, with_tau in *; destruct (a_tau a); exact Q).
  pose proof (finish_left _ _ _ _ _ M) as L. pose proof (finish_back2 _ _ _ _ _ _ Q' M) as Z. rewrite Z, L. unfold with_tau, in_range in *.
  destruct (a_tau a); cbn [runs offset set_beta set_tau]; rewrite Z.mod_small by lia; reflexivity.
Qed.
Theorem langevin_saved fuel w a f st conf f0 : selected a = [Mlangevin] -> read_config N f = Ok (conf, f0) -> main N fuel w a f = Ok st -> (0 <= runs conf)%Z ->
  exists b, match a_beta a with Some x => b = x | None => solve_beta N fuel (ednsty conf) = Ok b end /\
    read_config N (s_fs N st) =
      Ok (set_offset (set_hsize (set_beta (match a_tau a with Some x => set_tau conf x | None => conf end) b) (ssize conf)) (offset conf + runs conf)%Z, s_fs N st).
Proof.
  intros S Rd E R. destruct (main_lang N _ _ _ _ _ S E) as (g0 & c & g & b & Rd' & Sb & M & _). rewrite Rd' in Rd. injection Rd as -> ->.
  exists b. split; [unfold settled in Sb; unfold with_tau in Sb; destruct (a_beta a); [exact Sb|]; destruct (a_tau a); exact Sb|].
  apply run_langevin_wrote in M. destruct M as [_ M]. destruct (read_in_range _ _ _ _ Rd') as [Q _].
  assert (Q' : in_range (to_system N (set_beta (with_tau N a conf) b))) by (unfold in_range, to_system, with_tau in *; destruct (a_tau a); cbn; lia).
  pose proof (finish_left _ _ _ _ _ M) as L. pose proof (finish_back2 _ _ _ _ _ _ Q' M) as Z. rewrite Z, L. unfold with_tau, to_system, in_range in *.
  destruct (a_tau a); cbn [runs offset ssize set_hsize set_beta set_tau]; rewrite Z.mod_small by lia; reflexivity.
Qed.
End F.
