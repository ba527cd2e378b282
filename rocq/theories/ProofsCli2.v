(** The meaning of settings (C82). *)
From Coq Require Import ZArith List Bool Ascii String Arith Lia Permutation.
From Verif Require Import Num Monad Config Main SpecMain Cli SpecCli ProofsCli ProofsMain.
Import ListNotations.
Local Open Scope string_scope.
Local Open Scope list_scope.

Lemma given_app : forall o s1 s2, given o (s1 ++ s2) = given o s1 ++ given o s2.
Proof. intros. unfold given. rewrite filter_app, map_app. reflexivity. Qed.
Lemma given_other : forall o o' v ss, opt_eqb o o' = false -> given o (ss ++ [(o', v)]) = given o ss.
Proof. intros. rewrite given_app. unfold given at 2. cbn. rewrite H. apply app_nil_r. Qed.
Lemma given_same : forall o v ss, given o (ss ++ [(o, v)]) = given o ss ++ [v].
Proof. intros. rewrite given_app. unfold given at 2. cbn. rewrite opt_eqb_refl. reflexivity. Qed.
Lemma given_nil : forall o ss, ~ In o (map fst ss) -> given o ss = [].
Proof.
  intros o ss H. unfold given. induction ss as [|[o' v] ss IH]; [reflexivity|]. cbn in *. destruct (opt_eqb o o') eqn:E.
  - apply opt_eqb_eq in E. exfalso. apply H. auto.
  - apply IH. tauto.
Qed.
Lemma given_in : forall o v ss, In (o, v) ss <-> In v (given o ss).
Proof.
  intros o v ss. unfold given. rewrite in_map_iff. split.
  - intros H. exists (o, v). split; auto. apply filter_In. split; auto. cbn. apply opt_eqb_refl.
  - intros ([o' v'] & E & H). apply filter_In in H. destruct H as [H Q]. cbn in *. apply opt_eqb_eq in Q. subst. exact H.
Qed.

Lemma nodup_left : forall (A : Type) (a b : list A), NoDup (a ++ b) -> NoDup a.
Proof. induction a as [|x a IH]; intros b H; [constructor|]. inversion H; subst. constructor; [|eauto]. intros Hi. apply H2. apply in_or_app. auto. Qed.

Section P.
Context (N : NumOps) (rd : readers N).
Notation T := (num N).
Notation means := (means N rd).

Ltac parts := repeat match goal with |- _ /\ _ => split end.
Ltac other := match goal with H : ?P |- ?Q => solve [unfold is_flag, is_one, is_maybe, is_list in *; rewrite given_other by reflexivity; exact H] end.
Lemma means_snoc : forall ss o v a a', means ss a -> store N rd o v a = Some a' -> (kind_of o <> Many -> given o ss = []) -> means (ss ++ [(o, v)]) a'.
Proof.
  intros ss o v a a' Hm Hs Hg. destruct a as [x1 x2 x3 x4 x5 x6 x7 x8 x9 x10 x11 x12 x13 x14 x15 x16 x17 x18 x19 x20 x21 x22 x23 x24 x25]. unfold SpecCli.means in Hm. cbn [a_tau a_avg a_beta a_mc a_mc_profile a_dyn_profile a_mc_full a_hist a_dynhist a_singletraj a_langevin a_magnus_hist a_config_desc a_n_steps_taus a_adiabatic a_adiab2 a_rot a_ext a_maglab a_steps a_fit a_fit_effective a_response a_two_point a_high_freq] in Hm.
  destruct Hm as (M1 & M2 & M3 & M4 & M5 & M6 & M7 & M8 & M9 & M10 & M11 & M12 & M13 & M14 & M15 & M16 & M17 & M18 & M19 & M20 & M21 & M22 & M23 & M24 & M25).
  destruct (match kind_of o with Many => true | _ => false end) eqn:K.
  - destruct o; try discriminate K. cbn [store] in Hs. destruct v as [s|]; [|discriminate]. destruct (rd_f64 rd s) as [x|] eqn:R; [|discriminate]. injection Hs as <-.
    unfold SpecCli.means. cbn [a_tau a_avg a_beta a_mc a_mc_profile a_dyn_profile a_mc_full a_hist a_dynhist a_singletraj a_langevin a_magnus_hist a_config_desc a_n_steps_taus a_adiabatic a_adiab2 a_rot a_ext a_maglab a_steps a_fit a_fit_effective a_response a_two_point a_high_freq].
    parts; try other. clear - M14 R. unfold is_list in *. rewrite given_same. destruct (given On_steps ss) as [|u us].
    + subst. cbn. exists [x]. split; auto. repeat constructor. exists s. auto.
    + destruct M14 as (ys & F & ->). cbn. exists (ys ++ [x]). split; [|reflexivity]. change (u :: us ++ [Some s]) with ((u :: us) ++ [Some s]).
      apply Forall2_app; auto. repeat constructor. exists s. auto.
  - assert (G : given o ss = []) by (apply Hg; intros E; rewrite E in K; discriminate). clear Hg.
    destruct o; try discriminate K; clear K; cbn [store] in Hs; try discriminate Hs; (destruct v as [s|];
      [try (match type of Hs with context [match ?r s with _ => _ end] => destruct (r s) as [x|] eqn:R end; [|discriminate])|try discriminate]);
      injection Hs as <-;
      unfold SpecCli.means; cbn [a_tau a_avg a_beta a_mc a_mc_profile a_dyn_profile a_mc_full a_hist a_dynhist a_singletraj a_langevin a_magnus_hist a_config_desc a_n_steps_taus a_adiabatic a_adiab2 a_rot a_ext a_maglab a_steps a_fit a_fit_effective a_response a_two_point a_high_freq];
      parts; try other; unfold is_flag, is_one, is_maybe; rewrite given_same, G; cbn; auto; try (eexists _, _; split; [reflexivity|]; split; [eassumption|reflexivity]);
      try (eexists; split; [eassumption|reflexivity]).
Qed.
Lemma means_nil : means [] (no_args N).
Proof. unfold SpecCli.means. parts; reflexivity. Qed.

Lemma is_one_fun : forall X (r : string -> option X) o ss x y, is_one r o ss x -> is_one r o ss y -> x = y.
Proof.
  intros X r o ss x y. unfold is_one. destruct (given o ss) as [|v l]; [congruence|]. intros (s & p & -> & R & ->) (s' & p' & E & R' & ->). injection E as <-. congruence.
Qed.
Lemma is_maybe_fun : forall X (r : string -> option X) o ss x y, is_maybe r o ss x -> is_maybe r o ss y -> x = y.
Proof.
  intros X r o ss x y. unfold is_maybe. destruct (given o ss) as [|[v|] l]; [congruence| |congruence]. intros (p & R & ->) (p' & R' & ->). congruence.
Qed.
Lemma is_list_fun : forall X (r : string -> option X) o ss x y, is_list r o ss x -> is_list r o ss y -> x = y.
Proof.
  intros X r o ss x y. unfold is_list. destruct (given o ss) as [|v l]; [congruence|]. intros (ys & F & ->) (zs & G & ->). f_equal.
  revert zs G. induction F as [|a b u w (s & -> & R) F IH]; intros zs G; inversion G as [|a' b' u' w' (s' & E & R') G']; subst; [reflexivity|].
  f_equal; [congruence|apply IH; auto].
Qed.
Lemma is_flag_fun : forall o ss x y, is_flag o ss x -> is_flag o ss y -> x = y.
Proof. unfold is_flag. intros. congruence. Qed.
Lemma means_fun : forall ss a b, means ss a -> means ss b -> a = b.
Proof.
  intros ss a b Ha Hb. unfold SpecCli.means in *. destruct a, b. cbn in Ha, Hb.
  destruct Ha as (A1 & A2 & A3 & A4 & A5 & A6 & A7 & A8 & A9 & A10 & A11 & A12 & A13 & A14 & A15 & A16 & A17 & A18 & A19 & A20 & A21 & A22 & A23 & A24 & A25).
  destruct Hb as (B1 & B2 & B3 & B4 & B5 & B6 & B7 & B8 & B9 & B10 & B11 & B12 & B13 & B14 & B15 & B16 & B17 & B18 & B19 & B20 & B21 & B22 & B23 & B24 & B25).
  rewrite (is_one_fun _ _ _ _ _ _ A1 B1); rewrite (is_flag_fun _ _ _ _ A2 B2); rewrite (is_one_fun _ _ _ _ _ _ A3 B3); rewrite (is_flag_fun _ _ _ _ A4 B4); rewrite (is_flag_fun _ _ _ _ A5 B5); rewrite (is_flag_fun _ _ _ _ A6 B6); rewrite (is_flag_fun _ _ _ _ A7 B7); rewrite (is_maybe_fun _ _ _ _ _ _ A8 B8); rewrite (is_maybe_fun _ _ _ _ _ _ A9 B9); rewrite (is_maybe_fun _ _ _ _ _ _ A10 B10); rewrite (is_maybe_fun _ _ _ _ _ _ A11 B11); rewrite (is_maybe_fun _ _ _ _ _ _ A12 B12); rewrite (is_flag_fun _ _ _ _ A13 B13); rewrite (is_list_fun _ _ _ _ _ _ A14 B14); rewrite (is_one_fun _ _ _ _ _ _ A15 B15); rewrite (is_one_fun _ _ _ _ _ _ A16 B16); rewrite (is_one_fun _ _ _ _ _ _ A17 B17); rewrite (is_flag_fun _ _ _ _ A18 B18); rewrite (is_one_fun _ _ _ _ _ _ A19 B19); rewrite (is_one_fun _ _ _ _ _ _ A20 B20); rewrite (is_one_fun _ _ _ _ _ _ A21 B21); rewrite (is_one_fun _ _ _ _ _ _ A22 B22); rewrite (is_flag_fun _ _ _ _ A23 B23); rewrite (is_flag_fun _ _ _ _ A24 B24); rewrite (is_one_fun _ _ _ _ _ _ A25 B25).
  reflexivity.
Qed.

Definition counted (p : setting) : bool := match kind_of (fst p) with Many => false | _ => true end.
Lemma reacts_app : forall s1 s2 st, reacts N rd (s1 ++ s2) st = match reacts N rd s1 st with Parsed st => reacts N rd s2 st | Usage => Usage | Shown => Shown end.
Proof.
  induction s1 as [|[o v] s1 IH]; intros s2 st; [reflexivity|]. cbn. destruct (react N rd o v st); auto.
Qed.
Lemma seen_in : forall o l, seen o l = true <-> In o l.
Proof.
  intros o l. unfold seen. rewrite existsb_exists. split.
  - intros (x & Hx & E). apply opt_eqb_eq in E. subst. exact Hx.
  - intros H. exists o. split; auto. apply opt_eqb_refl.
Qed.
Lemma reacts_means : forall ss st, reacts N rd ss ([], no_args N) = Parsed st -> fst st = rev (map fst ss) /\ once ss /\ means ss (snd st).
Proof.
  induction ss as [|[o v] ss IH] using rev_ind; intros st H.
  - injection H as <-. split; [reflexivity|]. split; [constructor|apply means_nil].
  - rewrite reacts_app in H. destruct (reacts N rd ss ([], no_args N)) as [st0| |] eqn:R; try discriminate. cbn in H.
    destruct (react N rd o v st0) as [st1| |] eqn:Q; try discriminate. injection H as <-. destruct (IH st0 eq_refl) as (F & O & M).
    unfold react in Q. destruct (kind_of o) eqn:K.
    all: try discriminate.
    all: try (destruct (seen o (fst st0)) eqn:Sn; [discriminate|]).
    all: destruct (store N rd o v (snd st0)) as [a|] eqn:St; [|discriminate]; injection Q as <-; cbn [fst snd].
    all: split; [rewrite map_app, rev_app_distr, F; reflexivity|].
    all: assert (NI : kind_of o <> Many -> ~ In o (map fst ss)) by (intros Hk Hi; first [congruence|assert (E : seen o (fst st0) = true) by (apply seen_in; rewrite F, <- in_rev; exact Hi); congruence]).
    all: split; [|eapply means_snoc; [exact M|exact St|intros Hk; apply given_nil, NI, Hk]].
    all: unfold once in *; rewrite filter_app, map_app; cbn [filter]; cbn [fst]; rewrite K; cbn [map]; try (rewrite app_nil_r; exact O).
    all: try (apply (Permutation_NoDup (Permutation_cons_append _ _)); constructor; [|exact O]; intros Hi; apply NI; [congruence|]; apply in_map_iff in Hi; destruct Hi as (p & E & Hp); apply filter_In in Hp; apply in_map_iff; exists p; split; [exact E|apply Hp]).
Qed.

(** What can be read alone *)
Definition readable (p : setting) : Prop := exists a', store N rd (fst p) (snd p) (no_args N) = Some a'.
Lemma store_any : forall o v a b, (store N rd o v a = None <-> store N rd o v b = None).
Proof.
  intros o v a b. destruct a, b. destruct o; cbn [store no_args]; try (split; discriminate); try tauto; destruct v as [s|]; try tauto; try (split; discriminate);
    match goal with |- context [match ?r s with _ => _ end] => destruct (r s) end; split; (discriminate || auto).
Qed.
Lemma once_given : forall o v ss, once ss -> kind_of o <> Many -> In (o, v) ss -> given o ss = [v].
Proof.
  intros o v ss O K H. unfold once in O. unfold given. induction ss as [|[o' v'] ss IH]; [destruct H|]. cbn [filter fst] in *.
  destruct H as [H|H].
  - injection H as -> ->. rewrite opt_eqb_refl. cbn [map snd]. f_equal. apply given_nil. intros Hi. apply in_map_iff in Hi. destruct Hi as ([o2 v2] & E & Hp). cbn in E. subst o2.
    destruct (kind_of o) eqn:Ko; try congruence; cbn in O; inversion O as [|x l Hx Hl]; subst; apply Hx; apply in_map_iff; exists (o, v2); (split; [reflexivity|]);
      apply filter_In; (split; [exact Hp|cbn; rewrite Ko; reflexivity]).
  - destruct (opt_eqb o o') eqn:E.
    + apply opt_eqb_eq in E. subst o'. exfalso. destruct (kind_of o) eqn:Ko; try congruence; cbn in O; inversion O as [|x l Hx Hl]; subst; apply Hx; apply in_map_iff;
        exists (o, v); (split; [reflexivity|]); apply filter_In; (split; [exact H|cbn; rewrite Ko; reflexivity]).
    + apply IH; auto. destruct (kind_of o'); auto; inversion O; auto.
Qed.
Lemma means_readable : forall ss a, once ss -> means ss a -> Forall (fun p => kind_of (fst p) <> Info) ss -> Forall readable ss.
Proof.
  intros ss a O M I. apply Forall_forall. intros [o v] Hi. rewrite Forall_forall in I. specialize (I _ Hi). cbn [fst] in I. unfold readable. cbn [fst snd].
  unfold SpecCli.means in M. destruct M as (M1 & M2 & M3 & M4 & M5 & M6 & M7 & M8 & M9 & M10 & M11 & M12 & M13 & M14 & M15 & M16 & M17 & M18 & M19 & M20 & M21 & M22 & M23 & M24 & M25).
  destruct (match kind_of o with Many => true | _ => false end) eqn:K.
  - destruct o; try discriminate K. clear - M14 Hi. apply given_in in Hi. unfold is_list in M14. destruct (given On_steps ss) as [|u us]; [destruct Hi|].
    destruct M14 as (ys & F & _). clear - F Hi. induction F as [|x y l l' (s & -> & R) F IH]; [destruct Hi|]. destruct Hi as [<-|Hi]; [|auto].
    cbn [store no_args]. rewrite R. eexists. reflexivity.
  - assert (G : given o ss = [v]) by (apply once_given; auto; intros E; rewrite E in K; discriminate). clear Hi.
    destruct o; try discriminate K; clear K; cbn in I; try congruence; unfold is_one, is_maybe in *;
      match goal with H : match given ?q ss with _ => _ end |- context [store N rd ?q] => rewrite G in H; cbn [store no_args] | |- _ => cbn [store no_args] end;
      try (eexists; reflexivity);
      try (match goal with H : exists s y, v = Some s /\ _ |- _ => destruct H as (s & y & -> & R & _); rewrite R; eexists; reflexivity end);
      (destruct v as [s|]; [match goal with H : exists y, _ s = Some y /\ _ |- _ => destruct H as (y & R & _); rewrite R; eexists; reflexivity end|eexists; reflexivity]).
Qed.
Lemma readable_reacts : forall ss, once ss -> Forall (fun p => kind_of (fst p) <> Info) ss -> Forall readable ss -> exists st, reacts N rd ss ([], no_args N) = Parsed st.
Proof.
  induction ss as [|[o v] ss IH] using rev_ind; intros O I R; [eexists; reflexivity|].
  apply Forall_app in I. apply Forall_app in R. destruct I as [I I1], R as [R R1]. inversion I1 as [|? ? Ko _]; subst. inversion R1 as [|? ? Ro _]; subst. cbn [fst] in Ko.
  unfold once in O. rewrite filter_app, map_app in O.
  assert (O' : once ss) by exact (nodup_left _ _ _ O).
  destruct (IH O' I R) as [st Q]. rewrite reacts_app, Q. cbn [reacts]. destruct (reacts_means _ _ Q) as (F & _ & _).
  assert (X : exists st1, react N rd o v st = Parsed st1).
  { unfold react. destruct Ro as [a' E]. cbn [fst snd] in E.
    assert (E' : store N rd o v (snd st) <> None) by (intros Z; apply (store_any o v (snd st) (no_args N)) in Z; congruence).
    assert (NI : kind_of o <> Many -> seen o (fst st) = false).
    { intros Hk. destruct (seen o (fst st)) eqn:Sn; [|reflexivity]. exfalso. apply seen_in in Sn. rewrite F, <- in_rev in Sn. apply in_map_iff in Sn. destruct Sn as (p & Ep & Hp).
      cbn [filter fst] in O. assert (Hc : match kind_of o with Many => false | _ => true end = true) by (destruct (kind_of o); congruence). rewrite Hc in O. cbn [map fst] in O.
      apply NoDup_remove_2 in O. rewrite app_nil_r in O. apply O. apply in_map_iff. exists p. split; [exact Ep|]. apply filter_In. split; [exact Hp|]. rewrite Ep. exact Hc. }
    destruct (store N rd o v (snd st)) as [a|]; [|congruence]. destruct (kind_of o) eqn:K; try congruence; try rewrite NI by discriminate; eexists; reflexivity. }
  destruct X as [st1 X]. rewrite X. eexists. reflexivity.
Qed.

(** The command lines that are accepted, and what they are taken for *)
Lemma parse_grammar : forall l a, parse N rd l = Parsed a <-> exists ss, reads l ss /\ once ss /\ means ss a.
Proof.
  intros l a. rewrite parse_says. split.
  - intros (ss & Q & st & R & <-). exists ss. destruct (reacts_means _ _ R) as (_ & O & M). auto.
  - intros (ss & Q & O & M). exists ss. split; auto. pose proof (proj1 reads_info _ _ Q) as I.
    destruct (readable_reacts ss O I (means_readable ss a O M I)) as [st R]. exists st. split; auto.
    destruct (reacts_means _ _ R) as (_ & _ & M'). exact (means_fun _ _ _ M' M).
Qed.
End P.
