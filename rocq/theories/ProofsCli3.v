(** Consequences for command lines and for the program (C82). *)
From Coq Require Import ZArith List Bool Ascii String Arith Lia Permutation.
From Verif Require Import Num Monad Config Files Runs Main SpecMain Cli SpecCli ProofsCli ProofsCli2 ProofsMain.
Import ListNotations.
Local Open Scope string_scope.
Local Open Scope list_scope.

(** ** One reading *)
Lemma short_inj : forall o o' c, short_of o = Some c -> short_of o' = Some c -> o = o'.
Proof. intros o o' c H H'. apply find_short_spec in H. apply find_short_spec in H'. congruence. Qed.
Lemma long_inj : forall o o' n, long_of o = Some n -> long_of o' = Some n -> o = o'.
Proof. intros o o' c H H'. apply find_long_spec in H. apply find_long_spec in H'. congruence. Qed.
Lemma short_plain : forall o c, short_of o = Some c -> c <> "-"%char /\ c <> "="%char.
Proof. intros o c H. destruct o; cbn in H; try discriminate; injection H as <-; split; discriminate. Qed.
Lemma letters_first : forall c s l ss, letters (String c s) l ss -> exists o, short_of o = Some c.
Proof. intros c s l ss H. inversion H; subst; eauto. Qed.
Lemma takes_flag : forall o, takes o -> kind_of o = Flag -> False.
Proof. intros o [H|[H|H]] K; congruence. Qed.
Lemma equals_name : forall o o' n n' v, long_of o = Some n -> long_of o' = Some n' -> n = (n' ++ "=" ++ v)%string -> False.
Proof. intros o o' n n' v H H' E. pose proof (proj1 (split_name o n H)) as A. rewrite E, (proj1 (proj2 (split_name o' n' H'))) in A. congruence. Qed.
Lemma equals_inj : forall o o' n n' v v', long_of o = Some n -> long_of o' = Some n' -> (n ++ "=" ++ v)%string = (n' ++ "=" ++ v')%string -> n = n' /\ v = v'.
Proof.
  intros o o' n n' v v' H H' E. pose proof (proj1 (proj2 (split_name o n H)) v) as A. rewrite E, (proj1 (proj2 (split_name o' n' H'))) in A.
  injection A as -> ->. auto.
Qed.
Ltac fin :=
  try (exfalso; solve [eauto]);
  try match goal with E : (?n ++ String "=" _)%string = "" |- _ => exfalso; destruct n; discriminate end;
  try match goal with E : "" = (?n ++ String "=" _)%string |- _ => exfalso; destruct n; discriminate end;
  try match goal with L : long_of ?o = Some (?n ++ String "=" ?v)%string, L2 : long_of ?o2 = Some ?n |- _ => exfalso; exact (equals_name o o2 _ n v L L2 eq_refl) end;
  try match goal with E : (?n ++ String "=" ?v)%string = (?n2 ++ String "=" ?v2)%string, L : long_of ?o = Some ?n, L2 : long_of ?o2 = Some ?n2 |- _ =>
    destruct (equals_inj o o2 n n2 v v2 L L2 E); subst end;
  try match goal with L : long_of ?o = Some ?n, L2 : long_of ?o2 = Some ?n |- _ => pose proof (long_inj o o2 n L L2); subst end;
  try (exfalso; eapply takes_flag; eassumption);
  try (f_equal; auto; fail); auto.
Lemma one_reading_all :
  (forall l ss, reads l ss -> forall ss', reads l ss' -> ss = ss') /\
  (forall s l ss, letters s l ss -> forall ss', letters s l ss' -> ss = ss') /\
  (forall o l ss, after o l ss -> forall ss', after o l ss' -> ss = ss').
Proof.
  assert (D : forall l ss n, letters (String "-" n) l ss -> False).
  { intros l ss n H. apply letters_first in H. destruct H as [o H]. apply short_plain in H. tauto. }
  assert (E0 : forall o, long_of o = Some "" -> False) by (intros []; discriminate).
  apply (grammar_ind (fun l ss _ => forall ss', reads l ss' -> ss = ss') (fun s l ss _ => forall ss', letters s l ss' -> ss = ss')
           (fun o l ss _ => forall ss', after o l ss' -> ss = ss')).
  - intros ss' H. inversion H. reflexivity.
  - intros ss' H. inversion H as [|H1|o n l ss K L R|o n v l ss K L R|o n l ss K L R|c s l ss R]; subst; auto; exfalso; eauto.
    match goal with E : (?n ++ _)%string = "" |- _ => destruct n; discriminate end.
  - intros o n l ss K L R IH ss' H. inversion H as [|H1|o2 n2 l2 ss2 K2 L2 R2 X|o2 n2 v2 l2 ss2 K2 L2 R2 X|o2 n2 l2 ss2 K2 L2 R2 X|c2 s2 l2 ss2 R2 X]; subst; fin.
  - intros o n v l ss K L R IH ss' H. inversion H as [|H1|o2 n2 l2 ss2 K2 L2 R2 X|o2 n2 v2 l2 ss2 K2 L2 R2 X|o2 n2 l2 ss2 K2 L2 R2 X|c2 s2 l2 ss2 R2 X]; subst; fin.
  - intros o n l ss K L R IH ss' H. inversion H as [|H1|o2 n2 l2 ss2 K2 L2 R2 X|o2 n2 v2 l2 ss2 K2 L2 R2 X|o2 n2 l2 ss2 K2 L2 R2 X|c2 s2 l2 ss2 R2 X]; subst; fin.
  - intros c s l ss R IH ss' H. inversion H as [|H1|o2 n2 l2 ss2 K2 L2 R2 X|o2 n2 v2 l2 ss2 K2 L2 R2 X|o2 n2 l2 ss2 K2 L2 R2 X|c2 s2 l2 ss2 R2 X]; subst; try (exfalso; eauto; fail); auto.
  - intros l ss R IH ss' H. inversion H; subst; auto.
  - intros o c s l ss K S R IH ss' H. inversion H as [|o2 c2 s2 l2 ss2 K2 S2 R2|o2 c2 d2 s2 l2 ss2 K2 S2 D2 R2|o2 c2 s2 l2 ss2 K2 S2 R2|o2 c2 l2 ss2 K2 S2 R2]; subst;
      pose proof (short_inj _ _ _ S S2); subst; try (exfalso; eapply takes_flag; eauto; fail). f_equal. auto.
  - intros o c d s l ss K S Q R IH ss' H. inversion H as [|o2 c2 s2 l2 ss2 K2 S2 R2|o2 c2 d2 s2 l2 ss2 K2 S2 D2 R2|o2 c2 s2 l2 ss2 K2 S2 R2|o2 c2 l2 ss2 K2 S2 R2]; subst;
      pose proof (short_inj _ _ _ S S2); subst; try (exfalso; eapply takes_flag; eauto; fail); try congruence. f_equal. auto.
  - intros o c s l ss K S R IH ss' H. inversion H as [|o2 c2 s2 l2 ss2 K2 S2 R2|o2 c2 d2 s2 l2 ss2 K2 S2 D2 R2|o2 c2 s2 l2 ss2 K2 S2 R2|o2 c2 l2 ss2 K2 S2 R2]; subst;
      pose proof (short_inj _ _ _ S S2); subst; try (exfalso; eapply takes_flag; eauto; fail); try congruence. f_equal. auto.
  - intros o c l ss K S R IH ss' H. inversion H as [|o2 c2 s2 l2 ss2 K2 S2 R2|o2 c2 d2 s2 l2 ss2 K2 S2 D2 R2|o2 c2 s2 l2 ss2 K2 S2 R2|o2 c2 l2 ss2 K2 S2 R2]; subst;
      pose proof (short_inj _ _ _ S S2); subst; try (exfalso; eapply takes_flag; eauto; fail); auto.
  - intros o v l ss Q R IH ss' H. inversion H as [o2 v2 l2 ss2 Q2 R2|o2 l2 ss2 K2 Q2 R2]; subst; [f_equal; auto|].
    exfalso. pose proof (Q2 _ _ eq_refl) as Dv. pose proof (maybe_hyphen _ K2). destruct Q; [congruence|tauto].
  - intros o l ss K Q R IH ss' H. inversion H as [o2 v2 l2 ss2 Q2 R2|o2 l2 ss2 K2 Q2 R2]; subst; [|f_equal; auto].
    exfalso. pose proof (Q _ _ eq_refl) as Dv. pose proof (maybe_hyphen _ K). destruct Q2; [congruence|tauto].
Qed.
Lemma one_reading : forall l s1 s2, reads l s1 -> reads l s2 -> s1 = s2.
Proof. intros l s1 s2 H1 H2. exact (proj1 one_reading_all l s1 H1 s2 H2). Qed.

(** ** Writing settings *)
Lemma app_empty : forall s, (s ++ "")%string = s.
Proof. induction s as [|c s IH]; [reflexivity|]. cbn. rewrite IH. reflexivity. Qed.
Lemma fits_reads : forall ss, Forall fits ss -> reads (map written ss) ss.
Proof.
  assert (Hd : forall p, fits p -> dashed (written p)).
  { intros [o [v|]] H; unfold written; destruct o; cbn; eexists _, _; reflexivity. }
  induction ss as [|[o v] ss IH]; intros H; [constructor|]. inversion H as [|? ? F Fs]; subst. specialize (IH Fs). cbn [map].
  assert (G : forall t r, map written ss = t :: r -> dashed t).
  { intros t r E. destruct ss as [|p ss]; [discriminate|]. injection E as <- _. apply Hd. inversion Fs; auto. }
  destruct v as [v|]; cbn in F.
  - unfold written. cbn [fst snd]. destruct (long_of o) as [n|] eqn:L; [exact (r_equals o n v _ _ F L IH)|].
    destruct o; cbn in L; try discriminate; cbn; apply r_letters; [apply (l_equals Ofit)|apply (l_equals Ofit_effective)]; auto.
  - unfold written. cbn [fst snd]. destruct (long_of o) as [n|] eqn:L.
    all: rewrite app_empty.
    + destruct F as [F|F]; [apply (r_flag o n); auto|]. apply (r_long o n); [right; right; auto|auto|]. apply a_bare; auto.
    + destruct o; cbn in L; try discriminate; cbn in F; destruct F; discriminate.
Qed.

Section P.
Context (N : NumOps) (rd : readers N).
Notation T := (num N).
Notation parse := (parse N rd).

(** ** The order of settings *)
Lemma perm_once : forall s1 s2, Permutation s1 s2 -> once s1 -> once s2.
Proof.
  intros s1 s2 P. unfold once. apply Permutation_NoDup. apply Permutation_map. clear - P.
  induction P as [|x a b P IH|x y a|a b c P1 IH1 P2 IH2]; cbn [filter]; auto.
  - destruct (match kind_of (fst x) with Many => false | _ => true end); auto.
  - destruct (match kind_of (fst x) with Many => false | _ => true end), (match kind_of (fst y) with Many => false | _ => true end); auto. constructor.
  - eapply Permutation_trans; eauto.
Qed.
Lemma perm_given : forall s1 s2 o, Permutation s1 s2 -> once s1 -> kind_of o <> Many -> given o s1 = given o s2.
Proof.
  intros s1 s2 o P O K. pose proof (perm_once _ _ P O) as O2.
  destruct (given o s1) as [|v l] eqn:E.
  - destruct (given o s2) as [|v l] eqn:E2; [reflexivity|]. exfalso. assert (H : In (o, v) s2) by (apply given_in; rewrite E2; left; auto).
    apply (Permutation_in _ (Permutation_sym P)) in H. apply given_in in H. rewrite E in H. destruct H.
  - assert (H : In (o, v) s1) by (apply given_in; rewrite E; left; auto). rewrite <- E, (once_given _ _ _ O K H).
    apply (Permutation_in _ P) in H. rewrite (once_given _ _ _ O2 K H). reflexivity.
Qed.
Lemma perm_means : forall s1 s2 a, Permutation s1 s2 -> once s1 -> given On_steps s1 = given On_steps s2 -> means N rd s1 a -> means N rd s2 a.
Proof.
  intros s1 s2 a P O G M. assert (Q : forall o, given o s1 = given o s2).
  { intros o. destruct (match kind_of o with Many => true | _ => false end) eqn:K.
    - destruct o; try discriminate K. exact G.
    - apply perm_given; auto. intros E. rewrite E in K. discriminate. }
  unfold means, is_flag, is_one, is_maybe, is_list in *. rewrite <- !Q. exact M.
Qed.
Lemma order : forall l1 l2 s1 s2 a, reads l1 s1 -> reads l2 s2 -> Permutation s1 s2 -> given On_steps s1 = given On_steps s2 ->
  parse l1 = Parsed a -> parse l2 = Parsed a.
Proof.
  intros l1 l2 s1 s2 a R1 R2 P G H. apply parse_grammar in H. destruct H as (ss & R & O & M). pose proof (one_reading _ _ _ R R1). subst ss.
  apply parse_grammar. exists s2. split; auto. split; [exact (perm_once _ _ P O)|exact (perm_means _ _ _ P O G M)].
Qed.

(** ** Values that begin with a hyphen *)
Lemma takes_kind : forall o (A : Type) (x y : A), takes o -> match kind_of o with Flag | Info => x | _ => y end = y.
Proof. intros o A x y [H|[H|H]]; rewrite H; reflexivity. Qed.
Lemma long_wait : forall o n l st, takes o -> long_of o = Some n -> words N rd (("--" ++ n)%string :: l) None st = words N rd l (Some o) st.
Proof.
  intros o n l st K L. rewrite long_words by (eapply split_name; eauto). unfold go_long, long_opt. rewrite (proj1 (split_name o n L)), (proj2 (find_long_spec n o) L).
  destruct K as [K|[K|K]]; rewrite K; reflexivity.
Qed.
Lemma long_value : forall o n v l st, takes o -> long_of o = Some n ->
  words N rd (("--" ++ n ++ "=" ++ v)%string :: l) None st = match react N rd o (Some v) st with Parsed st => words N rd l None st | Usage => Usage | Shown => Shown end.
Proof.
  intros o n v l st K L. rewrite long_words by (destruct n; discriminate). unfold go_long, long_opt. rewrite (proj1 (proj2 (split_name o n L))), (proj2 (find_long_spec n o) L).
  destruct K as [K|[K|K]]; rewrite K; destruct (react N rd o (Some v) st); reflexivity.
Qed.
Lemma short_wait : forall o c l st, takes o -> short_of o = Some c -> words N rd (String "-" (String c "") :: l) None st = words N rd l (Some o) st.
Proof.
  intros o c l st K S. pose proof (proj2 (find_short_spec c o) S) as F. rewrite letters_words by congruence. unfold go_letters. cbn [cluster]. rewrite F.
  destruct K as [K|[K|K]]; rewrite K; reflexivity.
Qed.
Lemma short_value : forall o c v l st, takes o -> short_of o = Some c ->
  words N rd (String "-" (String c (String "=" v)) :: l) None st = match react N rd o (Some v) st with Parsed st => words N rd l None st | Usage => Usage | Shown => Shown end.
Proof.
  intros o c v l st K S. pose proof (proj2 (find_short_spec c o) S) as F. rewrite letters_words by congruence. unfold go_letters. cbn [cluster]. rewrite F.
  rewrite Ascii.eqb_refl. destruct K as [K|[K|K]]; rewrite K; destruct (react N rd o (Some v) st); reflexivity.
Qed.
Lemma short_joined : forall o c d v l st, takes o -> short_of o = Some c -> d <> "="%char ->
  words N rd (String "-" (String c (String d v)) :: l) None st = match react N rd o (Some (String d v)) st with Parsed st => words N rd l None st | Usage => Usage | Shown => Shown end.
Proof.
  intros o c d v l st K S D. pose proof (proj2 (find_short_spec c o) S) as F. rewrite letters_words by congruence. unfold go_letters. cbn [cluster]. rewrite F.
  apply Ascii.eqb_neq in D. destruct K as [K|[K|K]]; rewrite K, D; destruct (react N rd o (Some (String d v)) st); reflexivity.
Qed.
Lemma refused : forall o t st, kind_of o = One \/ kind_of o = Many -> hyphen_ok o = false -> dashed t -> forall l, words N rd (t :: l) (Some o) st = Usage.
Proof.
  intros o t st K Ho D l. rewrite bare_dashed by auto. unfold react.
  assert (S : store N rd o None (snd st) = None) by (destruct (snd st); destruct o; cbn in K; destruct K as [K|K]; try discriminate K; reflexivity).
  rewrite S. destruct K as [K|K]; rewrite K; [destruct (seen o (fst st)); reflexivity|reflexivity].
Qed.
Lemma negative_long : forall o n t l, kind_of o = One \/ kind_of o = Many -> hyphen_ok o = false -> long_of o = Some n -> dashed t -> parse (("--" ++ n)%string :: t :: l) = Usage.
Proof. intros o n t l K Ho L D. unfold parse. rewrite (long_wait o) by (auto; unfold takes; tauto). apply refused; auto. Qed.
Lemma negative_short : forall o c t l, kind_of o = One \/ kind_of o = Many -> hyphen_ok o = false -> short_of o = Some c -> dashed t -> parse (String "-" (String c "") :: t :: l) = Usage.
Proof. intros o c t l K Ho L D. unfold parse. rewrite (short_wait o) by (auto; unfold takes; tauto). apply refused; auto. Qed.
Lemma hyphens_kept : forall t x, rd_f64 rd t = Some x ->
  (forall w, In w ["-r"; "--rot-frame"] -> parse [w; t] = Parsed (mkArgs None false None false false false false None None None None None false None None None (Some x) false None None None None false false None)) /\
  parse ["-f"; t] = Parsed (mkArgs None false None false false false false None None None None None false None None None None false None None (Some x) None false false None) /\
  parse ["-F"; t] = Parsed (mkArgs None false None false false false false None None None None None false None None None None false None None None (Some x) false false None) /\
  (forall w, In w ["-H"; "--high-freq"] -> parse [w; t] = Parsed (mkArgs None false None false false false false None None None None None false None None None None false None None None None false false (Some x))).
Proof.
  intros t x H. repeat split.
  - intros w [<-|[<-|[]]]; cbn; rewrite H; reflexivity.
  - cbn; rewrite H; reflexivity.
  - cbn; rewrite H; reflexivity.
  - intros w [<-|[<-|[]]]; cbn; rewrite H; reflexivity.
Qed.
Lemma hyphens_refused : forall t l w, dashed t ->
  In w ["-t"; "--tau"; "-b"; "--beta"; "-A"; "--adiabatic"; "-D"; "--adiab_full"; "-E"; "--magnus-fit"; "-n"; "--n-steps"; "--steps"] ->
  parse (w :: t :: l) = Usage.
Proof.
  intros t l w Hd Hw. cbn [In] in Hw.
  repeat (destruct Hw as [<-|Hw]); [..|elim Hw];
  first [apply (negative_short Otau "t"%char) | apply (negative_long Otau "tau") | apply (negative_short Obeta "b"%char) | apply (negative_long Obeta "beta")
    | apply (negative_short Oadiabatic "A"%char) | apply (negative_long Oadiabatic "adiabatic") | apply (negative_short Oadiab2 "D"%char) | apply (negative_long Oadiab2 "adiab_full")
    | apply (negative_short Omaglab "E"%char) | apply (negative_long Omaglab "magnus-fit") | apply (negative_short On_steps "n"%char) | apply (negative_long On_steps "n-steps")
    | apply (negative_long Osteps "steps")]; auto.
Qed.
Lemma forms_long : forall o n v l, takes o -> long_of o = Some n -> hyphen_ok o = true \/ ~ dashed v -> parse (("--" ++ n)%string :: v :: l) = parse (("--" ++ n ++ "=" ++ v)%string :: l).
Proof. intros o n v l K L H. unfold parse. rewrite (long_wait o), (long_value o), word_value by auto. reflexivity. Qed.
Lemma forms_short : forall o c v l, takes o -> short_of o = Some c -> hyphen_ok o = true \/ ~ dashed v -> parse (String "-" (String c "") :: v :: l) = parse (String "-" (String c (String "=" v)) :: l).
Proof. intros o c v l K L H. unfold parse. rewrite (short_wait o), (short_value o), word_value by auto. reflexivity. Qed.
Lemma forms_both : forall o n c v l, takes o -> long_of o = Some n -> short_of o = Some c -> parse (("--" ++ n ++ "=" ++ v)%string :: l) = parse (String "-" (String c (String "=" v)) :: l).
Proof. intros o n c v l K L H. unfold parse. rewrite (long_value o), (short_value o) by auto. reflexivity. Qed.
Lemma forms_joined : forall o c d v l, takes o -> short_of o = Some c -> d <> "="%char ->
  parse (String "-" (String c (String d v)) :: l) = parse (String "-" (String c (String "=" (String d v))) :: l).
Proof. intros o c d v l K L H. unfold parse. rewrite (short_joined o), (short_value o) by auto. reflexivity. Qed.

(** ** The list of --n-steps *)
Lemma list_read : forall vs ts, Forall2 (fun v t => rd_f64 rd v = Some t) vs ts -> Forall (fun v => ~ dashed v) vs -> vs <> [] ->
  parse (flat_map (fun v => ["--n-steps"; v]) vs) =
  Parsed (mkArgs None false None false false false false None None None None None false (Some ts) None None None false None None None None false false None).
Proof.
  intros vs ts F D Hn. apply parse_grammar. exists (map (fun v => (On_steps, Some v)) vs).
  assert (G : forall o, given o (map (fun v => (On_steps, Some v)) vs) = if opt_eqb o On_steps then map (fun v => Some v) vs else []).
  { clear. intros o. unfold given. induction vs as [|v vs IH]; cbn; [destruct (opt_eqb o On_steps); reflexivity|]. destruct (opt_eqb o On_steps); cbn; rewrite IH; reflexivity. }
  split; [|split].
  - clear - D. induction D as [|v vs Hv D IH]; [constructor|]. apply (r_long On_steps "n-steps" (v :: flat_map (fun v => ["--n-steps"; v]) vs)); [right; left; reflexivity|reflexivity|]. apply a_word; auto.
  - unfold once. replace (filter _ _) with (@nil setting); [constructor|]. clear. induction vs; auto.
  - unfold means, is_flag, is_one, is_maybe, is_list. rewrite !G. cbn [opt_eqb].
    repeat match goal with |- _ /\ _ => split end; try reflexivity. destruct vs as [|v vs]; [congruence|]. cbn [map]. exists ts. split; [|reflexivity].
    change (Some v :: map (fun v => Some v) vs) with (map (fun v => Some v) (v :: vs)). clear - F. induction F; cbn; constructor; eauto.
Qed.
Lemma list_comma : forall v l, rd_f64 rd v = None -> ~ dashed v -> parse ("--n-steps" :: v :: l) = Usage /\ parse ("-n" :: v :: l) = Usage /\ parse (("--n-steps=" ++ v)%string :: l) = Usage.
Proof.
  intros v l R D. assert (X : forall st, react N rd On_steps (Some v) st = Usage) by (intros [sn a]; destruct a; cbn; rewrite R; reflexivity).
  unfold parse. split; [|split].
  - rewrite (long_wait On_steps "n-steps") by (unfold takes; auto). rewrite word_value by auto. rewrite X. reflexivity.
  - rewrite (short_wait On_steps "n") by (unfold takes; auto). rewrite word_value by auto. rewrite X. reflexivity.
  - change ("--n-steps=" ++ v)%string with ("--" ++ "n-steps" ++ "=" ++ v)%string. rewrite (long_value On_steps "n-steps") by (unfold takes; auto). rewrite X. reflexivity.
Qed.

(** ** The modes that run *)
Lemma asked_selected : forall ss a, means N rd ss a -> selected a = asked ss.
Proof.
  intros ss a M. unfold means in M. destruct M as (M1 & M2 & M3 & M4 & M5 & M6 & M7 & M8 & M9 & M10 & M11 & M12 & M13 & M14 & M15 & M16 & M17 & M18 & M19 & M20 & M21 & M22 & M23 & M24 & M25).
  assert (B : forall o m x, mode_of o = Some m -> is_flag o ss x -> onb m x = match given o ss, mode_of o with _ :: _, Some m => [m] | _, _ => [] end)
    by (intros o m x E ->; rewrite E; destruct (given o ss); reflexivity).
  assert (O1 : forall X (r : string -> option X) o m x, mode_of o = Some m -> is_one r o ss x -> on m x = match given o ss, mode_of o with _ :: _, Some m => [m] | _, _ => [] end)
    by (intros X r o m x E H; unfold is_one in H; rewrite E; destruct (given o ss); [subst; reflexivity|destruct H as (s & y & _ & _ & ->); reflexivity]).
  assert (Om : forall X (r : string -> option X) o m x, mode_of o = Some m -> is_maybe r o ss x -> on m x = match given o ss, mode_of o with _ :: _, Some m => [m] | _, _ => [] end)
    by (intros X r o m x E H; unfold is_maybe in H; rewrite E; destruct (given o ss) as [|[s|] q]; [subst; reflexivity|destruct H as (y & _ & ->); reflexivity|subst; reflexivity]).
  assert (Ol : forall X (r : string -> option X) o m x, mode_of o = Some m -> is_list r o ss x -> on m x = match given o ss, mode_of o with _ :: _, Some m => [m] | _, _ => [] end)
    by (intros X r o m x E H; unfold is_list in H; rewrite E; destruct (given o ss) as [|u q]; [subst; reflexivity|destruct H as (y & _ & ->); reflexivity]).
  unfold selected, asked, program_order. cbn [flat_map]. rewrite app_nil_r.
  repeat (apply (f_equal2 (@app mode)); [first [eapply B; [reflexivity|eassumption]|eapply O1; [reflexivity|eassumption]|eapply Om; [reflexivity|eassumption]|eapply Ol; [reflexivity|eassumption]]|]).
  eapply B; [reflexivity|eassumption].
Qed.
Lemma program_modes : forall fuel w l f st ss, reads l ss -> program N rd fuel w l f = Parsed (Ok st) ->
  map fst (s_trace N st) = match asked ss with [] => [Mdefault] | l => l end.
Proof.
  intros fuel w l f st ss R H. unfold program in H. destruct (Cli.parse N rd l) as [a| |] eqn:P; try discriminate. injection H as H.
  apply parse_grammar in P. destruct P as (s2 & R2 & _ & M). pose proof (one_reading _ _ _ R R2). subst s2.
  rewrite (main_trace N fuel w a f st H), (asked_selected _ _ M). reflexivity.
Qed.
End P.

Lemma readme_text : map help_text all_opts = readme.
Proof. reflexivity. Qed.
