(** The parser of the command line and the grammar of SpecCli describe the same thing (C82). *)
From Coq Require Import ZArith List Bool Ascii String Arith Lia Permutation.
From Verif Require Import Num Monad Config Main Cli SpecCli.
Import ListNotations.
Local Open Scope string_scope.
Local Open Scope list_scope.

Lemma opt_eqb_eq : forall a b, opt_eqb a b = true <-> a = b.
Proof. intros a b. split; [destruct a, b; cbn; congruence|intros ->; destruct b; reflexivity]. Qed.
Lemma opt_eqb_refl : forall a, opt_eqb a a = true.
Proof. intros a. apply opt_eqb_eq. reflexivity. Qed.
Lemma find_short_spec : forall c o, find_short c = Some o <-> short_of o = Some c.
Proof.
  intros c o. split.
  - intros H. apply find_some in H. destruct H as [_ H]. destruct (short_of o) as [d|]; [|discriminate]. apply Ascii.eqb_eq in H. congruence.
  - intros H. destruct o; cbn in H; try discriminate; injection H as <-; reflexivity.
Qed.
Lemma find_long_spec : forall s o, find_long s = Some o <-> long_of o = Some s.
Proof.
  intros c o. split.
  - intros H. apply find_some in H. destruct H as [_ H]. destruct (long_of o) as [d|]; [|discriminate]. apply String.eqb_eq in H. congruence.
  - intros H. destruct o; cbn in H; try discriminate; injection H as <-; reflexivity.
Qed.
Lemma split_name : forall o n, long_of o = Some n -> split_eq n = (n, None) /\ (forall v, split_eq (n ++ "=" ++ v) = (n, Some v)) /\ n <> "".
Proof. intros o n H. destruct o; cbn in H; try discriminate; injection H as <-; (split; [reflexivity|]; split; [reflexivity|discriminate]). Qed.
Lemma split_back : forall s n v, split_eq s = (n, v) -> s = match v with Some v => (n ++ "=" ++ v)%string | None => n end.
Proof.
  induction s as [|c s IH]; cbn; intros n v H.
  - injection H as <- <-. reflexivity.
  - destruct (Ascii.eqb c "=") eqn:E.
    + injection H as <- <-. apply Ascii.eqb_eq in E. subst c. reflexivity.
    + destruct (split_eq s) as [n' v'] eqn:S. injection H as <- <-. rewrite (IH _ _ eq_refl). destruct v'; reflexivity.
Qed.

Section P.
Context (N : NumOps) (rd : readers N).
Notation T := (num N).
Notation react := (react N rd).
Notation words := (words N rd).
Notation cluster := (cluster N rd).
Notation long_opt := (long_opt N rd).

(** All settings one after the other *)
Fixpoint reacts (ss : list setting) (st : pst N) : outcome (pst N) :=
  match ss with
  | [] => Parsed st
  | (o, v) :: ss => match react o v st with Parsed st => reacts ss st | Usage => Usage | Shown => Shown end
  end.
Definition says (ss : list setting) (st : pst N) (a : args T) : Prop := exists st', reacts ss st = Parsed st' /\ snd st' = a.
Lemma says_cons : forall o v ss st a, says ((o, v) :: ss) st a <-> exists st1, react o v st = Parsed st1 /\ says ss st1 a.
Proof.
  intros o v ss st a. unfold says. cbn [reacts]. split.
  - intros (st' & H & E). destruct (react o v st) as [st1| |] eqn:R; try discriminate. exists st1. split; auto. exists st'. auto.
  - intros (st1 & R & st' & H & E). rewrite R. exists st'. auto.
Qed.

(** ** From the grammar to the parser *)
Scheme reads_ind' := Induction for reads Sort Prop with letters_ind' := Induction for letters Sort Prop with after_ind' := Induction for after Sort Prop.
Combined Scheme grammar_ind from reads_ind', letters_ind', after_ind'.

Definition go_letters (s : string) (l : list string) (st : pst N) : outcome (args T) :=
  match cluster s st with Parsed (st, w) => words l w st | Usage => Usage | Shown => Shown end.
Lemma letters_words : forall c s l st, find_short c <> None -> words (String "-" (String c s) :: l) None st = go_letters (String c s) l st.
Proof.
  intros c s l st H. assert (Hc : c <> "-"%char) by (intros ->; apply H; reflexivity). unfold go_letters. cbn [Cli.words].
  destruct c as [[] [] [] [] [] [] [] []]; try reflexivity; exfalso; apply Hc; reflexivity.
Qed.
Definition go_long (s : string) (l : list string) (st : pst N) : outcome (args T) :=
  match long_opt s st with Parsed (st, w) => words l w st | Usage => Usage | Shown => Shown end.
Lemma long_words : forall s l st, s <> "" -> words (("--" ++ s)%string :: l) None st = go_long s l st.
Proof. intros s l st H. unfold go_long. destruct s; [congruence|]. reflexivity. Qed.
Lemma bare_dashed : forall t l o st, dashed t -> hyphen_ok o = false ->
  words (t :: l) (Some o) st = match react o None st with Parsed st => words (t :: l) None st | Usage => Usage | Shown => Shown end.
Proof.
  intros t l o st (c & r & ->) Ho. cbn [Cli.words]. rewrite Ho.
  destruct c as [[] [] [] [] [] [] [] []]; try reflexivity. destruct r; reflexivity.
Qed.
Lemma dashed_dec : forall t, {dashed t} + {~ dashed t}.
Proof.
  intros [|c [|d r]]; [right; intros (a & b & E); discriminate E|right; intros (a & b & E); discriminate E|].
  destruct (ascii_dec c "-") as [->|Hc]; [left; eexists _, _; reflexivity|right; intros (a & b & E); injection E; congruence].
Qed.
Lemma word_value : forall t l o st, hyphen_ok o = true \/ ~ dashed t ->
  words (t :: l) (Some o) st = match react o (Some t) st with Parsed st => words l None st | Usage => Usage | Shown => Shown end.
Proof.
  intros t l o st H. cbn [Cli.words]. destruct (hyphen_ok o) eqn:Ho; [reflexivity|].
  assert (Hd : ~ dashed t) by (destruct H; [discriminate|auto]).
  destruct t as [|c [|d r]]; [reflexivity| |].
  - destruct c as [[] [] [] [] [] [] [] []]; reflexivity.
  - destruct (ascii_dec c "-") as [->|Hc]; [exfalso; apply Hd; eexists _, _; reflexivity|].
    destruct c as [[] [] [] [] [] [] [] []]; try reflexivity. exfalso. apply Hc. reflexivity.
Qed.
Lemma maybe_hyphen : forall o, kind_of o = Maybe -> hyphen_ok o = false.
Proof. intros o H. destruct o; cbn in *; congruence. Qed.

Lemma grammar_words :
  (forall l ss, reads l ss -> forall st a, says ss st a -> words l None st = Parsed a) /\
  (forall s l ss, letters s l ss -> forall st a, says ss st a -> go_letters s l st = Parsed a) /\
  (forall o l ss, after o l ss -> forall st a, says ss st a -> words l (Some o) st = Parsed a).
Proof.
  apply (grammar_ind (fun l ss _ => forall st a, says ss st a -> words l None st = Parsed a)
                     (fun s l ss _ => forall st a, says ss st a -> go_letters s l st = Parsed a)
                     (fun o l ss _ => forall st a, says ss st a -> words l (Some o) st = Parsed a)).
  - intros st a (st' & H & <-). injection H as <-. reflexivity.
  - intros st a (st' & H & <-). injection H as <-. reflexivity.
  - intros o n l ss K L _ IH st a H. apply says_cons in H. destruct H as (st1 & R & H).
    destruct (split_name o n L) as (S1 & _ & Hn). rewrite long_words by exact Hn. unfold go_long, Cli.long_opt. rewrite S1.
    rewrite (proj2 (find_long_spec n o) L), K, R. apply IH. exact H.
  - intros o n v l ss K L _ IH st a H. apply says_cons in H. destruct H as (st1 & R & H).
    destruct (split_name o n L) as (_ & S2 & Hn). rewrite long_words by (destruct n; cbn; congruence). unfold go_long, Cli.long_opt. rewrite S2.
    rewrite (proj2 (find_long_spec n o) L), R. destruct K as [K|[K|K]]; rewrite K; apply IH; exact H.
  - intros o n l ss K L _ IH st a H. destruct (split_name o n L) as (S1 & _ & Hn). rewrite long_words by exact Hn. unfold go_long, Cli.long_opt. rewrite S1.
    rewrite (proj2 (find_long_spec n o) L). destruct K as [K|[K|K]]; rewrite K; apply IH; exact H.
  - intros c s l ss Hl IH st a H. rewrite letters_words; [apply IH; exact H|].
    inversion Hl; subst; match goal with h : short_of _ = Some c |- _ => apply find_short_spec in h; congruence end.
  - intros l ss _ IH st a H. unfold go_letters. cbn [Cli.cluster]. apply IH. exact H.
  - intros o c s l ss K L _ IH st a H. apply says_cons in H. destruct H as (st1 & R & H). unfold go_letters. cbn [Cli.cluster].
    rewrite (proj2 (find_short_spec c o) L), K, R. apply IH. exact H.
  - intros o c d s l ss K L Hd _ IH st a H. apply says_cons in H. destruct H as (st1 & R & H). unfold go_letters. cbn [Cli.cluster].
    rewrite (proj2 (find_short_spec c o) L). apply Ascii.eqb_neq in Hd. rewrite Hd, R. destruct K as [K|[K|K]]; rewrite K; apply IH; exact H.
  - intros o c s l ss K L _ IH st a H. apply says_cons in H. destruct H as (st1 & R & H). unfold go_letters. cbn [Cli.cluster].
    rewrite (proj2 (find_short_spec c o) L). change (Ascii.eqb "=" "=") with true. cbv iota. rewrite R. destruct K as [K|[K|K]]; rewrite K; apply IH; exact H.
  - intros o c l ss K L _ IH st a H. unfold go_letters. cbn [Cli.cluster].
    rewrite (proj2 (find_short_spec c o) L). destruct K as [K|[K|K]]; rewrite K; apply IH; exact H.
  - intros o v l ss Hv _ IH st a H. apply says_cons in H. destruct H as (st1 & R & H). rewrite word_value by exact Hv. rewrite R. apply IH. exact H.
  - intros o l ss K Hd _ IH st a H. apply says_cons in H. destruct H as (st1 & R & H). destruct l as [|t l].
    + cbn [Cli.words]. rewrite R. specialize (IH st1 a H). cbn in IH. exact IH.
    + rewrite bare_dashed; [|apply (Hd t l eq_refl)|apply maybe_hyphen; exact K]. rewrite R. apply IH. exact H.
Qed.

(** ** From the parser to the grammar *)
Lemma react_none : forall o st st1, react o None st = Parsed st1 -> takes o -> kind_of o = Maybe.
Proof.
  intros o [sn a] st1 H K. unfold Cli.react in H. destruct a. destruct o; try reflexivity; cbn in K; destruct K as [K|[K|K]]; try discriminate K;
    cbn in H; try discriminate H; match type of H with context [existsb ?f ?l] => destruct (existsb f l); discriminate H end.
Qed.
Lemma react_info : forall o v st st1, react o v st = Parsed st1 -> kind_of o <> Info.
Proof. intros o v st st1 H K. unfold Cli.react in H. rewrite K in H. discriminate. Qed.
Lemma takes_not : forall o, kind_of o <> Flag -> kind_of o <> Info -> takes o.
Proof. intros o. unfold takes. destruct (kind_of o); intuition congruence. Qed.

Lemma cluster_reads : forall s st l a, go_letters s l st = Parsed a ->
  (forall st' a', words l None st' = Parsed a' -> exists ss, reads l ss /\ says ss st' a') ->
  (forall o st' a', takes o -> words l (Some o) st' = Parsed a' -> exists ss, after o l ss /\ says ss st' a') ->
  exists ss, letters s l ss /\ says ss st a.
Proof.
  induction s as [|c s IH]; intros st l a H Hn Hs; unfold go_letters in H; cbn [Cli.cluster] in H.
  - destruct (Hn _ _ H) as (ss & R & S). exists ss. split; [constructor; exact R|exact S].
  - destruct (find_short c) as [o|] eqn:F; [|discriminate]. apply find_short_spec in F.
    destruct (kind_of o) eqn:K.
    + destruct (react o None st) as [st1| |] eqn:R; try discriminate. destruct (IH st1 l a H Hn Hs) as (ss & Q & S).
      exists ((o, None) :: ss). split; [eapply l_flag; eauto|]. apply says_cons. exists st1. auto.
    + assert (Tk : takes o) by (unfold takes; auto). destruct s as [|d s].
      * destruct (Hs o st a Tk H) as (ss & Q & S). exists ss. split; [eapply l_last; eauto|exact S].
      * destruct (react o (Some (if Ascii.eqb d "=" then s else String d s)) st) as [st1| |] eqn:R; try discriminate.
        destruct (Hn st1 a H) as (ss & Q & S). destruct (Ascii.eqb d "=") eqn:E.
        -- apply Ascii.eqb_eq in E. subst d. exists ((o, Some s) :: ss). split; [eapply l_equals; eauto|]. apply says_cons. exists st1. auto.
        -- apply Ascii.eqb_neq in E. exists ((o, Some (String d s)) :: ss). split; [eapply l_joined; eauto|]. apply says_cons. exists st1. auto.
    + assert (Tk : takes o) by (unfold takes; auto). destruct s as [|d s].
      * destruct (Hs o st a Tk H) as (ss & Q & S). exists ss. split; [eapply l_last; eauto|exact S].
      * destruct (react o (Some (if Ascii.eqb d "=" then s else String d s)) st) as [st1| |] eqn:R; try discriminate.
        destruct (Hn st1 a H) as (ss & Q & S). destruct (Ascii.eqb d "=") eqn:E.
        -- apply Ascii.eqb_eq in E. subst d. exists ((o, Some s) :: ss). split; [eapply l_equals; eauto|]. apply says_cons. exists st1. auto.
        -- apply Ascii.eqb_neq in E. exists ((o, Some (String d s)) :: ss). split; [eapply l_joined; eauto|]. apply says_cons. exists st1. auto.
    + assert (Tk : takes o) by (unfold takes; auto). destruct s as [|d s].
      * destruct (Hs o st a Tk H) as (ss & Q & S). exists ss. split; [eapply l_last; eauto|exact S].
      * destruct (react o (Some (if Ascii.eqb d "=" then s else String d s)) st) as [st1| |] eqn:R; try discriminate.
        destruct (Hn st1 a H) as (ss & Q & S). destruct (Ascii.eqb d "=") eqn:E.
        -- apply Ascii.eqb_eq in E. subst d. exists ((o, Some s) :: ss). split; [eapply l_equals; eauto|]. apply says_cons. exists st1. auto.
        -- apply Ascii.eqb_neq in E. exists ((o, Some (String d s)) :: ss). split; [eapply l_joined; eauto|]. apply says_cons. exists st1. auto.
    + destruct (react o None st) as [st1| |] eqn:R; try discriminate. exfalso. exact (react_info _ _ _ _ R K).
Qed.
Lemma long_reads : forall s st l a, go_long s l st = Parsed a ->
  (forall st' a', words l None st' = Parsed a' -> exists ss, reads l ss /\ says ss st' a') ->
  (forall o st' a', takes o -> words l (Some o) st' = Parsed a' -> exists ss, after o l ss /\ says ss st' a') ->
  exists ss, reads (("--" ++ s)%string :: l) ss /\ says ss st a.
Proof.
  intros s st l a H Hn Hs. unfold go_long, Cli.long_opt in H. destruct (split_eq s) as [n v] eqn:S. apply split_back in S.
  destruct (find_long n) as [o|] eqn:F; [|discriminate]. apply find_long_spec in F.
  destruct v as [v|]; subst s.
  - assert (Tk : takes o) by (apply takes_not; intros K; rewrite K in H; discriminate).
    destruct (react o (Some v) st) as [st1| |] eqn:R; try (destruct (kind_of o); discriminate).
    assert (H' : words l None st1 = Parsed a) by (destruct (kind_of o); (discriminate || exact H)).
    destruct (Hn _ _ H') as (ss & Q & S). exists ((o, Some v) :: ss). split; [eapply r_equals; eauto|]. apply says_cons. exists st1. auto.
  - destruct (kind_of o) eqn:K.
    + destruct (react o None st) as [st1| |] eqn:R; try discriminate. destruct (Hn _ _ H) as (ss & Q & S).
      exists ((o, None) :: ss). split; [eapply r_flag; eauto|]. apply says_cons. exists st1. auto.
    + assert (Tk : takes o) by (unfold takes; auto). destruct (Hs o st a Tk H) as (ss & Q & S). exists ss. split; [eapply r_long; eauto|exact S].
    + assert (Tk : takes o) by (unfold takes; auto). destruct (Hs o st a Tk H) as (ss & Q & S). exists ss. split; [eapply r_long; eauto|exact S].
    + assert (Tk : takes o) by (unfold takes; auto). destruct (Hs o st a Tk H) as (ss & Q & S). exists ss. split; [eapply r_long; eauto|exact S].
    + destruct (react o None st) as [st1| |] eqn:R; try discriminate. exfalso. exact (react_info _ _ _ _ R K).
Qed.
Lemma words_grammar : forall l,
  (forall st a, words l None st = Parsed a -> exists ss, reads l ss /\ says ss st a) /\
  (forall o st a, takes o -> words l (Some o) st = Parsed a -> exists ss, after o l ss /\ says ss st a).
Proof.
  induction l as [|t l [IHn IHs]].
  - split.
    + intros st a H. injection H as <-. exists []. split; [constructor|exists st; auto].
    + intros o st a Tk H. cbn [Cli.words] in H. destruct (react o None st) as [st1| |] eqn:R; try discriminate. injection H as <-.
      exists [(o, None)]. split; [apply a_bare; [exact (react_none _ _ _ R Tk)|discriminate|constructor]|]. apply says_cons. exists st1. split; auto. exists st1. auto.
  - assert (Hn : forall st a, words (t :: l) None st = Parsed a -> exists ss, reads (t :: l) ss /\ says ss st a).
    { intros st a H. destruct (dashed_dec t) as [(c & r & ->)|Hd].
      - destruct (ascii_dec c "-") as [->|Hc].
        + destruct r as [|c r].
          * cbn in H. destruct l; [|discriminate]. injection H as <-. exists []. split; [constructor|exists st; auto].
          * change (String "-" (String "-" (String c r))) with ("--" ++ String c r)%string in H |- *. rewrite long_words in H by discriminate.
            apply long_reads; auto.
        + assert (H' : go_letters (String c r) l st = Parsed a).
          { revert H. unfold go_letters. cbn [Cli.words]. destruct c as [[] [] [] [] [] [] [] []]; try (intros H; exact H). exfalso. apply Hc. reflexivity. }
          destruct (cluster_reads _ _ _ _ H' IHn IHs) as (ss & Q & S). exists ss. split; [constructor; exact Q|exact S].
      - exfalso. cbn [Cli.words] in H. destruct t as [|c [|d r]]; [discriminate| |].
        + destruct c as [[] [] [] [] [] [] [] []]; discriminate.
        + destruct (ascii_dec c "-") as [->|Hc]; [apply Hd; eexists _, _; reflexivity|].
          destruct c as [[] [] [] [] [] [] [] []]; try discriminate. apply Hc. reflexivity. }
    split; [exact Hn|]. intros o st a Tk H. destruct (hyphen_ok o) eqn:Ho.
    + rewrite word_value in H by auto. destruct (react o (Some t) st) as [st1| |] eqn:R; try discriminate. destruct (IHn _ _ H) as (ss & Q & S).
      exists ((o, Some t) :: ss). split; [apply a_word; auto|]. apply says_cons. exists st1. auto.
    + destruct (dashed_dec t) as [Hd|Hd].
      * rewrite bare_dashed in H by auto. destruct (react o None st) as [st1| |] eqn:R; try discriminate. destruct (Hn _ _ H) as (ss & Q & S).
        exists ((o, None) :: ss). split; [apply a_bare; [exact (react_none _ _ _ R Tk)|intros t' r E; injection E as <- _; exact Hd|exact Q]|].
        apply says_cons. exists st1. auto.
      * rewrite word_value in H by auto. destruct (react o (Some t) st) as [st1| |] eqn:R; try discriminate. destruct (IHn _ _ H) as (ss & Q & S).
        exists ((o, Some t) :: ss). split; [apply a_word; auto|]. apply says_cons. exists st1. auto.
Qed.
Lemma parse_says : forall l a, parse N rd l = Parsed a <-> exists ss, reads l ss /\ says ss ([], no_args N) a.
Proof.
  intros l a. split.
  - apply (proj1 (words_grammar l)).
  - intros (ss & Q & S). exact (proj1 grammar_words l ss Q _ _ S).
Qed.
Lemma reads_info :
  (forall l ss, reads l ss -> Forall (fun p => kind_of (fst p) <> Info) ss) /\
  (forall s l ss, letters s l ss -> Forall (fun p => kind_of (fst p) <> Info) ss) /\
  (forall o l ss, after o l ss -> takes o -> Forall (fun p => kind_of (fst p) <> Info) ss).
Proof.
  assert (Tk : forall o, takes o -> kind_of o <> Info) by (intros o [K|[K|K]]; rewrite K; discriminate).
  apply (grammar_ind (fun l ss _ => Forall (fun p => kind_of (fst p) <> Info) ss)
                     (fun s l ss _ => Forall (fun p => kind_of (fst p) <> Info) ss)
                     (fun o l ss _ => takes o -> Forall (fun p => kind_of (fst p) <> Info) ss));
    intros; try (constructor; cbn [fst]; auto; congruence); auto.
Qed.
End P.
