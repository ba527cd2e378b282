From Coq Require Import String ZArith List Bool Lia Arith.
From Verif Require Import Num Monad Config Files Toml SpecToml.
Import ListNotations.
Local Open Scope string_scope.
Local Open Scope list_scope.

Section P.
Context (N : NumOps).
Notation T := (num N).
Implicit Types (l : list (string * tval T)).

Lemma distinct_spec (l : list string) : distinct l = true <-> NoDup l.
Proof.
  induction l as [|k l IH]; [split; [constructor|reflexivity]|]. cbn [distinct]. rewrite andb_true_iff, negb_true_iff, IH.
  split.
  - intros [A B]. constructor; [|exact B]. intros Hin. apply not_true_iff_false in A. apply A.
    apply existsb_exists. exists k. split; [exact Hin|apply String.eqb_refl].
  - intros H. inversion H as [|? ? A B]; subst. split; [|exact B]. apply not_true_iff_false. intros E.
    apply existsb_exists in E. destruct E as (x & Hx & Hk). apply String.eqb_eq in Hk. subst x. contradiction.
Qed.
Lemma lookup_in {A} k (v : A) (l : list (string * A)) : lookup k l = Some v -> In (k, v) l.
Proof.
  induction l as [|[m a] l IH]; [discriminate|]. cbn. destruct (String.eqb_spec k m) as [->|E]; [intros [= ->]; left; reflexivity|].
  intros H. right. apply IH, H.
Qed.
Lemma lookup_none {A} k (l : list (string * A)) : lookup k l = None <-> ~ In k (map fst l).
Proof.
  induction l as [|[m a] l IH]; [split; [intros _ []|reflexivity]|]. cbn [lookup map fst].
  destruct (String.eqb_spec k m) as [->|E].
  - split; [discriminate|]. intros H. exfalso. apply H. left. reflexivity.
  - rewrite IH. cbn. intuition congruence.
Qed.
Lemma in_lookup {A} k (v : A) (l : list (string * A)) : NoDup (map fst l) -> In (k, v) l -> lookup k l = Some v.
Proof.
  induction l as [|[m a] l IH]; [intros _ []|]. cbn [map fst lookup]. intros H Hin. inversion H as [|? ? A1 B1]; subst.
  destruct (String.eqb_spec k m) as [->|E].
  - destruct Hin as [[= ->]|Hin]; [reflexivity|]. exfalso. apply A1. apply (in_map fst) in Hin. exact Hin.
  - destruct Hin as [[= -> ->]|Hin]; [contradiction|]. apply IH; assumption.
Qed.

Lemma field_given {A} l k (de : tval T -> option A) (is_ : tval T -> A -> Prop) dflt x :
  (forall v y, de v = Some y -> is_ v y) -> field N l k de dflt = Some x -> given N l k is_ x dflt.
Proof.
  intros H E. unfold field in E. destruct (lookup k l) as [v|] eqn:L.
  - left. exists v. split; [apply lookup_in, L|apply H, E].
  - right. apply lookup_none in L. split; [exact L|congruence].
Qed.
Lemma given_field {A} l k (de : tval T -> option A) (is_ : tval T -> A -> Prop) dflt x (ok : tval T -> Prop) :
  (forall v y, is_ v y -> ok v -> de v = Some y) -> (forall v, In (k, v) l -> ok v) ->
  NoDup (map fst l) -> given N l k is_ x dflt -> field N l k de dflt = Some x.
Proof.
  intros H Hok Hn [(v & Hin & E)|[Hno ->]]; unfold field.
  - rewrite (in_lookup k v l Hn Hin). apply H; [exact E|apply Hok, Hin].
  - apply lookup_none in Hno. rewrite Hno. reflexivity.
Qed.

Lemma de_int_is lo hi v z : de_int N lo hi v = Some z -> int_is N v z /\ (lo <= z <= hi)%Z.
Proof.
  unfold de_int, int_is. destruct v; try discriminate. destruct (Z.leb_spec lo z0), (Z.leb_spec z0 hi); cbn; try discriminate.
  intros [= ->]. split; [reflexivity|lia].
Qed.
Lemma int_is_de lo hi v z : int_is N v z -> (lo <= z <= hi)%Z -> de_int N lo hi v = Some z.
Proof.
  intros -> H. unfold de_int. destruct (Z.leb_spec lo z), (Z.leb_spec z hi); cbn; try reflexivity; lia.
Qed.
Lemma de_f64_is v x : de_f64 N v = Some x <-> real_is N v x.
Proof.
  split.
  - destruct v; cbn; try discriminate; intros [= <-]; constructor.
  - intros []; reflexivity.
Qed.
Lemma de_vec_is v x : de_vec N v = Some x <-> reals_are N v x.
Proof.
  assert (S1 : forall vs xs, de_seq N vs = Some xs <-> Forall2 (real_is N) vs xs).
  { induction vs as [|v0 vs IH]; intros xs; cbn [de_seq].
    - split; [intros [= <-]; constructor|]. intros H. inversion H; reflexivity.
    - split.
      + destruct (de_f64 N v0) as [y|] eqn:E; [|discriminate]. destruct (de_seq N vs) as [ys|] eqn:E2; [|discriminate].
        intros [= <-]. constructor; [apply de_f64_is, E|apply IH; reflexivity].
      + intros H. inversion H as [|? ? ? ? A B]; subst. apply de_f64_is in A. apply IH in B. rewrite A, B. reflexivity. }
  unfold reals_are. split.
  - destruct v; cbn; try discriminate. intros H. apply S1 in H. eauto.
  - intros (vs & -> & H). apply S1, H.
Qed.
Lemma de_bool_is v x : de_bool N v = Some x <-> bool_is N v x.
Proof. unfold bool_is. split; [destruct v; cbn; try discriminate; intros [= ->]; reflexivity|intros ->; reflexivity]. Qed.
Lemma de_str_is v x : de_str N v = Some x <-> string_is N v x.
Proof. unfold string_is. split; [destruct v; cbn; try discriminate; intros [= ->]; reflexivity|intros ->; reflexivity]. Qed.
Lemma drive_of_is s d : drive_of s = Some d <-> drive_is s d.
Proof.
  split.
  - unfold drive_of. repeat match goal with |- context [String.eqb s ?k] => destruct (String.eqb_spec s k) as [->|] end;
      try discriminate; intros [= <-]; constructor.
  - intros []; reflexivity.
Qed.
Lemma de_drive_is v x : de_drive N v = Some x <-> drive_v N v x.
Proof.
  unfold drive_v. split.
  - destruct v; cbn; try discriminate. intros H. apply drive_of_is in H. eauto.
  - intros (s & -> & H). apply drive_of_is, H.
Qed.

Definition all_allowed l : Prop := forall k v kd, In (k, v) l -> In (k, kd) keys -> allowed kd v.

Lemma field_ok {A} l k kd (de : tval T -> option A) dflt x : NoDup (map fst l) -> In (k, kd) keys ->
  (forall v y, de v = Some y -> allowed kd v) ->
  field N l k de dflt = Some x -> forall v, In (k, v) l -> allowed kd v.
Proof.
  intros Hn Hk H E v Hin. unfold field in E. rewrite (in_lookup _ _ _ Hn Hin) in E. exact (H _ _ E).
Qed.

Lemma al_int lo hi v y kd : de_int N lo hi v = Some y ->
  (forall z, (lo <= z <= hi)%Z -> allowed kd (@Vint T z)) -> allowed kd v.
Proof. intros E H. apply de_int_is in E. destruct E as [E1 E2]. unfold int_is in E1. subst v. apply H, E2. Qed.
Lemma al_f64 v y : de_f64 N v = Some y -> allowed Kreal v.
Proof. destruct v; cbn; try discriminate; intros; exact I. Qed.
Lemma al_vec v y : de_vec N v = Some y -> allowed Kreals v.
Proof.
  intros H. apply de_vec_is in H. destruct H as (vs & -> & H). cbn. induction H as [|? ? ? ? A B IH]; constructor; [|exact IH].
  destruct A; exact I.
Qed.
Lemma al_bool v y : de_bool N v = Some y -> allowed Kbool v.
Proof. destruct v; cbn; try discriminate; intros; exact I. Qed.
Lemma al_str v y : de_str N v = Some y -> allowed Kstring v.
Proof. destruct v; cbn; try discriminate; intros; exact I. Qed.
Lemma al_drive v y : de_drive N v = Some y -> allowed Kdrive v.
Proof. intros H. apply de_drive_is in H. destruct H as (s & -> & H). cbn. destruct H; tauto. Qed.

Ltac al := intros ? ?; first
  [ let H := fresh in intros H; eapply al_int; [exact H|cbn; intros; lia] | apply al_f64 | apply al_vec | apply al_bool | apply al_str | apply al_drive ].
Ltac isd := intros ? ?; first
  [ let H := fresh in intros H; apply de_int_is in H; apply H | apply de_f64_is | apply de_vec_is | apply de_bool_is | apply de_str_is | apply de_drive_is ].

Lemma key_one k a b : In (k, a) keys -> In (k, b) keys -> a = b.
Proof.
  unfold keys. intros H1 H2. repeat (destruct H1 as [H1|H1]; [injection H1 as <- <-; repeat (destruct H2 as [H2|H2]; [try discriminate H2; injection H2; auto|]); destruct H2|]). destruct H1.
Qed.

Theorem from_toml_sound l c : from_toml N l = Some c -> NoDup (map fst l) /\ all_allowed l /\ denotes N l c.
Proof.
  unfold from_toml. destruct (distinct (map fst l)) eqn:D; cbn [negb]; [|discriminate]. apply distinct_spec in D.
  repeat match goal with |- (match field _ _ ?k ?d ?x with Some _ => _ | None => None end) = _ -> _ =>
    let E := fresh "E" in destruct (field N l k d x) eqn:E; [|discriminate] end.
  intros [= <-]. split; [exact D|]. split.
  - intros k v kd Hin Hk. pose proof Hk as Hk'. unfold keys in Hk.
    repeat (destruct Hk as [Hk|Hk]; [injection Hk as <- <-;
      match goal with H : field N l ?k ?d ?x = _, Hin : In (?k, v) l |- _ => refine (field_ok l k _ d x _ D Hk' _ H v Hin); al end|]).
    destruct Hk.
  - unfold denotes. repeat split; match goal with H : field N l ?k ?d ?x = Some ?y |- given N l ?k _ _ _ =>
      refine (field_given l k d _ x y _ H); isd end.
Qed.

Definition rng_ok (kd : kind) (v : tval T) : Prop := allowed kd v.
Lemma ra_int lo hi kd : (forall z, allowed kd (@Vint T z) -> (lo <= z <= hi)%Z) ->
  forall v y, int_is N v y -> allowed kd v -> de_int N lo hi v = Some y.
Proof. intros H v y E A. apply int_is_de; [exact E|]. unfold int_is in E. subst v. apply H, A. Qed.

Ltac gf := first
  [ apply ra_int; cbn; intros; lia | intros ? ? H _; apply de_f64_is; exact H | intros ? ? H _; apply de_vec_is; exact H
  | intros ? ? H _; apply de_bool_is; exact H | intros ? ? H _; apply de_str_is; exact H | intros ? ? H _; apply de_drive_is; exact H ].

Theorem from_toml_complete l c : NoDup (map fst l) -> all_allowed l -> denotes N l c -> from_toml N l = Some c.
Proof.
  intros D Al H. unfold denotes in H. decompose [and] H. clear H. unfold from_toml. rewrite (proj2 (distinct_spec _) D). cbn [negb].
  repeat match goal with
  | Hg : given N l ?k _ ?x ?d |- context [field N l ?k ?de ?d'] =>
      let kd := match eval vm_compute in (lookup k keys) with Some ?kd => kd end in
      assert (field N l k de d' = Some x) as ->
        by (refine (given_field l k de _ d' x (allowed kd) _ (fun v Hin => Al k v kd Hin _) D Hg); [gf|cbn; tauto]);
      clear Hg
  end.
  destruct c; reflexivity.
Qed.
Theorem from_toml_iff l c : from_toml N l = Some c <-> NoDup (map fst l) /\ all_allowed l /\ denotes N l c.
Proof. split; [apply from_toml_sound|intros (A & B & C); apply from_toml_complete; assumption]. Qed.

(** Existence: allowed values denote something *)
Lemma field_total {A} l k kd (de : tval T -> option A) dflt : all_allowed l -> In (k, kd) keys ->
  (forall v, allowed kd v -> exists y, de v = Some y) -> exists x, field N l k de dflt = Some x.
Proof.
  intros Al Hk H. unfold field. destruct (lookup k l) as [v|] eqn:E; [|eauto]. apply H. eapply Al; [apply lookup_in, E|exact Hk].
Qed.
Lemma tot_int lo hi kd : (forall v, allowed kd v -> exists z, v = @Vint T z /\ (lo <= z <= hi)%Z) ->
  forall v, allowed kd v -> exists y, de_int N lo hi v = Some y.
Proof. intros H v A. destruct (H v A) as (z & -> & Hz). exists z. apply int_is_de; [reflexivity|exact Hz]. Qed.
Lemma tot_f64 v : allowed Kreal v -> exists y, de_f64 N v = Some y.
Proof. destruct v; cbn; try intros []; eauto. Qed.
Lemma tot_vec v : allowed Kreals v -> exists y, de_vec N v = Some y.
Proof.
  destruct v; cbn [allowed de_vec]; try contradiction. intros H.
  induction H as [|v0 vs A B IH]; [eexists; reflexivity|]. destruct IH as [ys E].
  cbn [de_seq]. rewrite E. destruct v0; try contradiction; eexists; reflexivity.
Qed.
Lemma tot_bool v : allowed Kbool v -> exists y, de_bool N v = Some y.
Proof. destruct v; cbn; try intros []; eauto. Qed.
Lemma tot_str v : allowed Kstring v -> exists y, de_str N v = Some y.
Proof. destruct v; cbn; try intros []; eauto. Qed.
Lemma tot_drive v : allowed Kdrive v -> exists y, de_drive N v = Some y.
Proof.
  destruct v; cbn; try tauto. intros H. repeat (destruct H as [<-|H]; [eexists; reflexivity|]). destruct H.
Qed.
Ltac tot := first
  [ apply tot_int; intros v Hv; destruct v; cbn in Hv; try contradiction; eexists; split; [reflexivity|lia]
  | exact tot_f64 | exact tot_vec | exact tot_bool | exact tot_str | exact tot_drive ].
Theorem from_toml_total l : NoDup (map fst l) -> all_allowed l -> exists c, from_toml N l = Some c.
Proof.
  intros D Al. unfold from_toml. rewrite (proj2 (distinct_spec _) D). cbn [negb].
  repeat match goal with
  | |- exists c, match field N l ?k ?de ?d with Some _ => _ | None => None end = Some c =>
      let kd := match eval vm_compute in (lookup k keys) with Some ?kd => kd end in
      let x := fresh "x" in let E := fresh "E" in
      destruct (field_total l k kd de d Al ltac:(cbn; tauto) ltac:(tot)) as [x E]; rewrite E; clear E
  end.
  eexists. reflexivity.
Qed.
Theorem from_toml_none l : from_toml N l = None <-> ~ (NoDup (map fst l) /\ all_allowed l).
Proof.
  split.
  - intros E [A B]. destruct (from_toml_total l A B) as [c E']. congruence.
  - intros H. destruct (from_toml N l) as [c|] eqn:E; [|reflexivity]. exfalso. apply H. apply from_toml_sound in E. tauto.
Qed.

(** Saving *)
Lemma to_toml_ok c : in_range c -> exists l, to_toml N c = Ok l.
Proof.
  intros H. unfold in_range in H. decompose [and] H. unfold to_toml.
  destruct (Z.leb_spec (2 ^ 63) (threads c)); [lia|]. destruct (Z.leb_spec (2 ^ 63) (mc_points c)); [lia|]. eexists. reflexivity.
Qed.
Definition toml_lines (c : config T) : list (string * tval T) :=
     [("hsize", Vint (hsize c)); ("ssize", Vint (ssize c)); ("t", Vfloat (c_t c)); ("dt", Vfloat (c_dt c));
      ("runs", Vint (runs c)); ("trel", Vfloat (trel c)); ("threads", Vint (threads c)); ("tau", Vfloat (tau c));
      ("lambda", Vfloat (lambda c)); ("hfield", Varr (map Vfloat (hfield c))); ("hs", Varr (map Vfloat (hs c)));
      ("jvar", Vfloat (jvar c)); ("hvar", Vfloat (hvar c)); ("method", Vint (method c)); ("ednsty", Vfloat (ednsty c));
      ("file", Vstr (c_file c)); ("strob", Vbool (strob c)); ("offset", Vint (offset c)); ("beta", Vfloat (beta c));
      ("mc_points", Vint (mc_points c)); ("e", Vfloat (c_e c)); ("drive", Vstr (drive_name (drive c))); ("log", Vbool (c_log c))].
Lemma to_toml_lines c l : to_toml N c = Ok l -> l = toml_lines c.
Proof. unfold to_toml. destruct (_ || _)%bool; [discriminate|]. intros [= <-]. reflexivity. Qed.

Lemma seq_floats xs : de_seq N (map Vfloat xs) = Some xs.
Proof. induction xs as [|x xs IH]; [reflexivity|]. cbn. rewrite IH. reflexivity. Qed.
Lemma drive_back d : drive_of (drive_name d) = Some d.
Proof. destruct d; reflexivity. Qed.
Lemma de_int_in lo hi z : (lo <= z <= hi)%Z -> de_int N lo hi (Vint z) = Some z.
Proof. intros. apply int_is_de; [reflexivity|assumption]. Qed.

(** A file cut after [n] lines: the first fields as saved, the others default *)
Definition cut (n : nat) (c : config T) : config T :=
  let d := config_default N in
  let p {A} (i : nat) (x y : A) : A := if (i <? n)%nat then x else y in
  mkConfig (p 0%nat (hsize c) (hsize d)) (p 1%nat (ssize c) (ssize d)) (p 2%nat (c_t c) (c_t d)) (p 3%nat (c_dt c) (c_dt d))
    (p 4%nat (runs c) (runs d)) (p 5%nat (trel c) (trel d)) (p 6%nat (threads c) (threads d)) (p 7%nat (tau c) (tau d))
    (p 8%nat (lambda c) (lambda d)) (p 9%nat (hfield c) (hfield d)) (p 10%nat (hs c) (hs d)) (p 11%nat (jvar c) (jvar d))
    (p 12%nat (hvar c) (hvar d)) (p 13%nat (method c) (method d)) (p 14%nat (ednsty c) (ednsty d)) (p 15%nat (c_file c) (c_file d))
    (p 16%nat (strob c) (strob d)) (p 17%nat (offset c) (offset d)) (p 18%nat (beta c) (beta d))
    (p 19%nat (mc_points c) (mc_points d)) (p 20%nat (c_e c) (c_e d)) (p 21%nat (drive c) (drive d)) (p 22%nat (c_log c) (c_log d)).
Lemma cut_all c n : (23 <= n)%nat -> cut n c = c.
Proof.
  intros H. unfold cut. repeat (match goal with |- context [(?i <? n)%nat] => destruct (Nat.ltb_spec i n); [|lia] end).
  destruct c; reflexivity.
Qed.
Lemma from_cut_small c n : in_range c -> (n <= 23)%nat -> from_toml N (firstn n (toml_lines c)) = Some (cut n c).
Proof.
  intros H Hn. unfold in_range in H. decompose [and] H. clear H.
  do 24 (destruct n as [|n]; [
    cbn [firstn toml_lines cut]; unfold from_toml; cbn [map fst distinct existsb String.eqb Ascii.eqb Bool.eqb negb orb andb];
    unfold field; cbn [lookup String.eqb Ascii.eqb Bool.eqb];
    unfold de_i32, de_u32, de_usize; rewrite ?de_int_in by lia;
    cbn [de_f64 de_vec de_bool de_str de_drive]; rewrite ?seq_floats, ?drive_back; reflexivity|]).
  lia.
Qed.
Lemma from_cut c n : in_range c -> from_toml N (firstn n (toml_lines c)) = Some (cut n c).
Proof.
  intros H. destruct (Nat.le_gt_cases n 23) as [A|A]; [apply from_cut_small; assumption|].
  pose proof (from_cut_small c 23 H (le_n _)) as E. rewrite (cut_all c 23) in E by lia. rewrite (cut_all c n) by lia.
  rewrite firstn_all2 by (cbn; lia). exact E.
Qed.
Theorem round_trip c : in_range c -> exists l, to_toml N c = Ok l /\ from_toml N l = Some c.
Proof.
  intros H. destruct (to_toml_ok c H) as [l E]. exists l. split; [exact E|]. apply to_toml_lines in E. subst l.
  pose proof (from_cut c 23 H) as E. rewrite (cut_all c 23) in E by lia. exact E.
Qed.
Lemma default_in_range : in_range (config_default N).
Proof. unfold in_range; cbn; lia. Qed.
End P.
