(** The dynamical step as three sublattice rotations of site functions; any number type. *)
From Coq Require Import List ZArith Arith Lia Bool.
From Verif Require Import Num Monad Spin Config Chain SpecChain ProofsChain.
Import ListNotations.
Local Open Scope nat_scope.
Ltac Zify.zify_post_hook ::= Z.div_mod_to_equations.

(** Neighbours on the ring of M sites *)
Definition lft (M i : nat) : nat := if i =? 0 then M - 1 else i - 1.
Definition rgt (M i : nat) : nat := if i + 1 =? M then 0 else i + 1.
(** Site p belongs to the sublattice rotated in a stage *)
Definition onsub (M b p : nat) : bool := (p <? M) && (p mod 2 =? b).

Lemma onsub_spec M b p : onsub M b p = true <-> p < M /\ p mod 2 = b.
Proof. unfold onsub. rewrite andb_true_iff, Nat.ltb_lt, Nat.eqb_eq. reflexivity. Qed.

Section Gen.
Context (N : NumOps).
Notation V := (v3 (num N)).

(** The field that acts on site i *)
Definition omF (M : nat) (S J h : nat -> V) (i : nat) : V :=
  ssh_sum N (j_s N (J (lft M i)) (S (lft M i))) (j_s N (J i) (S (rgt M i))) (h i).

(** One stage: simultaneous rotation of sublattice b *)
Definition stageF (M b : nat) (J h : nat -> V) (dt : num N) (S : nat -> V) (p : nat) : V :=
  if onsub M b p then rotate N (S p) (omF M S J h p) dt else S p.

Definition trotF (M : nat) (J h : nat -> V) (dt2 dt : num N) (S : nat -> V) : nat -> V :=
  stageF M 0 J h dt2 (stageF M 1 J h dt (stageF M 0 J h dt2 S)).

Lemma even_omega_pure sp js h l : length sp / 2 = l -> 1 <= l -> 2 * l <= length sp ->
  length js = length sp -> length h = length sp ->
  even_omega N sp js h = Ok (map (fun k => omF (2 * l) (at3 N sp) (at3 N js) (at3 N h) (2 * k)) (seq 0 l)).
Proof.
  intros Hl Hl1 HM Hj Hh. unfold even_omega. rewrite Hl. cbv zeta.
  rewrite usub_ok by lia. cbn [bind].
  rewrite !(idx_ok _ _ (z3 N)) by lia. cbn [bind].
  rewrite (mapM_ok _ (fun k => omF (2 * l) (at3 N sp) (at3 N js) (at3 N h) (2 * k))).
  - cbn [bind]. f_equal. destruct l; [lia|].
    cbn [seq map]. unfold range. replace (S l - 1) with l by lia. f_equal.
    unfold omF, lft, rgt, at3. change (2 * 0) with 0.
    destruct (Nat.eqb_spec (0 + 1) (2 * S l)); [lia|]. reflexivity.
  - intros k Hk. unfold range in Hk. apply in_seq in Hk.
    rewrite !(idx_ok _ _ (z3 N)) by lia. cbn [bind]. f_equal.
    unfold omF, lft, rgt, at3.
    destruct (Nat.eqb_spec (2 * k) 0); [lia|]. destruct (Nat.eqb_spec (2 * k + 1) (2 * l)); [lia|].
    reflexivity.
Qed.

Lemma odd_omega_pure sp js h l : length sp / 2 = l -> 1 <= l -> 2 * l <= length sp ->
  length js = length sp -> length h = length sp ->
  odd_omega N sp js h = Ok (map (fun k => omF (2 * l) (at3 N sp) (at3 N js) (at3 N h) (2 * k + 1)) (seq 0 l)).
Proof.
  intros Hl Hl1 HM Hj Hh. unfold odd_omega. rewrite Hl. cbv zeta.
  rewrite usub_ok by lia. cbn [bind].
  rewrite (mapM_ok _ (fun k => omF (2 * l) (at3 N sp) (at3 N js) (at3 N h) (2 * k + 1))).
  - cbn [bind]. rewrite !(idx_ok _ _ (z3 N)) by lia. cbn [bind]. f_equal.
    destruct l; [lia|]. replace (S l - 1) with l by lia. rewrite range0.
    rewrite seq_S, map_app. cbn [map plus]. f_equal. f_equal.
    unfold omF, lft, rgt, at3.
    destruct (Nat.eqb_spec (2 * l + 1) 0); [lia|].
    destruct (Nat.eqb_spec (2 * l + 1 + 1) (2 * S l)); [|lia].
    replace (2 * l + 1 - 1) with (2 * l) by lia. reflexivity.
  - intros k Hk. unfold range in Hk. apply in_seq in Hk.
    rewrite !(idx_ok _ _ (z3 N)) by lia. cbn [bind]. f_equal.
    unfold omF, lft, rgt, at3.
    destruct (Nat.eqb_spec (2 * k + 1) 0); [lia|]. destruct (Nat.eqb_spec (2 * k + 1 + 1) (2 * l)); [lia|].
    replace (2 * k + 1 - 1) with (2 * k) by lia. replace (2 * k + 2) with (2 * k + 1 + 1) by lia. reflexivity.
Qed.

Lemma rotate_sub_pure b dt : b < 2 -> forall f i sp, 2 * (i + length f) <= length sp + (1 - b) ->
  exists sp', rotate_sub N b i f dt sp = Ok sp' /\ length sp' = length sp /\
    forall p, at3 N sp' p =
      if (2 * i + b <=? p) && (p <? 2 * (i + length f)) && (p mod 2 =? b)
      then rotate N (at3 N sp p) (nth (p / 2 - i) f (z3 N)) dt else at3 N sp p.
Proof.
  intro Hb. induction f as [|x f IH]; intros i sp Hlen; cbn [rotate_sub].
  - exists sp. split; [reflexivity|]. split; [reflexivity|]. intro p. cbn [length].
    destruct (Nat.leb_spec (2 * i + b) p), (Nat.ltb_spec p (2 * (i + 0))); cbn [andb]; try reflexivity; lia.
  - cbn [length] in Hlen.
    rewrite (idx_ok _ _ (z3 N)) by lia. cbn [bind].
    rewrite set_idx_ok by lia. cbn [bind].
    set (sp1 := upd sp (2 * i + b) _).
    assert (L1 : length sp1 = length sp) by apply upd_length.
    destruct (IH (S i) sp1) as (sp' & E & L & A); [rewrite L1; lia|].
    exists sp'. split; [exact E|]. split; [congruence|]. intro p. rewrite A. cbn [length].
    assert (A1 : at3 N sp1 p = if p =? 2 * i + b then rotate N (at3 N sp (2 * i + b)) x dt else at3 N sp p).
    { unfold at3, sp1. rewrite nth_upd by lia. reflexivity. }
    destruct (Nat.eqb_spec p (2 * i + b)) as [Hp|Hp]; [subst p|].
    + rewrite A1.
      destruct (Nat.leb_spec (2 * S i + b) (2 * i + b)); [lia|]. cbn [andb].
      destruct (Nat.leb_spec (2 * i + b) (2 * i + b)); [|lia].
      destruct (Nat.ltb_spec (2 * i + b) (2 * (i + S (length f)))); [|lia].
      destruct (Nat.eqb_spec ((2 * i + b) mod 2) b); [|lia]. cbn [andb].
      replace ((2 * i + b) / 2 - i) with 0 by lia. reflexivity.
    + rewrite A1.
      destruct (Nat.eqb_spec (p mod 2) b) as [Hm|Hm]; [|rewrite !andb_false_r; reflexivity].
      rewrite !andb_true_r.
      destruct (Nat.leb_spec (2 * S i + b) p), (Nat.leb_spec (2 * i + b) p);
      destruct (Nat.ltb_spec p (2 * (S i + length f))), (Nat.ltb_spec p (2 * (i + S (length f))));
        cbn [andb]; try lia; try reflexivity.
      replace (p / 2 - i) with (S (p / 2 - S i)) by lia. reflexivity.
Qed.

(** A stage of the program is a stage on site functions *)
Lemma stage_even js h dt sp l : length sp / 2 = l -> 1 <= l -> length js = length sp -> length h = length sp ->
  exists sp', (let* om := even_omega N sp js h in rotate_sub N 0 0 om dt sp) = Ok sp' /\
    length sp' = length sp /\
    forall p, at3 N sp' p = stageF (2 * l) 0 (at3 N js) (at3 N h) dt (at3 N sp) p.
Proof.
  intros Hl Hl1 Hj Hh. rewrite (even_omega_pure sp js h l) by (assumption || lia). cbn [bind].
  destruct (rotate_sub_pure 0 dt ltac:(lia)
    (map (fun k => omF (2 * l) (at3 N sp) (at3 N js) (at3 N h) (2 * k)) (seq 0 l)) 0 sp) as (sp' & E & L & A).
  { rewrite map_length, seq_length. lia. }
  exists sp'. split; [exact E|]. split; [exact L|]. intro p. rewrite A, map_length, seq_length.
  unfold stageF, onsub. change (0 + l) with l.
  replace (2 * 0 + 0 <=? p) with true by (symmetry; apply Nat.leb_le; lia). cbn [andb].
  destruct (Nat.ltb_spec p (2 * l)); cbn [andb]; [|reflexivity].
  destruct (Nat.eqb_spec (p mod 2) 0); [|reflexivity].
  rewrite Nat.sub_0_r, nth_map_seq by lia. replace (2 * (p / 2)) with p by lia. reflexivity.
Qed.

Lemma stage_odd js h dt sp l : length sp / 2 = l -> 1 <= l -> length js = length sp -> length h = length sp ->
  exists sp', (let* om := odd_omega N sp js h in rotate_sub N 1 0 om dt sp) = Ok sp' /\
    length sp' = length sp /\
    forall p, at3 N sp' p = stageF (2 * l) 1 (at3 N js) (at3 N h) dt (at3 N sp) p.
Proof.
  intros Hl Hl1 Hj Hh. rewrite (odd_omega_pure sp js h l) by (assumption || lia). cbn [bind].
  destruct (rotate_sub_pure 1 dt ltac:(lia)
    (map (fun k => omF (2 * l) (at3 N sp) (at3 N js) (at3 N h) (2 * k + 1)) (seq 0 l)) 0 sp) as (sp' & E & L & A).
  { rewrite map_length, seq_length. lia. }
  exists sp'. split; [exact E|]. split; [exact L|]. intro p. rewrite A, map_length, seq_length.
  unfold stageF, onsub. change (0 + l) with l.
  destruct (Nat.ltb_spec p (2 * l)); [|rewrite andb_false_r; reflexivity].
  destruct (Nat.eqb_spec (p mod 2) 1); [|rewrite !andb_false_r; reflexivity].
  replace (2 * 0 + 1 <=? p) with true by (symmetry; apply Nat.leb_le; lia). cbn [andb].
  rewrite Nat.sub_0_r, nth_map_seq by lia. replace (2 * (p / 2) + 1) with p by lia. reflexivity.
Qed.

Lemma stageF_ext M b J h dt S S' : (forall p, S p = S' p) ->
  forall p, stageF M b J h dt S p = stageF M b J h dt S' p.
Proof. intros H p. unfold stageF, omF. rewrite !H. reflexivity. Qed.

Lemma trotter_pure js h dt sp : 2 <= length sp -> length js = length sp -> length h = length sp ->
  exists sp', trotter N js h dt sp = Ok sp' /\ length sp' = length sp /\
    forall p, at3 N sp' p =
      trotF (2 * (length sp / 2)) (at3 N js) (at3 N h) (ndiv N dt (nofZ N 2)) dt (at3 N sp) p.
Proof.
  intros Hn Hj Hh. set (l := length sp / 2). assert (1 <= l) by (unfold l; lia).
  unfold trotter.
  destruct (stage_even js h (ndiv N dt (nofZ N 2)) sp l) as (sp1 & E1 & L1 & A1); auto.
  destruct (even_omega N sp js h) as [om1| |] eqn:Eo; cbn [bind] in E1; try discriminate.
  cbn [bind]. rewrite E1. cbn [bind].
  destruct (stage_odd js h dt sp1 l) as (sp2 & E2 & L2 & A2); try (rewrite L1; reflexivity); try congruence.
  destruct (odd_omega N sp1 js h) as [om2| |] eqn:Eo2; cbn [bind] in E2; try discriminate.
  cbn [bind]. rewrite E2. cbn [bind].
  destruct (stage_even js h (ndiv N dt (nofZ N 2)) sp2 l) as (sp3 & E3 & L3 & A3); try (rewrite L2, L1; reflexivity); try congruence.
  exists sp3. split; [exact E3|]. split; [congruence|].
  intro p. rewrite A3. unfold trotF. apply stageF_ext. intro q. rewrite A2. apply stageF_ext. exact A1.
Qed.

Definition fieldF (sc : chain (num N)) (s : nat) (he : V) (i : nat) : V :=
  if i <? s then sum_vec N (at3 N (static_h sc) i) he else at3 N (static_h sc) i.
Definition fieldF0 (s : nat) (he : V) (i : nat) : V := if i <? s then he else z3 N.

Lemma omF_ext M S J h S' J' h' p :
  S (lft M p) = S' (lft M p) -> S (rgt M p) = S' (rgt M p) -> J (lft M p) = J' (lft M p) ->
  J p = J' p -> h p = h' p -> omF M S J h p = omF M S' J' h' p.
Proof. intros H1 H2 H3 H4 H5. unfold omF. rewrite H1, H2, H3, H4, H5. reflexivity. Qed.

Lemma stageF_h M b J h h' dt S : (forall p, p < M -> h p = h' p) ->
  forall p, stageF M b J h dt S p = stageF M b J h' dt S p.
Proof.
  intros H p. unfold stageF. destruct (onsub M b p) eqn:E; [|reflexivity].
  apply onsub_spec in E. unfold omF. rewrite (H p) by tauto. reflexivity.
Qed.

Lemma trotF_h M J h h' dt2 dt S : (forall p, p < M -> h p = h' p) ->
  forall p, trotF M J h dt2 dt S p = trotF M J h' dt2 dt S p.
Proof.
  intros H p. unfold trotF.
  rewrite (stageF_h M 0 J h h' dt2 _ H). apply stageF_ext. intro q.
  rewrite (stageF_h M 1 J h h' dt _ H). apply stageF_ext. intro r. apply stageF_h. assumption.
Qed.

(** update on a well-formed chain *)
Lemma update_pure n s sc : wf n s sc -> 2 <= n -> hs_ok (vars sc) ->
  exists sp', update N sc = Ok (mkChain (j_couple sc) (static_h sc) sp'
                 (nadd N (t sc) (c_dt (vars sc))) (vars sc) (has_file sc)) /\
    length sp' = n /\
    forall p, at3 N sp' p =
      trotF (2 * (n / 2)) (at3 N (j_couple sc))
        (fieldF sc s (h_extP N (vars sc) (nadd N (t sc) (ndiv N (c_dt (vars sc)) (nofZ N 2)))))
        (ndiv N (c_dt (vars sc)) (nofZ N 2)) (c_dt (vars sc)) (at3 N (spins sc)) p.
Proof.
  intros W Hn Hh. unfold update; cbv zeta. rewrite h_ext_ok by assumption. cbn [bind].
  set (he := h_extP N _ _). set (hl := mapi _ 0 (static_h sc)).
  assert (Lh : length hl = n) by (unfold hl; rewrite mapi_length; apply (wf_hs _ _ _ W)).
  destruct (trotter_pure (j_couple sc) hl (c_dt (vars sc)) (spins sc)) as (sp' & E & L & A).
  { rewrite (wf_spins _ _ _ W); lia. }
  { rewrite (wf_js _ _ _ W), (wf_spins _ _ _ W). reflexivity. }
  { rewrite Lh, (wf_spins _ _ _ W). reflexivity. }
  rewrite E. cbn [bind]. exists sp'. split; [reflexivity|]. rewrite (wf_spins _ _ _ W) in *.
  split; [assumption|]. intro p. rewrite A. apply trotF_h. intros q Hq.
  unfold at3, hl. rewrite (nth_mapi _ _ 0 q _ (z3 N)) by (rewrite (wf_hs _ _ _ W); lia). cbn [plus].
  rewrite (wf_s W). reflexivity.
Qed.

Lemma update_no_field_pure n s sc : wf n s sc -> 2 <= n -> hs_ok (vars sc) ->
  exists sp', update_no_field N sc = Ok (mkChain (j_couple sc) (static_h sc) sp'
                 (nadd N (t sc) (c_dt (vars sc))) (vars sc) (has_file sc)) /\
    length sp' = n /\
    forall p, at3 N sp' p =
      trotF (2 * (n / 2)) (at3 N (j_couple sc))
        (fieldF0 s (h_extP N (vars sc) (nadd N (t sc) (ndiv N (c_dt (vars sc)) (nofZ N 2)))))
        (ndiv N (c_dt (vars sc)) (nofZ N 2)) (c_dt (vars sc)) (at3 N (spins sc)) p.
Proof.
  intros W Hn Hh. unfold update_no_field; cbv zeta. rewrite h_ext_ok by assumption. cbn [bind].
  set (he := h_extP N _ _). set (hl := mapi _ 0 (static_h sc)).
  assert (Lh : length hl = n) by (unfold hl; rewrite mapi_length; apply (wf_hs _ _ _ W)).
  destruct (trotter_pure (j_couple sc) hl (c_dt (vars sc)) (spins sc)) as (sp' & E & L & A).
  { rewrite (wf_spins _ _ _ W); lia. }
  { rewrite (wf_js _ _ _ W), (wf_spins _ _ _ W). reflexivity. }
  { rewrite Lh, (wf_spins _ _ _ W). reflexivity. }
  rewrite E. cbn [bind]. exists sp'. split; [reflexivity|]. rewrite (wf_spins _ _ _ W) in *.
  split; [assumption|]. intro p. rewrite A. apply trotF_h. intros q Hq.
  unfold at3, hl. rewrite (nth_mapi _ _ 0 q _ (z3 N)) by (rewrite (wf_hs _ _ _ W); lia). cbn [plus].
  rewrite (wf_s W). reflexivity.
Qed.

(** ** Locality *)
Lemma stageF_local M b J h dt S S' J' h' p :
  S p = S' p -> S (lft M p) = S' (lft M p) -> S (rgt M p) = S' (rgt M p) ->
  J (lft M p) = J' (lft M p) -> J p = J' p -> h p = h' p ->
  stageF M b J h dt S p = stageF M b J' h' dt S' p.
Proof.
  intros. unfold stageF. destruct (onsub M b p); [|assumption].
  rewrite (omF_ext M S J h S' J' h' p) by assumption. rewrite H. reflexivity.
Qed.
End Gen.

(** Site at signed distance d from p on the ring of M sites *)
Definition site (M p : nat) (d : Z) : nat := Z.to_nat ((Z.of_nat p + d) mod Z.of_nat M).

Lemma site_0 M p : p < M -> site M p 0 = p.
Proof. intro H. unfold site. rewrite Z.add_0_r, Z.mod_small by lia. lia. Qed.

Lemma site_lt M p d : p < M -> site M p d < M.
Proof. intro H. unfold site. pose proof (Z.mod_pos_bound (Z.of_nat p + d) (Z.of_nat M)). lia. Qed.

Lemma lft_site M p d : p < M -> lft M (site M p d) = site M p (d - 1).
Proof.
  intro H. pose proof (site_lt M p d H) as Hl. unfold lft.
  assert (E : Z.of_nat (site M p d) = ((Z.of_nat p + d) mod Z.of_nat M)%Z).
  { unfold site. rewrite Z2Nat.id; [reflexivity|]. apply Z.mod_pos_bound; lia. }
  unfold site at 3. replace (Z.of_nat p + (d - 1))%Z with ((Z.of_nat p + d) - 1)%Z by lia.
  rewrite Zminus_mod, <- E.
  destruct (Nat.eqb_spec (site M p d) 0) as [E0|E0].
  - rewrite E0. destruct (Nat.eq_dec M 1); [subst M; reflexivity|].
    rewrite (Z.mod_small 1) by lia. cbn [Z.of_nat].
    change (0 - 1)%Z with (-1)%Z. rewrite <- (Z.mod_add (-1) 1) by lia. rewrite Z.mod_small by lia. lia.
  - rewrite (Z.mod_small 1) by lia. rewrite Z.mod_small by lia. lia.
Qed.

Lemma rgt_site M p d : p < M -> rgt M (site M p d) = site M p (d + 1).
Proof.
  intro H. pose proof (site_lt M p d H) as Hl. unfold rgt.
  assert (E : Z.of_nat (site M p d) = ((Z.of_nat p + d) mod Z.of_nat M)%Z).
  { unfold site. rewrite Z2Nat.id; [reflexivity|]. apply Z.mod_pos_bound; lia. }
  unfold site at 3. rewrite Z.add_assoc, Zplus_mod, <- E.
  destruct (Nat.eqb_spec (site M p d + 1) M) as [E0|E0].
  - destruct (Nat.eq_dec M 1); [subst M; rewrite Z.mod_1_r; reflexivity|].
    rewrite (Z.mod_small 1) by lia. replace (Z.of_nat (site M p d) + 1)%Z with (Z.of_nat M) by lia.
    rewrite Z_mod_same_full. reflexivity.
  - rewrite (Z.mod_small 1) by lia. rewrite Z.mod_small by lia. lia.
Qed.

Section Local.
Context (N : NumOps).
Notation V := (v3 (num N)).
Implicit Types S J h : nat -> V.

Lemma stageF_site M b J h J' h' dt S S' p d : p < M ->
  S (site M p d) = S' (site M p d) ->
  (site M p d mod 2 = b ->
   S (site M p (d - 1)) = S' (site M p (d - 1)) /\ S (site M p (d + 1)) = S' (site M p (d + 1)) /\
   J (site M p (d - 1)) = J' (site M p (d - 1)) /\ J (site M p d) = J' (site M p d) /\
   h (site M p d) = h' (site M p d)) ->
  stageF N M b J h dt S (site M p d) = stageF N M b J' h' dt S' (site M p d).
Proof.
  intros Hp H0 H. unfold stageF. destruct (onsub M b (site M p d)) eqn:E; [|assumption].
  apply onsub_spec in E. destruct (H (proj2 E)) as (H1 & H2 & H3 & H4 & H5).
  rewrite H0. f_equal. apply omF_ext; rewrite ?lft_site, ?rgt_site by assumption; assumption.
Qed.

(** Even sites depend on a neighbourhood of radius 3, odd sites on one of radius 2 *)
Lemma trotF_local M J h J' h' dt2 dt S S' p r : p < M -> M mod 2 = 0 ->
  r = (if p mod 2 =? 0 then 3%Z else 2%Z) ->
  (forall d, (- r <= d <= r)%Z -> S (site M p d) = S' (site M p d)) ->
  (forall d, (- r <= d < r)%Z -> J (site M p d) = J' (site M p d)) ->
  (forall d, (- r < d < r)%Z -> h (site M p d) = h' (site M p d)) ->
  trotF N M J h dt2 dt S p = trotF N M J' h' dt2 dt S' p.
Proof.
  intros Hp HM Hr HS HJ Hh.
  assert (Par : forall d, (site M p d mod 2 = if Z.even d then p mod 2 else 1 - p mod 2)).
  { intro d. unfold site. apply Nat2Z.inj. rewrite Nat2Z.inj_mod, Z2Nat.id by (apply Z.mod_pos_bound; lia).
    change (Z.of_nat 2) with 2%Z.
    rewrite <- Znumtheory.Zmod_div_mod by (lia || apply Z.mod_divide; lia).
    destruct (Z.even d) eqn:Ed.
    - apply Z.even_spec in Ed. destruct Ed as [k ->]. lia.
    - assert (H : Z.odd d = true) by (rewrite <- Z.negb_even, Ed; reflexivity).
      apply Z.odd_spec in H. destruct H as [k ->]. lia. }
  assert (S1 : forall d, (- r < d < r)%Z ->
     stageF N M 0 J h dt2 S (site M p d) = stageF N M 0 J' h' dt2 S' (site M p d)).
  { intros d Hd. apply stageF_site; auto; [apply HS; lia|]. intros _. repeat split; (apply HS || apply HJ || apply Hh); lia. }
  assert (S2 : forall d, (- (r - 2) < d < (r - 2) \/ (d = 0 \/ (r = 3 /\ Z.abs d <= 1)))%Z ->
     stageF N M 1 J h dt (stageF N M 0 J h dt2 S) (site M p d) =
     stageF N M 1 J' h' dt (stageF N M 0 J' h' dt2 S') (site M p d)).
  { intros d Hd. apply stageF_site; [assumption| |].
    - apply S1. destruct (p mod 2 =? 0); lia.
    - intros Hp1. repeat split; (apply S1 || apply HJ || apply Hh); destruct (p mod 2 =? 0); lia. }
  unfold trotF. rewrite <- (site_0 M p Hp) at 1 2.
  apply stageF_site; [assumption| |].
  - apply S2. lia.
  - rewrite Par. cbn [Z.even]. intro Hp0. rewrite Hp0 in Hr. cbn in Hr.
    repeat split; (apply S2 || apply HJ || apply Hh); lia.
Qed.

(** Sites outside the ring are left alone *)
Lemma trotF_out M J h dt2 dt S p : M <= p -> trotF N M J h dt2 dt S p = S p.
Proof.
  intro H. unfold trotF, stageF. assert (E : forall b, onsub M b p = false).
  { intro b. unfold onsub. destruct (Nat.ltb_spec p M); [lia|reflexivity]. }
  rewrite !E. reflexivity.
Qed.
End Local.
