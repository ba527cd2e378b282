(** The Langevin step as three sublattice rotations of site functions; any number type. *)
From Coq Require Import List ZArith Arith Lia Bool.
From Verif Require Import Num Monad Spin Config Chain Langevin SpecChain ProofsChain ProofsDyn.
Import ListNotations.
Local Open Scope nat_scope.
Ltac Zify.zify_post_hook ::= Z.div_mod_to_equations.

Section Gen.
Context (N : NumOps).
Notation V := (v3 (num N)).

(** The field that acts on site i of the open chain of M sites *)
Definition lomF (M : nat) (g dt : num N) (nl nr : V) (S J h : nat -> V) (i : nat) : V :=
  if i =? 0 then end_omega N g dt nl (J 0) (S 1) (h 0) (S 0)
  else if i =? M - 1 then end_omega N g dt nr (J (i - 1)) (S (i - 1)) (h i) (S i)
  else omF N M S J h i.

Definition lstageF M g dt nl nr (b : nat) (J h : nat -> V) (d : num N) (S : nat -> V) (p : nat) : V :=
  if onsub M b p then rotate N (S p) (lomF M g dt nl nr S J h p) d else S p.

Definition ltrotF M g dt nl nr (J h : nat -> V) (dt2 : num N) (S : nat -> V) : nat -> V :=
  lstageF M g dt nl nr 0 J h dt2 (lstageF M g dt nl nr 1 J h dt (lstageF M g dt nl nr 0 J h dt2 S)).

Lemma leven_pure g dt nl nr sp js h l : length sp / 2 = l -> 1 <= l ->
  length js = length sp -> length h = length sp ->
  leven_omega N g dt nl sp js h =
    Ok (map (fun k => lomF (2 * l) g dt nl nr (at3 N sp) (at3 N js) (at3 N h) (2 * k)) (seq 0 l)).
Proof.
  intros Hl Hl1 Hj Hh. unfold leven_omega. rewrite Hl. cbv zeta.
  rewrite !(idx_ok _ _ (z3 N)) by lia. cbn [bind].
  rewrite (mapM_ok _ (fun k => lomF (2 * l) g dt nl nr (at3 N sp) (at3 N js) (at3 N h) (2 * k))).
  - cbn [bind]. f_equal. destruct l; [lia|].
    cbn [seq map]. unfold range. replace (S l - 1) with l by lia. reflexivity.
  - intros k Hk. unfold range in Hk. apply in_seq in Hk.
    rewrite !(idx_ok _ _ (z3 N)) by lia. cbn [bind]. f_equal.
    unfold lomF, omF, lft, rgt, at3.
    destruct (Nat.eqb_spec (2 * k) 0); [lia|]. destruct (Nat.eqb_spec (2 * k) (2 * l - 1)); [lia|].
    destruct (Nat.eqb_spec (2 * k + 1) (2 * l)); [lia|].
    reflexivity.
Qed.

Lemma lodd_pure g dt nl nr sp js h l : length sp / 2 = l -> 1 <= l ->
  length js = length sp -> length h = length sp ->
  lodd_omega N g dt nr sp js h =
    Ok (map (fun k => lomF (2 * l) g dt nl nr (at3 N sp) (at3 N js) (at3 N h) (2 * k + 1)) (seq 0 l)).
Proof.
  intros Hl Hl1 Hj Hh. unfold lodd_omega. rewrite Hl. cbv zeta.
  rewrite usub_ok by lia. cbn [bind].
  rewrite (mapM_ok _ (fun k => lomF (2 * l) g dt nl nr (at3 N sp) (at3 N js) (at3 N h) (2 * k + 1))).
  - cbn [bind]. rewrite !(idx_ok _ _ (z3 N)) by lia. cbn [bind]. f_equal.
    destruct l; [lia|]. replace (S l - 1) with l by lia. rewrite range0.
    rewrite seq_S, map_app. cbn [map plus]. f_equal. f_equal.
    unfold lomF, at3.
    destruct (Nat.eqb_spec (2 * l + 1) 0); [lia|].
    destruct (Nat.eqb_spec (2 * l + 1) (2 * S l - 1)); [|lia].
    replace (2 * l + 1 - 1) with (2 * l) by lia. reflexivity.
  - intros k Hk. unfold range in Hk. apply in_seq in Hk.
    rewrite !(idx_ok _ _ (z3 N)) by lia. cbn [bind]. f_equal.
    unfold lomF, omF, lft, rgt, at3.
    destruct (Nat.eqb_spec (2 * k + 1) 0); [lia|]. destruct (Nat.eqb_spec (2 * k + 1) (2 * l - 1)); [lia|].
    destruct (Nat.eqb_spec (2 * k + 1 + 1) (2 * l)); [lia|].
    replace (2 * k + 1 - 1) with (2 * k) by lia. replace (2 * k + 2) with (2 * k + 1 + 1) by lia. reflexivity.
Qed.

Lemma lstage_even g dt nl nr js h d sp l : length sp / 2 = l -> 1 <= l -> length js = length sp -> length h = length sp ->
  exists sp', (let* om := leven_omega N g dt nl sp js h in rotate_sub N 0 0 om d sp) = Ok sp' /\
    length sp' = length sp /\
    forall p, at3 N sp' p = lstageF (2 * l) g dt nl nr 0 (at3 N js) (at3 N h) d (at3 N sp) p.
Proof.
  intros Hl Hl1 Hj Hh. rewrite (leven_pure g dt nl nr sp js h l) by assumption. cbn [bind].
  destruct (rotate_sub_pure N 0 d ltac:(lia)
    (map (fun k => lomF (2 * l) g dt nl nr (at3 N sp) (at3 N js) (at3 N h) (2 * k)) (seq 0 l)) 0 sp) as (sp' & E & L & A).
  { rewrite map_length, seq_length. lia. }
  exists sp'. split; [exact E|]. split; [exact L|]. intro p. rewrite A, map_length, seq_length.
  unfold lstageF, onsub. change (0 + l) with l.
  replace (2 * 0 + 0 <=? p) with true by (symmetry; apply Nat.leb_le; lia). cbn [andb].
  destruct (Nat.ltb_spec p (2 * l)); cbn [andb]; [|reflexivity].
  destruct (Nat.eqb_spec (p mod 2) 0); [|reflexivity].
  rewrite Nat.sub_0_r, nth_map_seq by lia. replace (2 * (p / 2)) with p by lia. reflexivity.
Qed.

Lemma lstage_odd g dt nl nr js h d sp l : length sp / 2 = l -> 1 <= l -> length js = length sp -> length h = length sp ->
  exists sp', (let* om := lodd_omega N g dt nr sp js h in rotate_sub N 1 0 om d sp) = Ok sp' /\
    length sp' = length sp /\
    forall p, at3 N sp' p = lstageF (2 * l) g dt nl nr 1 (at3 N js) (at3 N h) d (at3 N sp) p.
Proof.
  intros Hl Hl1 Hj Hh. rewrite (lodd_pure g dt nl nr sp js h l) by assumption. cbn [bind].
  destruct (rotate_sub_pure N 1 d ltac:(lia)
    (map (fun k => lomF (2 * l) g dt nl nr (at3 N sp) (at3 N js) (at3 N h) (2 * k + 1)) (seq 0 l)) 0 sp) as (sp' & E & L & A).
  { rewrite map_length, seq_length. lia. }
  exists sp'. split; [exact E|]. split; [exact L|]. intro p. rewrite A, map_length, seq_length.
  unfold lstageF, onsub. change (0 + l) with l.
  destruct (Nat.ltb_spec p (2 * l)); [|rewrite andb_false_r; reflexivity].
  destruct (Nat.eqb_spec (p mod 2) 1); [|rewrite !andb_false_r; reflexivity].
  replace (2 * 0 + 1 <=? p) with true by (symmetry; apply Nat.leb_le; lia). cbn [andb].
  rewrite Nat.sub_0_r, nth_map_seq by lia. replace (2 * (p / 2) + 1) with p by lia. reflexivity.
Qed.

Lemma lomF_ext M g dt nl nr S J h S' J' h' p : (forall q, S q = S' q) -> (forall q, J q = J' q) ->
  h p = h' p -> lomF M g dt nl nr S J h p = lomF M g dt nl nr S' J' h' p.
Proof.
  intros H1 H2 H3. unfold lomF, omF. rewrite !H1, !H2.
  destruct (Nat.eqb_spec p 0); [subst; rewrite !H3; reflexivity|].
  rewrite !H3. reflexivity.
Qed.

Lemma lstageF_ext M g dt nl nr b d J h S J' h' S' : (forall q, S q = S' q) -> (forall q, J q = J' q) ->
  (forall q, q < M -> h q = h' q) ->
  forall p, lstageF M g dt nl nr b J h d S p = lstageF M g dt nl nr b J' h' d S' p.
Proof.
  intros HS HJ Hh p. unfold lstageF. destruct (onsub M b p) eqn:E; [|apply HS].
  apply onsub_spec in E. rewrite HS, (lomF_ext M g dt nl nr S J h S' J' h' p); intuition.
Qed.

Lemma ltrotter_pure g dt nl nr js h sp : 2 <= length sp -> length js = length sp -> length h = length sp ->
  exists sp', ltrotter N g dt nl nr js h sp = Ok sp' /\ length sp' = length sp /\
    forall p, at3 N sp' p =
      ltrotF (2 * (length sp / 2)) g dt nl nr (at3 N js) (at3 N h) (ndiv N dt (nofZ N 2)) (at3 N sp) p.
Proof.
  intros Hn Hj Hh. set (l := length sp / 2). assert (1 <= l) by (unfold l; lia).
  unfold ltrotter.
  destruct (lstage_even g dt nl nr js h (ndiv N dt (nofZ N 2)) sp l) as (sp1 & E1 & L1 & A1); auto.
  destruct (leven_omega N g dt nl sp js h) as [om1| |] eqn:Eo; cbn [bind] in E1; try discriminate.
  cbn [bind]. rewrite E1. cbn [bind].
  destruct (lstage_odd g dt nl nr js h dt sp1 l) as (sp2 & E2 & L2 & A2); try (rewrite L1; reflexivity); try congruence.
  destruct (lodd_omega N g dt nr sp1 js h) as [om2| |] eqn:Eo2; cbn [bind] in E2; try discriminate.
  cbn [bind]. rewrite E2. cbn [bind].
  destruct (lstage_even g dt nl nr js h (ndiv N dt (nofZ N 2)) sp2 l) as (sp3 & E3 & L3 & A3); try (rewrite L2, L1; reflexivity); try congruence.
  exists sp3. split; [exact E3|]. split; [congruence|].
  intro p. rewrite A3. unfold ltrotF. apply lstageF_ext; auto. intro q. rewrite A2. apply lstageF_ext; auto.
Qed.

(** Standard deviation of the noise *)
Definition lsigma (sc : lchain (num N)) : num N :=
  nsqrt N (ndiv N (nmul N (nmul N (nofZ N 2) (gamma sc)) (c_dt (vars (base sc)))) (beta (vars (base sc)))).

Lemma lupdate_pure n s zl zr (sc : lchain (num N)) : wf n s (base sc) -> 2 <= n -> hs_ok (vars (base sc)) ->
  nfinite N (lsigma sc) = true ->
  let nz := v3map (fun z => nadd N (nofZ N 0) (nmul N (lsigma sc) z)) in
  exists sp', lupdate N zl zr sc = Ok (mkL (mkChain (j_couple (base sc)) (static_h (base sc)) sp'
                 (nadd N (t (base sc)) (c_dt (vars (base sc)))) (vars (base sc)) (has_file (base sc))) (gamma sc)) /\
    length sp' = n /\
    forall p, at3 N sp' p =
      ltrotF (2 * (n / 2)) (gamma sc) (c_dt (vars (base sc))) (nz zl) (nz zr) (at3 N (j_couple (base sc)))
        (fieldF N (base sc) s (h_extP N (vars (base sc)) (nadd N (t (base sc)) (c_dt (vars (base sc))))))
        (ndiv N (c_dt (vars (base sc))) (nofZ N 2)) (at3 N (spins (base sc))) p.
Proof.
  intros W Hn Hh Hs nz. unfold lupdate; cbv zeta. rewrite h_ext_ok by assumption. cbn [bind].
  fold (lsigma sc). unfold normal_new. rewrite Hs. cbn [bind].
  set (he := h_extP N _ _). set (hl := mapi _ 0 (static_h (base sc))).
  assert (Lh : length hl = n) by (unfold hl; rewrite mapi_length; apply (wf_hs _ _ _ W)).
  destruct (ltrotter_pure (gamma sc) (c_dt (vars (base sc))) (nz zl) (nz zr) (j_couple (base sc)) hl (spins (base sc)))
    as (sp' & E & L & A).
  { rewrite (wf_spins _ _ _ W); lia. }
  { rewrite (wf_js _ _ _ W), (wf_spins _ _ _ W). reflexivity. }
  { rewrite Lh, (wf_spins _ _ _ W). reflexivity. }
  change (v3map _ zl) with (nz zl). change (v3map _ zr) with (nz zr).
  rewrite E. cbn [bind]. exists sp'. split; [reflexivity|]. rewrite (wf_spins _ _ _ W) in *.
  split; [assumption|]. intro p. rewrite A.
  assert (Hq : forall q, q < 2 * (n / 2) -> at3 N hl q = fieldF N (base sc) s he q).
  { intros q Hq. unfold at3, hl. rewrite (nth_mapi _ _ 0 q _ (z3 N)) by (rewrite (wf_hs _ _ _ W); lia). cbn [plus].
    rewrite (wf_s W). reflexivity. }
  unfold ltrotF. apply lstageF_ext; auto. intro q. apply lstageF_ext; auto. intro r. apply lstageF_ext; auto.
Qed.

Lemma lupdate_nofinite n s zl zr (sc : lchain (num N)) : wf n s (base sc) -> hs_ok (vars (base sc)) ->
  nfinite N (lsigma sc) = false -> lupdate N zl zr sc = Panic Unwrap.
Proof.
  intros W Hh Hs. unfold lupdate; cbv zeta. rewrite h_ext_ok by assumption. cbn [bind].
  fold (lsigma sc). unfold normal_new. rewrite Hs. reflexivity.
Qed.

(** Sites beyond the last pair are not touched *)
Lemma ltrotF_out M g dt nl nr J h dt2 S p : M <= p -> ltrotF M g dt nl nr J h dt2 S p = S p.
Proof.
  intro H. unfold ltrotF, lstageF.
  assert (E : forall b, onsub M b p = false).
  { intro b. apply not_true_iff_false. rewrite onsub_spec. lia. }
  rewrite !E. reflexivity.
Qed.
End Gen.
