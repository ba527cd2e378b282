(** The dynamical step in exact arithmetic: energy, time reversal, and the passage from
    numbers-with-NaN to real numbers. *)
From Coq Require Import Reals Lra Lia List ZArith Arith Bool.
From Verif Require Import Num Monad NumR Spin Config Chain SpecVec SpecChain
  ProofsSpin ProofsChain ProofsEnergy ProofsDrive ProofsNew ProofsDyn.
Import ListNotations.
Local Open Scope R_scope.

(** ** Ring arithmetic *)
Lemma lft_lt M p : (p < M)%nat -> (lft M p < M)%nat.
Proof. unfold lft. destruct (Nat.eqb_spec p 0); lia. Qed.
Lemma rgt_lt M p : (p < M)%nat -> (rgt M p < M)%nat.
Proof. unfold rgt. destruct (Nat.eqb_spec (p + 1) M); lia. Qed.
Lemma rgt_mod M p : (p < M)%nat -> rgt M p = ((p + 1) mod M)%nat.
Proof.
  intro H. unfold rgt. destruct (Nat.eqb_spec (p + 1) M) as [E|E].
  - rewrite E, Nat.mod_same by lia. reflexivity.
  - rewrite Nat.mod_small by lia. reflexivity.
Qed.
Lemma lft_rgt M p : (p < M)%nat -> lft M (rgt M p) = p.
Proof.
  intro H. unfold rgt, lft. destruct (Nat.eqb_spec (p + 1) M) as [E|E].
  - cbn. lia.
  - destruct (Nat.eqb_spec (p + 1) 0); lia.
Qed.
Lemma rgt_lft M p : (p < M)%nat -> rgt M (lft M p) = p.
Proof.
  intro H. unfold lft. destruct (Nat.eqb_spec p 0) as [E|E]; unfold rgt.
  - destruct (Nat.eqb_spec (M - 1 + 1) M); lia.
  - destruct (Nat.eqb_spec (p - 1 + 1) M); lia.
Qed.
Lemma par_rgt M p : (p < M)%nat -> (M mod 2 = 0)%nat -> (rgt M p mod 2 = 1 - p mod 2)%nat.
Proof. intros H HM. unfold rgt. destruct (Nat.eqb_spec (p + 1) M); lia. Qed.
Lemma par_lft M p : (p < M)%nat -> (M mod 2 = 0)%nat -> (lft M p mod 2 = 1 - p mod 2)%nat.
Proof. intros H HM. unfold lft. destruct (Nat.eqb_spec p 0); lia. Qed.

Lemma Rsum_rgt M (F : nat -> R) : (1 <= M)%nat -> Rsum M (fun i => F (rgt M i)) = Rsum M F.
Proof.
  intro H. rewrite (Rsum_ext M (fun i => F (rgt M i)) (fun i => (fun _ k => F k) i ((i + 1) mod M)%nat)).
  2:{ intros i Hi. rewrite rgt_mod by assumption. reflexivity. }
  rewrite (Rsum_ring M (fun _ k => F k)) by assumption.
  destruct M as [|k]; [lia|]. rewrite (Rsum_first k F). replace (S k - 1)%nat with k by lia.
  rewrite Rplus_comm. f_equal. apply Rsum_ext. intros i _. f_equal. lia.
Qed.

(** The field on site i *)
Definition om (M : nat) (S J B : nat -> vec) (i : nat) : vec :=
  vsub (vadd (vhad (J (lft M i)) (S (lft M i))) (vhad (J i) (S (rgt M i)))) (B i).

Lemma omF_R M S J B i : omF RNum M S J B i = om M S J B i.
Proof. apply v3_ext; cbn; ring. Qed.
Lemma omF_ER M S J B i :
  omF ERNum M (fun p => fin3 (S p)) (fun p => fin3 (J p)) (fun p => fin3 (B p)) i = fin3 (om M S J B i).
Proof. unfold omF, om. reflexivity. Qed.

(** ** One rotation *)
Lemma rotate_R_nrm_unit s f dt : unit3 s -> unit3 (rotate RNum s f dt).
Proof.
  intro H. destruct (Req_dec (norm f) 0) as [E|E].
  - assert (f = vzero) by (apply dot_zero; rewrite <- norm_sq, E; ring). subst.
    rewrite rotate_R_zero; assumption.
  - rewrite rotate_R_unit_eq by assumption. apply rodr_unit; [|assumption].
    apply nrm_unit. intro; subst; apply E, norm_vzero.
Qed.
Lemma rotate_R_dot s f dt : unit3 s -> dot (rotate RNum s f dt) f = dot s f.
Proof.
  intro H. destruct (Req_dec (norm f) 0) as [E|E].
  - assert (f = vzero) by (apply dot_zero; rewrite <- norm_sq, E; ring). subst.
    rewrite rotate_R_zero; auto.
  - rewrite rotate_R_unit_eq by assumption.
    assert (U : unit3 (nrm f)) by (apply nrm_unit; intro; subst; apply E, norm_vzero).
    assert (D : forall a, dot a f = norm f * dot a (nrm f)).
    { intro a. rewrite <- (nrm_back f) at 1. unfold dot; cbn; ring. }
    rewrite !D, rodr_axis by assumption. reflexivity.
Qed.
Lemma rotate_R_add s f a b : unit3 s -> rotate RNum (rotate RNum s f a) f b = rotate RNum s f (a + b).
Proof.
  intro H. destruct (Req_dec (norm f) 0) as [E|E].
  - assert (f = vzero) by (apply dot_zero; rewrite <- norm_sq, E; ring). subst.
    rewrite (rotate_R_zero s a), !rotate_R_zero by assumption. reflexivity.
  - assert (U : unit3 (nrm f)) by (apply nrm_unit; intro; subst; apply E, norm_vzero).
    rewrite (rotate_R_unit_eq s) by assumption.
    rewrite rotate_R_unit_eq by (apply rodr_unit; assumption).
    rewrite (rotate_R_unit_eq s) by assumption.
    rewrite rodr_add by assumption. f_equal. ring.
Qed.
Lemma rotate_R_0 s f : unit3 s -> rotate RNum s f 0 = s.
Proof. intro H. rewrite rotate_R_unit_eq by assumption. rewrite Rmult_0_r. apply rodr_0. Qed.

(** ** Stages over the reals *)
Section Stage.
Variables (M : nat) (J B : nat -> vec).
Hypothesis HM : (M mod 2 = 0)%nat.
Notation units S := (forall p, (p < M)%nat -> unit3 (S p)).

Lemma stage_unit b dt S : units S -> units (stageF RNum M b J B dt S).
Proof.
  intros H p Hp. unfold stageF. destruct (onsub M b p); [apply rotate_R_nrm_unit|]; auto.
Qed.

(** The rotated sublattice does not feel its own motion *)
Lemma stage_om b dt S p : (p < M)%nat -> (p mod 2 = b)%nat ->
  om M (stageF RNum M b J B dt S) J B p = om M S J B p.
Proof.
  intros Hp Hb. unfold om. do 2 f_equal; f_equal; unfold stageF;
  match goal with |- (if ?c then _ else _) = _ => replace c with false; [reflexivity|] end;
  symmetry; apply not_true_iff_false; rewrite onsub_spec.
  - rewrite par_lft by assumption. lia.
  - rewrite par_rgt by assumption. lia.
Qed.

(** Energy by sublattice *)
Lemma ring_by_sub b S : (b < 2)%nat -> (1 <= M)%nat ->
  ring_energy M S J B =
  Rsum M (fun p => if (p mod 2 =? b)%nat then - dot (S p) (om M S J B p) else dot (B p) (S p)).
Proof.
  intros Hb H1. unfold ring_energy. rewrite Rsum_plus.
  set (G := fun p => if (p mod 2 =? b)%nat then bond S J (lft M p) p else 0).
  set (F := fun p => if (p mod 2 =? b)%nat then bond S J p (rgt M p) else 0).
  rewrite (Rsum_ext M (fun i => bond S J i ((i + 1) mod M)) (fun i => F i + G (rgt M i))).
  - rewrite Rsum_plus, Rsum_rgt by assumption. rewrite <- !Rsum_plus. apply Rsum_ext. intros i Hi.
    unfold F, G. destruct (Nat.eqb_spec (i mod 2) b).
    + unfold bond, om, dot; cbn. ring.
    + ring.
  - intros i Hi. unfold F, G. rewrite par_rgt, lft_rgt, <- rgt_mod by assumption.
    destruct (Nat.eqb_spec (i mod 2) b), (Nat.eqb_spec (1 - i mod 2) b); try lia; ring.
Qed.

Lemma stage_energy b dt S : (b < 2)%nat -> (1 <= M)%nat -> units S ->
  ring_energy M (stageF RNum M b J B dt S) J B = ring_energy M S J B.
Proof.
  intros Hb H1 HS. rewrite !(ring_by_sub b) by assumption. apply Rsum_ext. intros p Hp.
  destruct (Nat.eqb_spec (p mod 2) b) as [E|E].
  - rewrite stage_om by assumption. unfold stageF.
    replace (onsub M b p) with true by (symmetry; apply onsub_spec; auto).
    rewrite omF_R, rotate_R_dot; auto.
  - unfold stageF. replace (onsub M b p) with false; [reflexivity|].
    symmetry. apply not_true_iff_false. rewrite onsub_spec. lia.
Qed.

Lemma trot_unit dt2 dt S : units S -> units (trotF RNum M J B dt2 dt S).
Proof. intro H. unfold trotF. do 3 apply stage_unit. assumption. Qed.

Lemma trot_energy dt2 dt S : (1 <= M)%nat -> units S ->
  ring_energy M (trotF RNum M J B dt2 dt S) J B = ring_energy M S J B.
Proof.
  intros H1 H. unfold trotF. rewrite !stage_energy; auto using stage_unit.
Qed.

(** A stage is undone by the stage with opposite time *)
Lemma stage_add b a c S p : units S ->
  stageF RNum M b J B c (stageF RNum M b J B a S) p = stageF RNum M b J B (a + c) S p.
Proof.
  intro H. unfold stageF at 1. destruct (onsub M b p) eqn:E.
  - pose proof E as E'. apply onsub_spec in E'. destruct E' as [Hp Hb].
    rewrite omF_R, stage_om by assumption. unfold stageF. rewrite E, omF_R. apply rotate_R_add. auto.
  - unfold stageF. rewrite E. reflexivity.
Qed.
Lemma stage_0 b S p : units S -> stageF RNum M b J B 0 S p = S p.
Proof.
  intro H. unfold stageF. destruct (onsub M b p) eqn:E; [|reflexivity].
  apply onsub_spec in E. apply rotate_R_0, H, E.
Qed.
Lemma stage_back b a S p : units S ->
  stageF RNum M b J B (- a) (stageF RNum M b J B a S) p = S p.
Proof. intro H. rewrite stage_add by assumption. rewrite Rplus_opp_r. apply stage_0; assumption. Qed.

Lemma trot_back dt2 dt S p : units S ->
  trotF RNum M J B (- dt2) (- dt) (trotF RNum M J B dt2 dt S) p = S p.
Proof.
  intro H. unfold trotF.
  assert (U1 := stage_unit 0 dt2 S H). assert (U2 := stage_unit 1 dt _ U1).
  erewrite stageF_ext.
  2:{ intro q. erewrite stageF_ext by (intro r; apply stage_back; assumption). apply stage_back; assumption. }
  apply stage_back; assumption.
Qed.
End Stage.

(** ** From numbers with NaN to reals *)
Lemma er2_some f a b r : er2 f a b = Some r -> exists x y, a = Some x /\ b = Some y.
Proof. destruct a, b; cbn; intro H; try discriminate. eauto. Qed.

Lemma rotate_ER_args (s f : v3 ER) (dt : ER) v : rotate ERNum s f dt = fin3 v ->
  exists s0 f0 d0, s = fin3 s0 /\ f = fin3 f0 /\ dt = Some d0.
Proof.
  intro H. apply (f_equal vx) in H. unfold rotate in H. cbv zeta in H.
  cbn [vx vy vz fin3 v3map ndiv nsub nadd nmul ERNum] in H.
  destruct (er_div _ _) eqn:E in H; [clear H|discriminate].
  apply er_div_some in E. destruct E as (x & y & E & _ & _).
  apply er2_some in E. destruct E as (x1 & x2 & E & _).
  apply er2_some in E. destruct E as (x3 & x4 & E1 & E2).
  apply er2_some in E1. destruct E1 as (x5 & x6 & Esx & Edc).
  apply er2_some in E2. destruct E2 as (x7 & x8 & E2 & _).
  apply er2_some in E2. destruct E2 as (x9 & x10 & Efx & Eax).
  apply er2_some in Eax. destruct Eax as (x11 & x12 & Eax & Ez).
  apply er2_some in Ez. destruct Ez as (x13 & x14 & Esz & Efz).
  apply er2_some in Eax. destruct Eax as (x15 & x16 & Eax & Ey).
  apply er2_some in Ey. destruct Ey as (x17 & x18 & Esy & Efy).
  apply er_div_some in Efx, Efy, Efz.
  destruct Efx as (? & ? & Efx & _), Efy as (? & ? & Efy & _), Efz as (? & ? & Efz & _).
  destruct s as [sa sb sc], f as [fa fb fc]. cbn [vx vy vz] in *. subst.
  destruct dt as [d|].
  - match goal with |- exists _ _ _, mk3 (Some ?a) (Some ?b) (Some ?c) = _ /\ mk3 (Some ?e) (Some ?g) (Some ?h) = _ /\ _ =>
      exists (mk3 a b c), (mk3 e g h), d end. repeat split.
  - exfalso. change (ncos ERNum (nmul ERNum ?a None)) with (er1 cos (er2 Rmult a None)) in Edc.
    rewrite er2_none_r in Edc. discriminate.
Qed.

Notation finF S := (fun p : nat => fin3 (S p)).

Section StageER.
Variables (M : nat) (J B : nat -> vec).
Notation units S := (forall p, (p < M)%nat -> unit3 (S p)).

Lemma stage_ER_ok b dt (S : nat -> vec) : units S ->
  (forall p, onsub M b p = true -> om M S J B p <> vzero) ->
  forall p, stageF ERNum M b (finF J) (finF B) (Some dt) (finF S) p = fin3 (stageF RNum M b J B dt S p).
Proof.
  intros HS H p. unfold stageF. destruct (onsub M b p) eqn:E; [|reflexivity].
  rewrite omF_R, omF_ER. refine (rotate_ER_R _ _ _ _ (H p E)). apply unit3_nonzero, HS. apply onsub_spec in E. tauto.
Qed.

Lemma stage_ER_arg b (Jx Bx : nat -> v3 (num ERNum)) dt (X : nat -> v3 (num ERNum)) p v :
  stageF ERNum M b Jx Bx dt X p = fin3 v -> exists w, X p = fin3 w.
Proof.
  unfold stageF. destruct (onsub M b p); intro H; [|eauto].
  apply rotate_ER_args in H. destruct H as (w & _ & _ & H & _). eauto.
Qed.

Lemma stage_ER_om b dt (S : nat -> vec) :
  (forall p, exists v, stageF ERNum M b (finF J) (finF B) (Some dt) (finF S) p = fin3 v) ->
  forall p, onsub M b p = true -> om M S J B p <> vzero.
Proof.
  intros H p Hp E. destruct (H p) as [v Hv]. unfold stageF in Hv. rewrite Hp, omF_ER, E in Hv.
  rewrite rotate_ER_zero_field in Hv. discriminate.
Qed.

(** No local field vanishes during the step *)
Definition nv (dt2 dt : R) (S : nat -> vec) : Prop :=
  let S1 := stageF RNum M 0 J B dt2 S in
  let S2 := stageF RNum M 1 J B dt S1 in
  (forall p, onsub M 0 p = true -> om M S J B p <> vzero) /\
  (forall p, onsub M 1 p = true -> om M S1 J B p <> vzero) /\
  (forall p, onsub M 0 p = true -> om M S2 J B p <> vzero).

Lemma trot_ER_ok dt2 dt S : units S -> nv dt2 dt S ->
  forall p, trotF ERNum M (finF J) (finF B) (Some dt2) (Some dt) (finF S) p
            = fin3 (trotF RNum M J B dt2 dt S p).
Proof.
  intros HS (H1 & H2 & H3) p. unfold trotF.
  assert (U1 : units (stageF RNum M 0 J B dt2 S)) by (apply stage_unit; assumption).
  assert (U2 : units (stageF RNum M 1 J B dt (stageF RNum M 0 J B dt2 S))) by (apply stage_unit; assumption).
  rewrite <- (stage_ER_ok 0 dt2 _ U2 H3). apply stageF_ext. intro q.
  rewrite <- (stage_ER_ok 1 dt _ U1 H2). apply stageF_ext. intro r.
  apply (stage_ER_ok 0 dt2 _ HS H1).
Qed.

Lemma trot_ER_arg (Jx Bx : nat -> v3 (num ERNum)) dt2 dt X p v :
  trotF ERNum M Jx Bx dt2 dt X p = fin3 v -> exists w, X p = fin3 w.
Proof.
  unfold trotF. intro H. apply stage_ER_arg in H. destruct H as [w H].
  apply stage_ER_arg in H. destruct H as [w' H]. apply stage_ER_arg in H. exact H.
Qed.

Lemma trot_ER_nv dt2 dt S : units S ->
  (forall p, exists v, trotF ERNum M (finF J) (finF B) (Some dt2) (Some dt) (finF S) p = fin3 v) ->
  nv dt2 dt S.
Proof.
  intros HS H. unfold trotF in H.
  assert (F2 : forall p, exists v, stageF ERNum M 1 (finF J) (finF B) (Some dt)
             (stageF ERNum M 0 (finF J) (finF B) (Some dt2) (finF S)) p = fin3 v).
  { intro p. destruct (H p) as [v Hv]. apply stage_ER_arg in Hv. exact Hv. }
  assert (F1 : forall p, exists v, stageF ERNum M 0 (finF J) (finF B) (Some dt2) (finF S) p = fin3 v).
  { intro p. destruct (F2 p) as [v Hv]. apply stage_ER_arg in Hv. exact Hv. }
  assert (N1 := stage_ER_om 0 dt2 S F1).
  assert (U1 : units (stageF RNum M 0 J B dt2 S)) by (apply stage_unit; assumption).
  assert (E1 := stage_ER_ok 0 dt2 S HS N1).
  assert (N2 : forall p, onsub M 1 p = true -> om M (stageF RNum M 0 J B dt2 S) J B p <> vzero).
  { apply (stage_ER_om 1 dt). intro p. destruct (F2 p) as [v Hv]. exists v. rewrite <- Hv.
    apply stageF_ext. intro q. symmetry. apply E1. }
  assert (U2 : units (stageF RNum M 1 J B dt (stageF RNum M 0 J B dt2 S))) by (apply stage_unit; assumption).
  assert (E2 := stage_ER_ok 1 dt _ U1 N2).
  split; [exact N1|]. split; [exact N2|].
  apply (stage_ER_om 0 dt2). intro p. destruct (H p) as [v Hv]. exists v. rewrite <- Hv.
  apply stageF_ext. intro q. rewrite <- E2. apply stageF_ext. intro r. symmetry; apply E1.
Qed.

(** In every case a spin of the ring that comes out finite is a unit vector *)
Lemma rotate_ER_unit_out (s f : v3 ER) dt v : rotate ERNum s f dt = fin3 v -> unit3 v.
Proof.
  intro H. pose proof H as H'. apply rotate_ER_args in H. destruct H as (s0 & f0 & d0 & -> & -> & ->).
  destruct (rotate_ER_fin _ _ _ _ H') as (Hs & Hf & -> & _).
  apply nrm_unit, rodr_nonzero; [apply nrm_unit|]; assumption.
Qed.
End StageER.
Lemma trot_ER_unit M (Jx Bx : nat -> v3 (num ERNum)) dt2 dt X p v : (p < M)%nat ->
  trotF ERNum M Jx Bx dt2 dt X p = fin3 v -> unit3 v.
Proof.
  intros Hp H. unfold trotF, stageF in H. destruct (onsub M 0 p) eqn:E0.
  - apply rotate_ER_unit_out in H; assumption.
  - destruct (onsub M 1 p) eqn:E1; [apply rotate_ER_unit_out in H; assumption|].
    exfalso. apply not_true_iff_false in E0, E1. rewrite onsub_spec in E0, E1. lia.
Qed.

(** ** The step on real chains *)
Definition mid (sc : chain R) : R := t sc + c_dt (vars sc) / 2.
Definition stepR (n s : nat) (sc : chain R) : chain R :=
  mkChain (j_couple sc) (static_h sc)
    (map (trotF RNum (2 * (n / 2)) (J_ sc) (B_ sc s (mid sc)) (c_dt (vars sc) / 2) (c_dt (vars sc)) (S_ sc))
         (seq 0 n))
    (t sc + c_dt (vars sc)) (vars sc) (has_file sc).
Definition nvc (n s : nat) (sc : chain R) : Prop :=
  nv (2 * (n / 2)) (J_ sc) (B_ sc s (mid sc)) (c_dt (vars sc) / 2) (c_dt (vars sc)) (S_ sc).

Lemma S_step n s sc p : (p < n)%nat ->
  S_ (stepR n s sc) p = trotF RNum (2 * (n / 2)) (J_ sc) (B_ sc s (mid sc)) (c_dt (vars sc) / 2) (c_dt (vars sc)) (S_ sc) p.
Proof. intro H. unfold S_, stepR, at_; cbn [spins]. rewrite nth_map_seq by assumption. reflexivity. Qed.

Lemma wf_step n s sc : wf n s sc -> wf n s (stepR n s sc).
Proof.
  intros [A B C D E F G]. constructor; cbn [stepR vars spins j_couple static_h]; auto.
  rewrite map_length, seq_length. reflexivity.
Qed.

Lemma unit_spins_iff n s sc : wf n s sc -> (unit_spins sc <-> forall p, (p < n)%nat -> unit3 (S_ sc p)).
Proof.
  intro W. split.
  - intros H p Hp. apply unit_at; [assumption|]. rewrite (wf_spins _ _ _ W). assumption.
  - intro H. apply Forall_forall. intros v Hv. apply (In_nth _ _ vzero) in Hv.
    destruct Hv as (p & Hp & <-). apply H. rewrite <- (wf_spins _ _ _ W). exact Hp.
Qed.

Lemma unit_step n s sc : wf n s sc -> unit_spins sc -> unit_spins (stepR n s sc).
Proof.
  intros W H. apply (unit_spins_iff n s _ (wf_step n s sc W)). intros p Hp. rewrite S_step by assumption.
  pose proof (proj1 (unit_spins_iff n s sc W) H) as H0; clear H; rename H0 into H.
  destruct (le_lt_dec (2 * (n / 2)) p).
  - rewrite trotF_out by assumption. auto.
  - apply trot_unit; [|assumption]. intros q Hq. apply H. lia.
Qed.

Definition finspins (c : chain ER) : Prop := Forall (fun v => exists w, v = fin3 w) (spins c).

Lemma finspins_at (c : chain (num ERNum)) p : finspins c -> exists w, at3 ERNum (spins c) p = fin3 w.
Proof.
  intro H. unfold at3. destruct (lt_dec p (length (spins c))) as [L|L].
  - unfold finspins in H. rewrite Forall_forall in H. apply H, nth_In, L.
  - rewrite nth_overflow by lia. exists vzero. reflexivity.
Qed.
Lemma finspins_fin sc : finspins (fin sc).
Proof. unfold finspins; cbn. apply Forall_forall. intros v H. apply in_map_iff in H. destruct H as (w & <- & _). exists w. reflexivity. Qed.

Lemma list_fin3 (l : list (v3 (num ERNum))) : Forall (fun v => exists w, v = fin3 w) l -> exists k, l = map (v3map Some) k.
Proof.
  induction 1 as [|a l [w ->] H [k ->]]; [exists []; reflexivity|]. exists (w :: k). reflexivity.
Qed.

Lemma B_fin sc s p :
  fieldF ERNum (fin sc) s (fin3 (drive_field (vars sc) (mid sc))) p = fin3 (B_ sc s (mid sc) p).
Proof. unfold fieldF, B_. rewrite hs_fin. destruct (p <? s)%nat; [apply sum_vec_fin|reflexivity]. Qed.

Lemma two_nz : IZR 2 <> 0. Proof. lra. Qed.

Lemma update_fin_pure n s sc : wf n s sc -> (2 <= n)%nat -> drive_ok (vars sc) ->
  exists sp', update ERNum (fin sc) = Ok (mkChain (j_couple (fin sc)) (static_h (fin sc)) sp'
                 (Some (t sc + c_dt (vars sc))) (vars (fin sc)) (has_file sc)) /\
    length sp' = n /\
    forall p, at3 ERNum sp' p =
      trotF ERNum (2 * (n / 2)) (finF (J_ sc)) (finF (B_ sc s (mid sc)))
        (Some (c_dt (vars sc) / 2)) (Some (c_dt (vars sc))) (finF (S_ sc)) p.
Proof.
  intros W Hn Hd. pose proof (proj2 (wf_fin n s sc) W) as W'.
  destruct (update_pure ERNum n s (fin sc) W' Hn) as (sp' & E & L & A).
  { apply hs_ok_fin, drive_ok_hs, Hd. }
  exists sp'. split; [exact E|]. split; [exact L|]. intro p. rewrite A.
  change (vars (fin sc)) with (config_map (@Some R) (vars sc)). change (t (fin sc)) with (Some (t sc)).
  cbn [config_map c_dt].
  change (ndiv ERNum (Some (c_dt (vars sc))) (nofZ ERNum 2)) with (er_div (Some (c_dt (vars sc))) (Some 2)).
  rewrite er_div_ok by lra.
  change (nadd ERNum (Some (t sc)) (Some (c_dt (vars sc) / 2))) with (Some (mid sc)).
  rewrite h_extP_fin by assumption.
  unfold trotF.
  assert (ST : forall b dt (X Y : nat -> v3 (num ERNum)), (forall q, X q = Y q) -> forall q,
     stageF ERNum (2 * (n / 2)) b (at3 ERNum (j_couple (fin sc)))
       (fieldF ERNum (fin sc) s (fin3 (drive_field (vars sc) (mid sc)))) dt X q =
     stageF ERNum (2 * (n / 2)) b (finF (J_ sc)) (finF (B_ sc s (mid sc))) dt Y q).
  { intros b dt X Y HXY q. apply stageF_local; auto using js_fin; try apply HXY.
    apply B_fin. }
  apply ST. intro q. apply ST. intro r. apply ST. intro u. apply spins_fin.
Qed.

Lemma fin3_list_ext n (l : list (v3 (num ERNum))) (k : list vec) : length l = n -> length k = n ->
  (forall p, (p < n)%nat -> at3 ERNum l p = fin3 (at_ k p)) -> l = map (v3map Some) k.
Proof.
  intros Hl Hk H. apply (list_ext_nth (z3 ERNum)).
  - rewrite map_length. transitivity n; [exact Hl|symmetry; exact Hk].
  - intros p Hp. rewrite Hl in Hp. specialize (H p Hp). unfold at3 in H. etransitivity; [exact H|].
    unfold at_. symmetry. change (z3 ERNum) with (v3map (@Some R) vzero). apply map_nth.
Qed.

Lemma update_ER n s sc : wf n s sc -> (2 <= n)%nat -> drive_ok (vars sc) -> unit_spins sc ->
  nvc n s sc -> update ERNum (fin sc) = Ok (fin (stepR n s sc)).
Proof.
  intros W Hn Hd Hu Hnv. destruct (update_fin_pure n s sc W Hn Hd) as (sp' & E & L & A).
  rewrite E. f_equal. unfold fin, chain_map, stepR; cbn [j_couple static_h spins t vars has_file].
  f_equal. apply (fin3_list_ext n); auto.
  - rewrite map_length, seq_length. reflexivity.
  - intros p Hp. rewrite A, trot_ER_ok.
    + unfold at_. rewrite nth_map_seq by assumption. reflexivity.
    + intros q Hq. apply (proj1 (unit_spins_iff n s sc W) Hu); lia.
    + exact Hnv.
Qed.

Lemma update_ER_nv n s sc c' : wf n s sc -> (2 <= n)%nat -> drive_ok (vars sc) -> unit_spins sc ->
  update ERNum (fin sc) = Ok c' -> finspins c' -> nvc n s sc.
Proof.
  intros W Hn Hd Hu H Hf. destruct (update_fin_pure n s sc W Hn Hd) as (sp' & E & L & A).
  assert (E' := eq_trans (eq_sym E) H). injection E' as <-.
  apply trot_ER_nv.
  - intros q Hq. apply (proj1 (unit_spins_iff n s sc W) Hu); lia.
  - intro p. rewrite <- A. apply (finspins_at _ p Hf).
Qed.

(** Finite spins come from finite spins *)
Lemma update_ER_back n s (c c' : chain (num ERNum)) : wf n s c -> (2 <= n)%nat -> hs_ok (vars c) ->
  update ERNum c = Ok c' -> wf n s c' /\ vars c' = vars c /\ (finspins c' -> finspins c).
Proof.
  intros W Hn Hd H. destruct (update_pure ERNum n s c W Hn Hd) as (sp' & E & L & A).
  assert (E' := eq_trans (eq_sym E) H). injection E' as <-.
  split; [|split; [reflexivity|]].
  - destruct W as [w1 w2 w3 w4 w5 w6 w7]. constructor; cbn; auto.
  - intro Hf. apply Forall_forall. intros v Hv. apply (In_nth _ _ (z3 ERNum)) in Hv.
    destruct Hv as (p & Hp & <-). destruct (finspins_at _ p Hf) as [w Hw].
    cbn [spins] in Hw. rewrite A in Hw. apply trot_ER_arg in Hw. exact Hw.
Qed.

Lemma iter_ER_back n s k : forall (c c' : chain (num ERNum)), wf n s c -> (2 <= n)%nat -> hs_ok (vars c) ->
  iterM (update ERNum) k c = Ok c' -> wf n s c' /\ vars c' = vars c /\ (finspins c' -> finspins c).
Proof.
  induction k; cbn [iterM]; intros c c' W Hn Hd H.
  - injection H as <-. auto.
  - destruct (update ERNum c) as [c1| |] eqn:E; try discriminate. cbn [bind] in H.
    destruct (update_ER_back n s c c1 W Hn Hd E) as (W1 & V1 & F1).
    destruct (IHk c1 c' W1 Hn) as (W2 & V2 & F2); [rewrite V1; assumption|exact H|].
    split; [assumption|]. split; [congruence|]. auto.
Qed.

Lemma fin_step_of n s sc c' : wf n s sc -> (2 <= n)%nat -> drive_ok (vars sc) -> unit_spins sc ->
  update ERNum (fin sc) = Ok c' -> finspins c' -> c' = fin (stepR n s sc) /\ nvc n s sc.
Proof.
  intros W Hn Hd Hu H Hf. pose proof (update_ER_nv n s sc c' W Hn Hd Hu H Hf) as Hnv.
  split; [|assumption]. pose proof (update_ER n s sc W Hn Hd Hu Hnv) as E.
  assert (E' := eq_trans (eq_sym E) H). injection E' as <-. reflexivity.
Qed.

Lemma iter_ER n s k : forall sc c', wf n s sc -> (2 <= n)%nat -> drive_ok (vars sc) -> unit_spins sc ->
  iterM (update ERNum) k (fin sc) = Ok c' -> finspins c' ->
  c' = fin (Nat.iter k (stepR n s) sc) /\ forall j, (j < k)%nat -> nvc n s (Nat.iter j (stepR n s) sc).
Proof.
  induction k; cbn [iterM]; intros sc c' W Hn Hd Hu H Hf.
  - injection H as <-. split; [reflexivity|]. intros; lia.
  - destruct (update ERNum (fin sc)) as [c1| |] eqn:E; try discriminate. cbn [bind] in H.
    pose proof (proj2 (wf_fin n s sc) W) as W'.
    assert (HO : hs_ok (vars (fin sc))) by (apply hs_ok_fin, drive_ok_hs, Hd).
    destruct (update_ER_back n s (fin sc) c1 W' Hn HO E) as (W1 & V1 & F1).
    destruct (iter_ER_back n s k c1 c' W1 Hn) as (W2 & V2 & F2); [rewrite V1; assumption|exact H|].
    destruct (fin_step_of n s sc c1 W Hn Hd Hu E (F2 Hf)) as [-> Hnv].
    destruct (IHk (stepR n s sc) c') as [E2 N2]; auto using wf_step, unit_step.
    split.
    + rewrite E2. f_equal. clear. induction k; [reflexivity|]. cbn. f_equal. exact IHk.
    + intros j Hj. destruct j; [exact Hnv|]. specialize (N2 j ltac:(lia)).
      replace (Nat.iter (S j) (stepR n s) sc) with (Nat.iter j (stepR n s) (stepR n s sc)); [exact N2|].
      clear. induction j; [reflexivity|]. cbn. f_equal. exact IHj.
Qed.

Lemma iter_ER_ok n s k : forall sc, wf n s sc -> (2 <= n)%nat -> drive_ok (vars sc) -> unit_spins sc ->
  (forall j, (j < k)%nat -> nvc n s (Nat.iter j (stepR n s) sc)) ->
  iterM (update ERNum) k (fin sc) = Ok (fin (Nat.iter k (stepR n s) sc)).
Proof.
  induction k; intros sc W Hn Hd Hu H; [reflexivity|]. cbn [iterM].
  etransitivity. { apply (f_equal (fun q => bind q _)). apply (update_ER n s sc W Hn Hd Hu (H 0%nat ltac:(lia))). }
  cbn [bind]. rewrite IHk; auto using wf_step, unit_step.
  - do 2 f_equal. clear. induction k; [reflexivity|]. cbn. f_equal. exact IHk.
  - intros j Hj. specialize (H (S j) ltac:(lia)).
    replace (Nat.iter j (stepR n s) (stepR n s sc)) with (Nat.iter (S j) (stepR n s) sc); [exact H|].
    clear. induction j; [reflexivity|]. cbn. f_equal. exact IHj.
Qed.
