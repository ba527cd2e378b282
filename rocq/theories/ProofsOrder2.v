(** The splitting is accurate to second order. *)
From Coq Require Import Reals Lra Lia List ZArith Arith.
From Verif Require Import Num NumR Spin SpecVec SpecChain ProofsSpin ProofsEnergy ProofsDrive ProofsJet ProofsOrder ProofsDyn ProofsDynR.
Local Open Scope R_scope.

Lemma norm_had a v : norm (vhad a v) <= norm a * norm v.
Proof.
  destruct (comp_le_norm a) as (A & B & C). pose proof (norm_nonneg a) as H0.
  apply norm_le_sq; [apply Rmult_le_pos; auto using norm_nonneg|].
  replace (norm a * norm v * (norm a * norm v)) with (norm a * norm a * (norm v * norm v)) by ring.
  rewrite (norm_sq v). unfold dot, vhad; cbn [vx vy vz].
  assert (Q : forall x y, Rabs x <= norm a -> x * y * (x * y) <= norm a * norm a * (y * y)).
  { intros x y Hx. replace (x * y * (x * y)) with (x * x * (y * y)) by ring. apply Rmult_le_compat_r; [apply Rle_0_sqr|].
    rewrite <- (Rabs_pos_eq (x * x)) by (apply Rle_0_sqr). apply rmul_le; assumption. }
  pose proof (Q _ (vx v) A). pose proof (Q _ (vy v) B). pose proof (Q _ (vz v) C). lra.
Qed.
Lemma norm_tri3 a b c : norm (vsub a c) <= norm (vsub a b) + norm (vsub b c).
Proof.
  replace (vsub a c) with (vadd (vsub a b) (vsub b c)) by (apply v3_ext; cbn; ring). apply norm_triangle.
Qed.

(** What the neighbours contribute to the field *)
Definition lin (n : nat) (J u : nat -> vec) (i : nat) : vec :=
  vadd (vhad (J (lft n i)) (u (lft n i))) (vhad (J i) (u (rgt n i))).
Lemma om_lin n S J B i : om n S J B i = vsub (lin n J S i) (B i).
Proof. reflexivity. Qed.

(** the fields of the three stages of an exact step are at least [m] long *)
Definition far (M : nat) (J B : nat -> vec) (m dt2 dt : R) (S : nat -> vec) : Prop :=
  let S1 := stageF RNum M 0 J B dt2 S in
  let S2 := stageF RNum M 1 J B dt S1 in
  (forall p, (p < M)%nat -> (p mod 2 = 0)%nat -> m <= norm (om M S J B p)) /\
  (forall p, (p < M)%nat -> (p mod 2 = 1)%nat -> m <= norm (om M S1 J B p)) /\
  (forall p, (p < M)%nat -> (p mod 2 = 0)%nat -> m <= norm (om M S2 J B p)).

Section Ring.
Context (n : nat) (J : nat -> vec) (j : R).
Context (Hev : (n mod 2 = 0)%nat) (Hj : forall i, (i < n)%nat -> norm (J i) <= j) (Hj0 : 0 <= j).
Notation units S := (forall p, (p < n)%nat -> unit3 (S p)).

(** ** Stability *)
Lemma lin_bound u w i : (i < n)%nat -> (forall p, (p < n)%nat -> norm (u p) <= w) -> 0 <= w -> norm (lin n J u i) <= 2 * j * w.
Proof.
  intros Hi Hu Hw. unfold lin. eapply Rle_trans; [apply norm_triangle|].
  assert (A : forall p q, (p < n)%nat -> (q < n)%nat -> norm (vhad (J p) (u q)) <= j * w).
  { intros p q Hp Hq. eapply Rle_trans; [apply norm_had|]. apply Rmult_le_compat; auto using norm_nonneg. }
  pose proof (A (lft n i) (lft n i) (lft_lt n i Hi) (lft_lt n i Hi)). pose proof (A i (rgt n i) Hi (rgt_lt n i Hi)). lra.
Qed.
Lemma om_bound S B b i : (i < n)%nat -> units S -> norm (B i) <= b -> norm (om n S J B i) <= 2 * j + b.
Proof.
  intros Hi HS HB. rewrite om_lin. eapply Rle_trans; [apply norm_sub_le|].
  assert (norm (lin n J S i) <= 2 * j * 1); [|lra].
  apply lin_bound; auto; [|lra]. intros p Hp. rewrite unit3_norm by auto. lra.
Qed.
Lemma om_diff S S' B e i : (i < n)%nat -> (forall p, (p < n)%nat -> norm (vsub (S p) (S' p)) <= e) ->
  norm (vsub (om n S J B i) (om n S' J B i)) <= 2 * j * e.
Proof.
  intros Hi He. replace (vsub (om n S J B i) (om n S' J B i)) with (lin n J (fun p => vsub (S p) (S' p)) i)
    by (unfold om, lin; apply v3_ext; cbn; ring).
  apply (lin_bound (fun p => vsub (S p) (S' p))); auto. eapply Rle_trans; [apply norm_nonneg|apply (He i Hi)].
Qed.
Lemma stage_diff b0 B b S S' e x : units S -> units S' -> (forall p, (p < n)%nat -> norm (B p) <= b) -> 0 <= b -> 0 <= x <= 1 ->
  (forall p, (p < n)%nat -> norm (vsub (S p) (S' p)) <= e) ->
  forall p, (p < n)%nat -> norm (vsub (stageF RNum n b0 J B x S p) (stageF RNum n b0 J B x S' p)) <=
     (1 + x * ((1 + (2 * j + b)) * (2 * j))) * e + 4 * (2 * j + b) ^ 3 * x ^ 3.
Proof.
  intros HS HS' HB Hb Hx He p Hp. assert (He0 : 0 <= e) by (eapply Rle_trans; [apply norm_nonneg|apply (He p Hp)]).
  set (W := 2 * j + b). assert (W0 : 0 <= W) by (unfold W; lra).
  assert (P : 0 <= 4 * W ^ 3 * x ^ 3).
  { apply Rmult_le_pos; [apply Rmult_le_pos; [lra|]|]; apply pow_le; lra. }
  unfold stageF. destruct (onsub n b0 p).
  - rewrite !omF_R. eapply Rle_trans; [apply (rotate_diff _ _ _ _ x W); auto; apply om_bound; auto|].
    pose proof (om_diff S S' B e p Hp He) as D.
    assert (x * (1 + W) * norm (vsub (om n S J B p) (om n S' J B p)) <= x * (1 + W) * (2 * j * e)).
    { apply Rmult_le_compat_l; [apply Rmult_le_pos; lra|exact D]. }
    pose proof (He p Hp). replace ((1 + x * ((1 + W) * (2 * j))) * e) with (e + x * (1 + W) * (2 * j * e)) by ring.
    apply Rplus_le_compat; [apply Rplus_le_compat; assumption|]. apply Rle_refl.
  - pose proof (He p Hp). assert (0 <= x * ((1 + W) * (2 * j)) * e).
    { repeat apply Rmult_le_pos; lra. }
    replace ((1 + x * ((1 + W) * (2 * j))) * e) with (e + x * ((1 + W) * (2 * j)) * e) by ring.
    eapply Rle_trans; [eassumption|]. lra.
Qed.
Definition lip (b : R) : R := (1 + (2 * j + b)) * (2 * j).
Definition slack (b : R) : R := 4 * (2 * j + b) ^ 3.
Lemma trot_diff B b S S' e h : units S -> units S' -> (forall p, (p < n)%nat -> norm (B p) <= b) -> 0 <= b -> 0 <= h <= 1 -> 0 <= e ->
  (forall p, (p < n)%nat -> norm (vsub (S p) (S' p)) <= e) ->
  forall p, (p < n)%nat -> norm (vsub (trotF RNum n J B (h / 2) h S p) (trotF RNum n J B (h / 2) h S' p)) <=
     (1 + h * lip b) ^ 3 * e + ((1 + lip b) ^ 2 + (1 + lip b) + 1) * slack b * h ^ 3.
Proof.
  intros HS HS' HB Hb Hh He0 He.
  set (L := lip b). set (C := slack b).
  assert (L0 : 0 <= L) by (unfold L, lip; repeat apply Rmult_le_pos; lra).
  assert (C0 : 0 <= C) by (unfold C, slack; apply Rmult_le_pos; [lra|apply pow_le; lra]).
  assert (G : forall b0 x S S' e, units S -> units S' -> 0 <= e -> 0 <= x <= h -> (forall p, (p < n)%nat -> norm (vsub (S p) (S' p)) <= e) ->
    forall p, (p < n)%nat -> norm (vsub (stageF RNum n b0 J B x S p) (stageF RNum n b0 J B x S' p)) <= (1 + h * L) * e + C * h ^ 3).
  { intros b0 x T T' f HT HT' Hf Hx Hd p Hp.
    eapply Rle_trans; [apply (stage_diff b0 B b T T' f x); auto; lra|]. fold (lip b) (slack b). fold L C.
    apply Rplus_le_compat.
    - apply Rmult_le_compat_r; [exact Hf|]. apply Rplus_le_compat_l. apply Rmult_le_compat_r; lra.
    - apply Rmult_le_compat_l; [exact C0|]. apply pow_incr; lra. }
  intros p Hp. unfold trotF. 
  assert (h3 : 0 <= h ^ 3) by (apply pow_le; lra). assert (Ch : 0 <= C * h ^ 3) by (apply Rmult_le_pos; assumption).
  assert (hL : 0 <= h * L <= L).
  { split; [apply Rmult_le_pos; lra|]. rewrite <- (Rmult_1_l L) at 2. apply Rmult_le_compat_r; lra. }
  set (q := 1 + h * L) in *. assert (Hq : 0 <= q <= 1 + L) by (unfold q; lra).
  set (e1 := q * e + C * h ^ 3). assert (0 <= q * e) by (apply Rmult_le_pos; lra). assert (E1 : 0 <= e1) by (unfold e1; lra).
  set (e2 := q * e1 + C * h ^ 3). assert (0 <= q * e1) by (apply Rmult_le_pos; lra). assert (E2 : 0 <= e2) by (unfold e2; lra).
  assert (U1 : units (stageF RNum n 0 J B (h / 2) S)) by (apply stage_unit; assumption).
  assert (U1' : units (stageF RNum n 0 J B (h / 2) S')) by (apply stage_unit; assumption).
  assert (U2 : units (stageF RNum n 1 J B h (stageF RNum n 0 J B (h / 2) S))) by (apply stage_unit; assumption).
  assert (U2' : units (stageF RNum n 1 J B h (stageF RNum n 0 J B (h / 2) S'))) by (apply stage_unit; assumption).
  assert (K1 : forall p, (p < n)%nat -> norm (vsub (stageF RNum n 0 J B (h / 2) S p) (stageF RNum n 0 J B (h / 2) S' p)) <= e1).
  { apply G; auto; lra. }
  assert (K2 : forall p, (p < n)%nat -> norm (vsub (stageF RNum n 1 J B h (stageF RNum n 0 J B (h / 2) S) p)
     (stageF RNum n 1 J B h (stageF RNum n 0 J B (h / 2) S') p)) <= e2).
  { apply (G 1%nat h _ _ e1); auto; lra. }
  eapply Rle_trans; [apply (G 0%nat (h / 2) _ _ e2); auto; lra|].
  replace (q * e2 + C * h ^ 3) with (q ^ 3 * e + (q ^ 2 + q + 1) * (C * h ^ 3)) by (unfold e2, e1; ring).
  apply Rplus_le_compat_l. rewrite Rmult_assoc. apply Rmult_le_compat_r; [exact Ch|].
  assert (q ^ 2 <= (1 + L) ^ 2) by (apply pow_incr; lra). lra.
Qed.

(** ** The exact motion *)
Context (lo hi : R) (Hlh : lo <= hi) (Bf Bd : R -> nat -> vec) (X : R -> nat -> vec).
Notation vjet := (vjet lo hi).
Notation at_time := (at_time lo hi).
Definition Q (i : nat) : Prop := (i < n)%nat.
Definition Qp (b i : nat) : Prop := (i < n)%nat /\ (i mod 2 = b)%nat.
Context (HB : vjet Q 1 (fun r i h => Bf (r + h) i) Bf Bd (fun _ _ => vzero)).
Context (HX : forall x i, lo <= x <= hi -> (i < n)%nat -> has_velocity (fun r => X r i) x (cross (X x i) (om n (X x) J (Bf x) i))).
Context (HX0 : forall i, (i < n)%nat -> unit3 (X lo i)).

Lemma shift_deriv (g : R -> R) r h l : derivable_pt_lim g (r + h) l -> derivable_pt_lim (fun y => g (r + y)) h l.
Proof.
  intros H eps He. destruct (H eps He) as (d & Hd). exists d. intros k Hk Hkd.
  replace (r + (h + k)) with (r + h + k) by ring. apply Hd; assumption.
Qed.
Lemma X_unit x i : lo <= x <= hi -> (i < n)%nat -> unit3 (X x i).
Proof.
  intros Hx Hi. destruct (Req_dec x lo) as [->|N]; [auto|].
  set (g := fun r => dot (X r i) (X r i)).
  destruct (MVT_cor2 g (fun _ => 0) lo x) as (y & E & _); [lra| |].
  - intros y Hy. destruct (HX y i) as (A & B & C); [lra|exact Hi|]. 
    set (w := cross (X y i) (om n (X y) J (Bf y) i)) in *.
    replace 0 with ((vx w * vx (X y i) + vx (X y i) * vx w) + (vy w * vy (X y i) + vy (X y i) * vy w) + (vz w * vz (X y i) + vz (X y i) * vz w)).
    2:{ unfold w. generalize (om n (X y) J (Bf y) i), (X y i). intros o s. cbn. ring. }
    unfold g, dot.
    apply derivable_pt_lim_plus; [apply derivable_pt_lim_plus|].
    + apply (derivable_pt_lim_mult (fun r => vx (X r i)) (fun r => vx (X r i))); assumption.
    + apply (derivable_pt_lim_mult (fun r => vy (X r i)) (fun r => vy (X r i))); assumption.
    + apply (derivable_pt_lim_mult (fun r => vz (X r i)) (fun r => vz (X r i))); assumption.
  - unfold unit3. fold (g x). pose proof (HX0 i Hi) as U. unfold unit3 in U. fold (g lo) in U. change (g x = 1). change (g lo = 1) in U. lra.
Qed.
Lemma at_lo r h : at_time r h -> lo <= r <= hi /\ lo <= r + h <= hi /\ lo <= r + / 2 * h <= hi.
Proof. unfold ProofsJet.at_time. lra. Qed.

Lemma B_bound : exists b, 0 <= b /\ forall x i, lo <= x <= hi -> (i < n)%nat -> norm (Bf x i) <= b.
Proof.
  destruct (vjet_bound lo hi Q 1 _ _ _ _ HB) as (b & B0 & H). exists b. split; [exact B0|]. intros x i Hx Hi.
  pose proof (H x i 0 Hi) as E. rewrite Rplus_0_r in E. apply E. unfold ProofsJet.at_time. lra.
Qed.

(** the field, given the spins *)
Lemma om_jet (P P' : nat -> Prop) m F a b c G a' b' c' : (m <= 2)%nat -> (forall i, P i -> (i < n)%nat) -> (forall i, P i -> P' (lft n i) /\ P' (rgt n i)) ->
  vjet P' m F a b c -> vjet P m G a' b' c' ->
  vjet P m (fun r i h => om n (fun p => F r p h) J (fun p => G r p h) i)
    (fun r i => vsub (lin n J (a r) i) (a' r i)) (fun r i => vsub (lin n J (b r) i) (b' r i)) (fun r i => vsub (lin n J (c r) i) (c' r i)).
Proof.
  intros Hm HP HN HF HG.
  assert (CJ : vjet P m (fun _ i _ => J i) (fun _ i => J i) (fun _ _ => vzero) (fun _ _ => vzero)).
  { apply (vjet_const lo hi P m (fun _ i => J i)). exists j. intros; auto. }
  assert (CJl : vjet P m (fun _ i _ => J (lft n i)) (fun _ i => J (lft n i)) (fun _ _ => vzero) (fun _ _ => vzero)).
  { apply (vjet_const lo hi P m (fun _ i => J (lft n i))). exists j. intros. apply Hj, lft_lt; auto. }
  assert (L1 := vjet_sub lo hi P P' m _ _ _ _ (lft n) (fun i H => proj1 (HN i H)) HF).
  assert (L2 := vjet_sub lo hi P P' m _ _ _ _ (rgt n) (fun i H => proj2 (HN i H)) HF).
  eapply vjet_eq; [exact (vjet_minus lo hi P m _ _ _ _ _ _ _ _ (vjet_add lo hi P m _ _ _ _ _ _ _ _ 
    (vjet_had lo hi P m _ _ _ _ _ _ _ _ Hm CJl L1) (vjet_had lo hi P m _ _ _ _ _ _ _ _ Hm CJ L2)) HG)|..]; cbv beta.
  - reflexivity.
  - reflexivity.
  - intros; unfold lin; apply v3_ext; cbn; ring.
  - intros; unfold lin; apply v3_ext; cbn; ring.
Qed.

Definition Om (r : R) (i : nat) : vec := om n (X r) J (Bf r) i.
Definition Vl (r : R) (i : nat) : vec := cross (X r i) (Om r i).
(** half the acceleration *)
Definition Ac (r : R) (i : nat) : vec :=
  vscale (/ 2) (vadd (cross (X r i) (vsub (lin n J (Vl r) i) (Bd r i))) (cross (Vl r i) (Om r i))).

Lemma Q_nbr i : Q i -> Q (lft n i) /\ Q (rgt n i).
Proof. unfold Q. intro H. split; [apply lft_lt|apply rgt_lt]; exact H. Qed.
Lemma X_vel r i h : Q i -> at_time r h -> has_velocity (fun y => X (r + y) i) h (cross (X (r + h) i) (Om (r + h) i)).
Proof.
  intros Hi Ht. destruct (HX (r + h) i) as (A & B & C); [apply at_lo; exact Ht|exact Hi|].
  split; [|split]; cbv beta.
  - apply (shift_deriv (fun y => vx (X y i))); exact A.
  - apply (shift_deriv (fun y => vy (X y i))); exact B.
  - apply (shift_deriv (fun y => vz (X y i))); exact C.
Qed.
Lemma X_b1 : exists K, forall r i, Q i -> lo <= r <= hi -> norm (X (r + 0) i) <= K.
Proof. exists 1. intros r i Hi Hr. rewrite Rplus_0_r, unit3_norm by (apply X_unit; assumption). lra. Qed.
Lemma X_jet0 : vjet Q 0 (fun r i h => X (r + h) i) X (fun _ _ => vzero) (fun _ _ => vzero).
Proof.
  eapply vjet_eq; [apply (vjet_int0 lo hi Q (fun r i h => X (r + h) i) (fun r i h => cross (X (r + h) i) (Om (r + h) i)) X_vel)|..].
  - destruct B_bound as (b & b0 & Hb). exists (1 * (2 * j + b)). intros r i h Hi Ht. apply at_lo in Ht.
    eapply Rle_trans; [apply norm_cross|]. apply Rmult_le_compat; auto using norm_nonneg.
    + rewrite unit3_norm by (apply X_unit; [apply Ht|exact Hi]). lra.
    + apply om_bound; [exact Hi| |apply Hb; [apply Ht|exact Hi]]. intros p Hp. apply X_unit; [apply Ht|exact Hp].
  - exact X_b1.
  - reflexivity.
  - cbv beta. intros. rewrite Rplus_0_r. reflexivity.
  - reflexivity.
  - reflexivity.
Qed.
Lemma X_jet1 : exists c, vjet Q 1 (fun r i h => X (r + h) i) X Vl c.
Proof.
  assert (O0 := om_jet Q Q 0 _ _ _ _ _ _ _ _ ltac:(lia) (fun i H => H) Q_nbr X_jet0 (vjet_weak lo hi Q 1 0 _ _ _ _ ltac:(lia) HB)).
  assert (V0 := vjet_cross lo hi Q 0 _ _ _ _ _ _ _ _ ltac:(lia) X_jet0 O0).
  eexists. eapply vjet_eq; [exact (vjet_int lo hi Q 0 (fun r i h => X (r + h) i) _ _ _ _ ltac:(lia) V0 X_vel X_b1)|..]; cbv beta.
  - reflexivity.
  - intros. rewrite Rplus_0_r. reflexivity.
  - reflexivity.
  - reflexivity.
Qed.
Lemma X_jet2 : vjet Q 2 (fun r i h => X (r + h) i) X Vl Ac.
Proof.
  destruct X_jet1 as (c & X1).
  assert (O0 := om_jet Q Q 1 _ _ _ _ _ _ _ _ ltac:(lia) (fun i H => H) Q_nbr X1 HB).
  assert (V0 := vjet_cross lo hi Q 1 _ _ _ _ _ _ _ _ ltac:(lia) X1 O0).
  eapply vjet_eq; [exact (vjet_int lo hi Q 1 (fun r i h => X (r + h) i) _ _ _ _ ltac:(lia) V0 X_vel X_b1)|..]; cbv beta.
  - reflexivity.
  - intros. rewrite Rplus_0_r. reflexivity.
  - reflexivity.
  - reflexivity.
Qed.

(** ** One step from an exact state *)
Definition S1 (r h : R) : nat -> vec := stageF RNum n 0 J (Bf (r + h / 2)) (h / 2) (X r).
Definition S2 (r h : R) : nat -> vec := stageF RNum n 1 J (Bf (r + h / 2)) h (S1 r h).
Definition S3 (r h : R) : nat -> vec := stageF RNum n 0 J (Bf (r + h / 2)) (h / 2) (S2 r h).
Lemma S1_unit r h p : at_time r h -> (p < n)%nat -> unit3 (S1 r h p).
Proof. intros Ht Hp. apply stage_unit; [|exact Hp]. intros q Hq. apply X_unit; [apply (at_lo _ _ Ht)|exact Hq]. Qed.
Lemma S2_unit r h p : at_time r h -> (p < n)%nat -> unit3 (S2 r h p).
Proof. intros Ht Hp. apply stage_unit; [|exact Hp]. intros q Hq. apply S1_unit; assumption. Qed.

Lemma Qp_nbr b b' i : (b < 2)%nat -> (b' = 1 - b)%nat -> Qp b i -> Qp b' (lft n i) /\ Qp b' (rgt n i).
Proof.
  intros Hb -> (Hi & E). repeat split; auto using lft_lt, rgt_lt.
  - rewrite par_lft, E by assumption. reflexivity.
  - rewrite par_rgt, E by assumption. reflexivity.
Qed.
Lemma Qp_sub b P' m F a b' c : (forall i, P' i <-> (i < n)%nat) -> vjet P' m F a b' c -> vjet (Qp b) m F a b' c.
Proof. intros HP H. apply (vjet_sub lo hi (Qp b) P' m F a b' c (fun i => i)); [|exact H]. intros i (Hi & _). apply HP. exact Hi. Qed.
Lemma Qsub b m F a b' c : vjet Q m F a b' c -> vjet (Qp b) m F a b' c.
Proof. apply Qp_sub. unfold Q. intro; reflexivity. Qed.
Lemma stage_on b (Bv : nat -> vec) x S p : Qp b p -> stageF RNum n b J Bv x S p = rotate RNum (S p) (om n S J Bv p) x.
Proof.
  intros (Hp & E). unfold stageF. replace (onsub n b p) with true; [rewrite omF_R; reflexivity|].
  symmetry. apply onsub_spec. auto.
Qed.
Lemma stage_off b b' (Bv : nat -> vec) x S p : Qp b' p -> b <> b' -> stageF RNum n b J Bv x S p = S p.
Proof.
  intros (Hp & E) N. unfold stageF. replace (onsub n b p) with false; [reflexivity|].
  symmetry. apply Bool.not_true_iff_false. rewrite onsub_spec. lia.
Qed.
Lemma B_mid b : vjet (Qp b) 1 (fun r i h => Bf (r + / 2 * h) i) Bf (fun r i => vscale (/ 2) (Bd r i)) (fun _ _ => vzero).
Proof.
  apply Qsub. eapply vjet_eq; [exact (vjet_step lo hi Q 1 _ _ _ _ (/ 2) ltac:(lra) HB)|..]; cbv beta; try reflexivity.
  intros; apply v3_ext; cbn; ring.
Qed.
Lemma X_const b m : vjet (Qp b) m (fun r i _ => X r i) X (fun _ _ => vzero) (fun _ _ => vzero).
Proof.
  apply vjet_const. exists 1. intros r i (Hi & _) Hr. rewrite unit3_norm by (apply X_unit; assumption). lra.
Qed.
Lemma S1_even : vjet (Qp 0) 2 (fun r i h => S1 r h i) X (fun r i => vscale (/ 2) (Vl r i))
  (fun r i => vadd (vscale (- / 4) (cross (X r i) (Bd r i))) (vscale (/ 8) (cross (Vl r i) (Om r i)))).
Proof.
  assert (O0 := om_jet (Qp 0) (Qp 1) 1 _ _ _ _ _ _ _ _ ltac:(lia) (fun i H => proj1 H) (fun i => Qp_nbr 0 1 i ltac:(lia) eq_refl) (X_const 1 1) (B_mid 0)).
  eapply vjet_eq; [exact (vjet_rotate lo hi (Qp 0) _ _ _ _ _ _ _ _ (/ 2) ltac:(lra) 
    (fun r i h Hi Ht => X_unit r i (proj1 (at_lo r h Ht)) (proj1 Hi)) (X_const 0 2) O0)|..]; cbv beta.
  - intros r i h Hi Ht. unfold S1. rewrite stage_on by assumption. replace (h / 2) with (/ 2 * h) by field. reflexivity.
  - reflexivity.
  - intros r i _ _. unfold Vl, Om. rewrite om_lin. generalize (lin n J (X r) i). intro u. apply v3_ext; cbn; ring.
  - intros r i _ _. unfold Vl, Om. rewrite om_lin. unfold lin. apply v3_ext; cbn; field.
Qed.
Lemma S1_odd m : vjet (Qp 1) m (fun r i h => S1 r h i) X (fun _ _ => vzero) (fun _ _ => vzero).
Proof.
  eapply vjet_eq; [exact (X_const 1 m)|..]; try reflexivity. intros r i h Hi _. unfold S1. apply (stage_off 0 1); [exact Hi|lia].
Qed.
Lemma S2_odd : vjet (Qp 1) 2 (fun r i h => S2 r h i) X Vl Ac.
Proof.
  assert (O0 := om_jet (Qp 1) (Qp 0) 1 _ _ _ _ _ _ _ _ ltac:(lia) (fun i H => proj1 H) (fun i => Qp_nbr 1 0 i ltac:(lia) eq_refl)
    (vjet_weak lo hi (Qp 0) 2 1 _ _ _ _ ltac:(lia) S1_even) (B_mid 1)).
  eapply vjet_eq; [exact (vjet_rotate lo hi (Qp 1) _ _ _ _ _ _ _ _ 1 ltac:(lra) 
    (fun r i h Hi Ht => S1_unit r h i Ht (proj1 Hi)) (S1_odd 2) O0)|..]; cbv beta.
  - intros r i h Hi Ht. unfold S2. rewrite stage_on by assumption. replace (h / 2) with (/ 2 * h) by field. rewrite Rmult_1_l. reflexivity.
  - reflexivity.
  - intros r i _ _. unfold Vl, Om. rewrite om_lin. generalize (lin n J (X r) i). intro u. apply v3_ext; cbn; ring.
  - intros r i _ _. unfold Ac. set (V := Vl r). unfold Vl in V. set (V i) as Vi. 
    assert (E : cross (X r i) (vsub (lin n J (X r) i) (Bf r i)) = V i) by reflexivity.
    rewrite E. unfold Om. rewrite om_lin. clearbody V. unfold Vi, lin. apply v3_ext; cbn; field.
Qed.
Lemma S2_even : vjet (Qp 0) 2 (fun r i h => S2 r h i) X (fun r i => vscale (/ 2) (Vl r i))
  (fun r i => vadd (vscale (- / 4) (cross (X r i) (Bd r i))) (vscale (/ 8) (cross (Vl r i) (Om r i)))).
Proof.
  eapply vjet_eq; [exact S1_even|..]; try reflexivity. intros r i h Hi _. unfold S2. apply (stage_off 1 0); [exact Hi|lia].
Qed.
Lemma S3_odd : vjet (Qp 1) 2 (fun r i h => S3 r h i) X Vl Ac.
Proof.
  eapply vjet_eq; [exact S2_odd|..]; try reflexivity. intros r i h Hi _. unfold S3. apply (stage_off 0 1); [exact Hi|lia].
Qed.
Lemma S3_even : vjet (Qp 0) 2 (fun r i h => S3 r h i) X Vl Ac.
Proof.
  assert (O0 := om_jet (Qp 0) (Qp 1) 1 _ _ _ _ _ _ _ _ ltac:(lia) (fun i H => proj1 H) (fun i => Qp_nbr 0 1 i ltac:(lia) eq_refl)
    (vjet_weak lo hi (Qp 1) 2 1 _ _ _ _ ltac:(lia) S2_odd) (B_mid 0)).
  eapply vjet_eq; [exact (vjet_rotate lo hi (Qp 0) _ _ _ _ _ _ _ _ (/ 2) ltac:(lra) 
    (fun r i h Hi Ht => S2_unit r h i Ht (proj1 Hi)) S2_even O0)|..]; cbv beta.
  - intros r i h Hi Ht. unfold S3. rewrite stage_on by assumption. replace (h / 2) with (/ 2 * h) by field. reflexivity.
  - reflexivity.
  - intros r i _ _. assert (E : cross (X r i) (vsub (lin n J (X r) i) (Bf r i)) = Vl r i) by reflexivity.
    rewrite E. apply v3_ext; cbn; field.
  - intros r i _ _. assert (E : cross (X r i) (vsub (lin n J (X r) i) (Bf r i)) = Vl r i) by reflexivity.
    rewrite E. unfold Ac, Om. rewrite om_lin. generalize (Vl r i), (lin n J (Vl r) i), (lin n J (X r) i). intros. apply v3_ext; cbn; field.
Qed.

Lemma local_error : exists K, 0 <= K /\ forall r h i, at_time r h -> (i < n)%nat ->
  norm (vsub (trotF RNum n J (Bf (r + h / 2)) (h / 2) h (X r) i) (X (r + h) i)) <= K * h ^ 3.
Proof.
  destruct (vjet_close lo hi (Qp 0) 2 _ _ _ _ _ S3_even (Qsub 0 2 _ _ _ _ X_jet2)) as (K0 & P0 & H0).
  destruct (vjet_close lo hi (Qp 1) 2 _ _ _ _ _ S3_odd (Qsub 1 2 _ _ _ _ X_jet2)) as (K1 & P1 & H1).
  exists (K0 + K1). split; [lra|]. intros r h i Ht Hi.
  change (trotF RNum n J (Bf (r + h / 2)) (h / 2) h (X r) i) with (S3 r h i).
  assert (P : 0 <= h ^ 3) by (apply pow_le; apply Ht).
  destruct (Nat.eq_dec (i mod 2) 0) as [E|E].
  - eapply Rle_trans; [apply (H0 r i h); [split; assumption|exact Ht]|]. apply Rmult_le_compat_r; [exact P|lra].
  - eapply Rle_trans; [apply (H1 r i h); [split; [assumption|lia]|exact Ht]|]. apply Rmult_le_compat_r; [exact P|lra].
Qed.

(** ** Many steps *)
Lemma global_error : exists K, 0 <= K /\ forall dt (U : nat -> nat -> vec), 0 < dt <= 1 ->
  (forall i, (i < n)%nat -> U 0%nat i = X lo i) ->
  (forall k i, (i < n)%nat -> U (S k) i = trotF RNum n J (Bf (lo + INR k * dt + dt / 2)) (dt / 2) dt (U k) i) ->
  (forall k i, (i < n)%nat -> unit3 (U k i)) ->
  forall k i, lo + INR k * dt <= hi -> (i < n)%nat -> norm (vsub (U k i) (X (lo + INR k * dt) i)) <= K * (dt * dt).
Proof.
  destruct local_error as (K & K0 & HK). destruct B_bound as (b & b0 & Hb).
  set (L := lip b). assert (L0 : 0 <= L) by (unfold L, lip; repeat apply Rmult_le_pos; lra).
  set (D := ((1 + L) ^ 2 + (1 + L) + 1) * slack b).
  assert (D0 : 0 <= D).
  { unfold D, slack. assert (0 <= (1 + L) ^ 2) by (apply pow_le; lra). apply Rmult_le_pos; [lra|].
    apply Rmult_le_pos; [lra|]. apply pow_le; lra. }
  set (M := D + K). assert (M0 : 0 <= M) by (unfold M; lra).
  exists ((hi - lo) * M * exp (3 * L * (hi - lo))). split.
  { apply Rmult_le_pos; [apply Rmult_le_pos; lra|]. left. apply exp_pos. }
  intros dt U Hdt HU0 HUS HUu.
  set (E := exp (3 * L * dt)).
  assert (E1 : 1 <= E).
  { unfold E. rewrite <- exp_0. destruct (Req_dec (3 * L * dt) 0) as [Z|Z]; [rewrite Z; lra|].
    left. apply exp_increasing. assert (0 <= 3 * L * dt) by (repeat apply Rmult_le_pos; lra). lra. }
  assert (Eq : (1 + dt * L) ^ 3 <= E).
  { replace E with (exp (dt * L) ^ 3). 
    - apply pow_incr. assert (0 <= dt * L) by (apply Rmult_le_pos; lra). split; [lra|].
      destruct (Req_dec (dt * L) 0) as [Z|Z]; [rewrite Z, exp_0; lra|]. left. apply exp_ineq1. lra.
    - unfold E. replace (3 * L * dt) with (dt * L + (dt * L + (dt * L + 0))) by ring.
      rewrite !exp_plus, exp_0. reflexivity. }
  assert (d3 : 0 <= dt ^ 3) by (apply pow_le; lra).
  assert (G : forall k, lo + INR k * dt <= hi -> forall i, (i < n)%nat ->
    norm (vsub (U k i) (X (lo + INR k * dt) i)) <= INR k * M * dt ^ 3 * E ^ k).
  { induction k as [|k IH]; intros Hk i Hi.
    - cbn [INR]. rewrite !Rmult_0_l, Rplus_0_r, HU0 by exact Hi.
      replace (vsub (X lo i) (X lo i)) with vzero by (apply v3_ext; cbn; ring). rewrite norm_vzero. lra.
    - rewrite S_INR in Hk. assert (Hk' : lo + INR k * dt <= hi) by lra.
      specialize (IH Hk').
      set (r := lo + INR k * dt) in *.
      assert (Hr0 : lo <= r). { unfold r. assert (0 <= INR k * dt) by (apply Rmult_le_pos; [apply pos_INR|lra]). lra. }
      assert (Ht : at_time r dt). { unfold ProofsJet.at_time. assert (r + dt <= hi) by (unfold r; lra). lra. }
      assert (Hrm : lo <= r + dt / 2 <= hi) by (unfold ProofsJet.at_time in Ht; lra).
      assert (Hd1 : 0 <= dt <= 1) by lra.
      replace (lo + INR (S k) * dt) with (r + dt) by (rewrite S_INR; unfold r; ring).
      rewrite HUS by exact Hi. fold r.
      eapply Rle_trans; [apply (norm_tri3 _ (trotF RNum n J (Bf (r + dt / 2)) (dt / 2) dt (X r) i))|].
      set (e := INR k * M * dt ^ 3 * E ^ k) in *.
      assert (Ek : 1 <= E ^ k) by (apply pow_R1_Rle; exact E1).
      assert (P1 : 0 <= INR k * M * dt ^ 3) by (apply Rmult_le_pos; [apply Rmult_le_pos; [apply pos_INR|exact M0]|exact d3]).
      assert (He : 0 <= e) by (unfold e; apply Rmult_le_pos; lra).
      assert (A := trot_diff (Bf (r + dt / 2)) b (U k) (X r) e dt (HUu k) (fun p Hp => X_unit r p (proj1 (at_lo r dt Ht)) Hp)
        (fun p Hp => Hb (r + dt / 2) p Hrm Hp) b0 Hd1 He IH i Hi). fold L in A. fold D in A.
      assert (B := HK r dt i Ht Hi).
      assert (C : (1 + dt * L) ^ 3 * e <= E * e) by (apply Rmult_le_compat_r; assumption).
      apply Rle_trans with (E * e + M * dt ^ 3); [unfold M; rewrite Rmult_plus_distr_r; lra|].
      rewrite S_INR. replace ((INR k + 1) * M * dt ^ 3 * E ^ S k) with (E * e + M * dt ^ 3 * E ^ S k) by (unfold e; simpl; ring).
      apply Rplus_le_compat_l. rewrite <- (Rmult_1_r (M * dt ^ 3)) at 1. apply Rmult_le_compat_l; [apply Rmult_le_pos; assumption|].
      apply pow_R1_Rle; exact E1. }
  intros k i Hk Hi. eapply Rle_trans; [apply G; assumption|].
  assert (Ek : E ^ k <= exp (3 * L * (hi - lo))).
  { replace (E ^ k) with (exp (3 * L * (INR k * dt))).
    - assert (Z : 3 * L * (INR k * dt) <= 3 * L * (hi - lo)) by (apply Rmult_le_compat_l; lra).
      destruct Z as [Z|Z]; [left; apply exp_increasing; exact Z|rewrite Z; lra].
    - unfold E. clear. induction k; [cbn [INR pow]; rewrite Rmult_0_l, Rmult_0_r; apply exp_0|].
      change (exp (3 * L * dt) ^ S k) with (exp (3 * L * dt) * exp (3 * L * dt) ^ k). rewrite <- IHk, <- exp_plus, S_INR. f_equal. ring. }
  assert (0 <= INR k * dt) by (apply Rmult_le_pos; [apply pos_INR|lra]).
  replace (INR k * M * dt ^ 3 * E ^ k) with ((INR k * dt) * M * E ^ k * (dt * dt)) by ring.
  apply Rmult_le_compat_r; [apply Rle_0_sqr|].
  apply Rmult_le_compat; [apply Rmult_le_pos; lra|apply pow_le; lra| |exact Ek].
  apply Rmult_le_compat_r; [exact M0|lra].
Qed.

(** ** Fields that stay away from zero *)
Lemma rotate_move s f x W : unit3 s -> norm f <= W -> 0 <= x <= 1 ->
  norm (vsub (rotate RNum s f x) s) <= x * (W + W * W + 2 * W ^ 3).
Proof.
  intros Hs Hf Hx. pose proof (norm_nonneg f). assert (W0 : 0 <= W) by lra.
  eapply Rle_trans; [apply (norm_tri3 _ (rot2 s f x))|].
  assert (A := rotate_rot2 s f x W Hs Hf (proj1 Hx)).
  assert (B : norm (vsub (rot2 s f x) s) <= x * W + x * x * / 2 * (W * W)).
  { replace (vsub (rot2 s f x) s) with (vadd (vscale x (cross s f)) (vscale (x * x * / 2) (cross (cross s f) f)))
      by (unfold rot2; apply v3_ext; cbn; ring).
    eapply Rle_trans; [apply norm_triangle|]. rewrite !norm_vscale.
    assert (0 <= x * x) by apply Rle_0_sqr. rewrite !Rabs_pos_eq by lra.
    assert (C : norm (cross s f) <= W) by (eapply Rle_trans; [apply norm_cross|rewrite (unit3_norm s) by assumption; lra]).
    apply Rplus_le_compat; apply Rmult_le_compat_l; try lra.
    eapply Rle_trans; [apply norm_cross|]. apply Rmult_le_compat; auto using norm_nonneg. }
  assert (WW : 0 <= W * W) by (apply Rmult_le_pos; exact W0). assert (W3 : 0 <= W ^ 3) by (apply pow_le; exact W0).
  assert (x ^ 3 <= x). { rewrite <- (pow_1 x) at 2. apply pow_le1; [exact Hx|lia]. }
  assert (x * x * / 2 <= x). { assert (x * x <= x * 1) by (apply Rmult_le_compat_l; lra). assert (0 <= x * x) by apply Rle_0_sqr. lra. }
  assert (2 * W ^ 3 * x ^ 3 <= 2 * W ^ 3 * x) by (apply Rmult_le_compat_l; lra).
  assert (x * x * / 2 * (W * W) <= x * (W * W)) by (apply Rmult_le_compat_r; lra).
  replace (x * (W + W * W + 2 * W ^ 3)) with (x * W + x * (W * W) + 2 * W ^ 3 * x) by ring.
  eapply Rle_trans; [apply Rplus_le_compat; [exact A|exact B]|]. lra.
Qed.
Definition pace (b : R) : R := let W := 2 * j + b in W + W * W + 2 * W ^ 3.
Lemma pace0 b : 0 <= b -> 0 <= pace b.
Proof.
  intro Hb. unfold pace. assert (0 <= 2 * j + b) by lra. set (W := 2 * j + b) in *.
  assert (0 <= W * W) by (apply Rmult_le_pos; assumption). assert (0 <= W ^ 3) by (apply pow_le; assumption). lra.
Qed.
Lemma stage_move b0 B b S x p : units S -> (forall p, (p < n)%nat -> norm (B p) <= b) -> 0 <= b -> 0 <= x <= 1 -> (p < n)%nat ->
  norm (vsub (stageF RNum n b0 J B x S p) (S p)) <= x * pace b.
Proof.
  intros HS HB' Hb Hx Hp. unfold stageF. destruct (onsub n b0 p).
  - rewrite omF_R. apply rotate_move; auto. apply om_bound; auto.
  - replace (vsub (S p) (S p)) with vzero by (apply v3_ext; cbn; ring). rewrite norm_vzero.
    apply Rmult_le_pos; [lra|]. apply pace0; exact Hb.
Qed.
Lemma vjet_move (P : nat -> Prop) m F a b c : vjet P m F a b c -> exists K, 0 <= K /\ forall r i h, P i -> at_time r h -> norm (vsub (F r i h) (a r i)) <= K * h.
Proof.
  intros ((K1 & P1 & H1) & (K2 & P2 & H2) & (K3 & P3 & H3)). exists (2 * (3 * (K1 + K2 + K3))). split; [lra|]. intros r i h Hi Ht.
  assert (Hh : 0 <= h <= 1) by apply Ht.
  assert (G : forall K a b c x, 0 <= K -> Rabs a <= K /\ Rabs b <= K /\ Rabs c <= K /\ Rabs (x - poly a b c h) <= K * h ^ (m + 1) -> Rabs (x - a) <= 3 * K * h).
  { intros K a0 b0 c0 x K0 (A & B & C & D). replace (x - a0) with ((x - poly a0 b0 c0 h) + (h * b0 + h * h * c0)) by (unfold poly; ring).
    assert (Hr : Rabs h <= h) by (rewrite Rabs_pos_eq; lra). assert (Hr1 : Rabs h <= 1) by (rewrite Rabs_pos_eq; lra).
    replace (3 * K * h) with (K * h + (h * K + h * 1 * K)) by ring. apply radd_le.
    - eapply Rle_trans; [exact D|]. apply Rmult_le_compat_l; [exact K0|]. rewrite <- (pow_1 h) at 2. apply pow_le1; [exact Hh|lia].
    - apply radd_le; repeat apply rmul_le; auto. }
  rewrite Rmult_assoc. apply norm_comp.
  assert (Q1 : 0 <= K1 * h) by (apply Rmult_le_pos; lra). assert (Q2 : 0 <= K2 * h) by (apply Rmult_le_pos; lra). assert (Q3 : 0 <= K3 * h) by (apply Rmult_le_pos; lra).
  repeat split; cbn.
  - pose proof (G _ _ _ _ _ P1 (H1 r i h Hi Ht)). lra.
  - pose proof (G _ _ _ _ _ P2 (H2 r i h Hi Ht)). lra.
  - pose proof (G _ _ _ _ _ P3 (H3 r i h Hi Ht)). lra.
Qed.
Lemma norm_far a b m : m <= norm b -> norm (vsub a b) < m -> a <> vzero.
Proof.
  intros Hb Hd ->. assert (norm (vsub vzero b) = norm b) by (unfold norm; f_equal; unfold dot; cbn; ring). lra.
Qed.
Lemma steady_fields m : 0 < m -> (forall x i, lo <= x <= hi -> (i < n)%nat -> m <= norm (Om x i)) -> forall K, 0 <= K ->
  exists d, 0 < d <= 1 /\ forall r h S, at_time r h -> h < d -> units S -> (forall p, (p < n)%nat -> norm (vsub (S p) (X r p)) <= K * (h * h)) ->
    nv n J (Bf (r + h / 2)) (h / 2) h S.
Proof.
  intros Hm HO K K0. destruct B_bound as (b & b0 & Hb). destruct (vjet_move Q 1 _ _ _ _ HB) as (KB & KB0 & HKB).
  set (Y := pace b). assert (Y0 : 0 <= Y) by (apply pace0; exact b0).
  set (C := 2 * j * (K + 2 * Y) + KB + 1).
  assert (C0 : 1 <= C) by (unfold C; assert (0 <= 2 * j * (K + 2 * Y)) by (apply Rmult_le_pos; lra); lra).
  assert (I0 : 0 < / C) by (apply Rinv_0_lt_compat; lra).
  exists (Rmin 1 (m / C)). split.
  { split; [apply Rmin_glb_lt; [lra|]|apply Rmin_l]. unfold Rdiv. apply Rmult_lt_0_compat; lra. }
  intros r h S Ht Hlt HS He. assert (Hh : 0 <= h <= 1) by apply Ht. destruct (at_lo r h Ht) as (Hr & Hr1 & Hr2).
  assert (Hm2 : C * h < m).
  { apply Rlt_le_trans with (C * (m / C)); [|right; field; lra].
    apply Rmult_lt_compat_l; [lra|]. eapply Rlt_le_trans; [exact Hlt|apply Rmin_r]. }
  replace (/ 2 * h) with (h / 2) in Hr2 by field.
  assert (HBm : forall p, (p < n)%nat -> norm (Bf (r + h / 2) p) <= b) by (intros; apply Hb; assumption).
  assert (G : forall T p, (p < n)%nat -> (forall q, (q < n)%nat -> norm (vsub (T q) (X r q)) <= K * h + 2 * (h * Y)) ->
    om n T J (Bf (r + h / 2)) p <> vzero).
  { intros T p Hp HT. apply (norm_far _ (Om r p) m); [apply HO; assumption|].
    eapply Rle_lt_trans; [apply (norm_tri3 _ (om n (X r) J (Bf (r + h / 2)) p))|].
    assert (A := om_diff T (X r) (Bf (r + h / 2)) _ p Hp HT).
    assert (Hth : at_time r (h / 2)) by (unfold ProofsJet.at_time in *; lra).
    assert (B : norm (vsub (om n (X r) J (Bf (r + h / 2)) p) (Om r p)) <= KB * (h / 2)).
    { replace (vsub (om n (X r) J (Bf (r + h / 2)) p) (Om r p)) with (vscale (-1) (vsub (Bf (r + h / 2) p) (Bf r p)))
        by (unfold Om; rewrite !om_lin; generalize (lin n J (X r) p); intro; apply v3_ext; cbn; ring).
      rewrite norm_vscale. replace (Rabs (-1)) with 1 by (rewrite Rabs_left; lra). rewrite Rmult_1_l. apply (HKB r p (h / 2) Hp Hth). }
    assert (0 <= KB * h) by (apply Rmult_le_pos; lra).
    replace (2 * j * (K * h + 2 * (h * Y))) with (2 * j * (K + 2 * Y) * h) in A by ring.
    unfold C in Hm2. lra. }
  assert (Hhh : K * (h * h) <= K * h).
  { apply Rmult_le_compat_l; [exact K0|]. rewrite <- (Rmult_1_r h) at 3. apply Rmult_le_compat_l; lra. }
  assert (hY : 0 <= h * Y) by (apply Rmult_le_pos; lra).
  assert (M1 : forall q, (q < n)%nat -> norm (vsub (stageF RNum n 0 J (Bf (r + h / 2)) (h / 2) S q) (X r q)) <= K * h + h * Y).
  { intros q Hq. eapply Rle_trans; [apply (norm_tri3 _ (S q))|].
    assert (A := stage_move 0 (Bf (r + h / 2)) b S (h / 2) q HS HBm b0 ltac:(lra) Hq). fold Y in A. pose proof (He q Hq) as E2.
    eapply Rle_trans; [apply Rplus_le_compat; [exact A|exact E2]|]. lra. }
  assert (U1 : units (stageF RNum n 0 J (Bf (r + h / 2)) (h / 2) S)) by (apply stage_unit; exact HS).
  unfold nv. cbv zeta. split; [|split].
  - intros p Hp. apply onsub_spec in Hp. apply G; [apply Hp|]. intros q Hq. pose proof (He q Hq) as E2. eapply Rle_trans; [exact E2|]. lra.
  - intros p Hp. apply onsub_spec in Hp. apply G; [apply Hp|]. intros q Hq. pose proof (M1 q Hq) as E2. eapply Rle_trans; [exact E2|]. lra.
  - intros p Hp. apply onsub_spec in Hp. apply G; [apply Hp|]. intros q Hq.
    eapply Rle_trans; [apply (norm_tri3 _ (stageF RNum n 0 J (Bf (r + h / 2)) (h / 2) S q))|].
    assert (A := stage_move 1 (Bf (r + h / 2)) b _ h q U1 HBm b0 Hh Hq). fold Y in A. pose proof (M1 q Hq) as E2.
    eapply Rle_trans; [apply Rplus_le_compat; [exact A|exact E2]|]. lra.
Qed.
(** ... in fact they stay away from zero *)
Lemma steady_margin m : 0 < m -> (forall x i, lo <= x <= hi -> (i < n)%nat -> m <= norm (Om x i)) -> forall K, 0 <= K ->
  exists d, 0 < d <= 1 /\ forall r h S, at_time r h -> h < d -> units S -> (forall p, (p < n)%nat -> norm (vsub (S p) (X r p)) <= K * (h * h)) ->
    far n J (Bf (r + h / 2)) (m / 2) (h / 2) h S.
Proof.
  intros Hm HO K K0. destruct B_bound as (b & b0 & Hb). destruct (vjet_move Q 1 _ _ _ _ HB) as (KB & KB0 & HKB).
  set (Y := pace b). assert (Y0 : 0 <= Y) by (apply pace0; exact b0).
  set (C := 2 * j * (K + 2 * Y) + KB + 1).
  assert (C0 : 1 <= C) by (unfold C; assert (0 <= 2 * j * (K + 2 * Y)) by (apply Rmult_le_pos; lra); lra).
  assert (I0 : 0 < / C) by (apply Rinv_0_lt_compat; lra).
  exists (Rmin 1 (m / (2 * C))). split.
  { split; [apply Rmin_glb_lt; [lra|]|apply Rmin_l]. unfold Rdiv. apply Rmult_lt_0_compat; [lra|]. apply Rinv_0_lt_compat; lra. }
  intros r h S Ht Hlt HS He. assert (Hh : 0 <= h <= 1) by apply Ht. destruct (at_lo r h Ht) as (Hr & Hr1 & Hr2).
  assert (Hm2 : C * h < m / 2).
  { apply Rlt_le_trans with (C * (m / (2 * C))); [|right; field; lra].
    apply Rmult_lt_compat_l; [lra|]. eapply Rlt_le_trans; [exact Hlt|apply Rmin_r]. }
  replace (/ 2 * h) with (h / 2) in Hr2 by field.
  assert (HBm : forall p, (p < n)%nat -> norm (Bf (r + h / 2) p) <= b) by (intros; apply Hb; assumption).
  assert (G : forall T p, (p < n)%nat -> (forall q, (q < n)%nat -> norm (vsub (T q) (X r q)) <= K * h + 2 * (h * Y)) ->
    m / 2 <= norm (om n T J (Bf (r + h / 2)) p)).
  { intros T p Hp HT. pose proof (HO r p ltac:(lra) Hp) as HOr.
    pose proof (norm_tri3 (om n T J (Bf (r + h / 2)) p) (om n (X r) J (Bf (r + h / 2)) p) (Om r p)) as T3.
    assert (T4 : norm (Om r p) <= norm (om n T J (Bf (r + h / 2)) p) + norm (vsub (om n T J (Bf (r + h / 2)) p) (Om r p))).
    { replace (Om r p) with (vsub (om n T J (Bf (r + h / 2)) p) (vsub (om n T J (Bf (r + h / 2)) p) (Om r p))) at 1 by (apply v3_ext; cbn; ring).
      apply norm_sub_le. }
    assert (A := om_diff T (X r) (Bf (r + h / 2)) _ p Hp HT).
    assert (Hth : at_time r (h / 2)) by (unfold ProofsJet.at_time in *; lra).
    assert (B : norm (vsub (om n (X r) J (Bf (r + h / 2)) p) (Om r p)) <= KB * (h / 2)).
    { replace (vsub (om n (X r) J (Bf (r + h / 2)) p) (Om r p)) with (vscale (-1) (vsub (Bf (r + h / 2) p) (Bf r p)))
        by (unfold Om; rewrite !om_lin; generalize (lin n J (X r) p); intro; apply v3_ext; cbn; ring).
      rewrite norm_vscale. replace (Rabs (-1)) with 1 by (rewrite Rabs_left; lra). rewrite Rmult_1_l. apply (HKB r p (h / 2) Hp Hth). }
    assert (0 <= KB * h) by (apply Rmult_le_pos; lra).
    replace (2 * j * (K * h + 2 * (h * Y))) with (2 * j * (K + 2 * Y) * h) in A by ring.
    unfold C in Hm2. lra. }
  assert (Hhh : K * (h * h) <= K * h).
  { apply Rmult_le_compat_l; [exact K0|]. rewrite <- (Rmult_1_r h) at 3. apply Rmult_le_compat_l; lra. }
  assert (hY : 0 <= h * Y) by (apply Rmult_le_pos; lra).
  assert (M1 : forall q, (q < n)%nat -> norm (vsub (stageF RNum n 0 J (Bf (r + h / 2)) (h / 2) S q) (X r q)) <= K * h + h * Y).
  { intros q Hq. eapply Rle_trans; [apply (norm_tri3 _ (S q))|].
    assert (A := stage_move 0 (Bf (r + h / 2)) b S (h / 2) q HS HBm b0 ltac:(lra) Hq). fold Y in A. pose proof (He q Hq) as E2.
    eapply Rle_trans; [apply Rplus_le_compat; [exact A|exact E2]|]. lra. }
  assert (U1 : units (stageF RNum n 0 J (Bf (r + h / 2)) (h / 2) S)) by (apply stage_unit; exact HS).
  unfold far. cbv zeta. split; [|split].
  - intros p Hp _. apply G; [exact Hp|]. intros q Hq. pose proof (He q Hq) as E2. eapply Rle_trans; [exact E2|]. lra.
  - intros p Hp _. apply G; [exact Hp|]. intros q Hq. pose proof (M1 q Hq) as E2. eapply Rle_trans; [exact E2|]. lra.
  - intros p Hp _. apply G; [exact Hp|]. intros q Hq.
    eapply Rle_trans; [apply (norm_tri3 _ (stageF RNum n 0 J (Bf (r + h / 2)) (h / 2) S q))|].
    assert (A := stage_move 1 (Bf (r + h / 2)) b _ h q U1 HBm b0 Hh Hq). fold Y in A. pose proof (M1 q Hq) as E2.
    eapply Rle_trans; [apply Rplus_le_compat; [exact A|exact E2]|]. lra.
Qed.

(** the field is continuous along the motion, so it has a least length *)
Context (HBc : forall x i, lo <= x <= hi -> (i < n)%nat -> has_velocity (fun r => Bf r i) x (Bd x i)).
Definition vcont (f : R -> vec) (x : R) : Prop :=
  continuity_pt (fun r => vx (f r)) x /\ continuity_pt (fun r => vy (f r)) x /\ continuity_pt (fun r => vz (f r)) x.
Lemma velocity_cont f x v : has_velocity f x v -> vcont f x.
Proof.
  intros (A & B & C). split; [|split]; apply derivable_continuous_pt; eexists; eassumption.
Qed.
Lemma vcont_add f g x : vcont f x -> vcont g x -> vcont (fun r => vadd (f r) (g r)) x.
Proof. intros (A & B & C) (A' & B' & C'). split; [|split]; cbn; apply (continuity_pt_plus _ _ x); assumption. Qed.
Lemma vcont_sub f g x : vcont f x -> vcont g x -> vcont (fun r => vsub (f r) (g r)) x.
Proof. intros (A & B & C) (A' & B' & C'). split; [|split]; cbn; apply (continuity_pt_minus _ _ x); assumption. Qed.
Lemma vcont_had k g x : vcont g x -> vcont (fun r => vhad k (g r)) x.
Proof.
  intros (A' & B' & C'). split; [|split]; cbn.
  - apply (continuity_pt_mult (fun _ => vx k) _ x); [|assumption]. apply continuity_pt_const. intros a b; reflexivity.
  - apply (continuity_pt_mult (fun _ => vy k) _ x); [|assumption]. apply continuity_pt_const. intros a b; reflexivity.
  - apply (continuity_pt_mult (fun _ => vz k) _ x); [|assumption]. apply continuity_pt_const. intros a b; reflexivity.
Qed.
Lemma Om_cont x i : lo <= x <= hi -> (i < n)%nat -> vcont (fun r => Om r i) x.
Proof.
  intros Hx Hi. unfold Om, om. 
  assert (A : forall p, (p < n)%nat -> vcont (fun r => X r p) x) by (intros p Hp; eapply velocity_cont; apply HX; assumption).
  apply vcont_sub; [apply vcont_add; apply vcont_had; apply A; [apply lft_lt|apply rgt_lt]; exact Hi|].
  eapply velocity_cont. apply HBc; assumption.
Qed.
Lemma field_gap : (forall x i, lo <= x <= hi -> (i < n)%nat -> Om x i <> vzero) ->
  exists m, 0 < m /\ forall x i, lo <= x <= hi -> (i < n)%nat -> m <= norm (Om x i).
Proof.
  intro HO.
  assert (G : forall k, (k <= n)%nat -> exists m, 0 < m /\ forall x i, lo <= x <= hi -> (i < k)%nat -> m <= norm (Om x i)).
  { induction k as [|k IH]; intro Hk.
    - exists 1. split; [lra|]. intros; lia.
    - destruct (IH ltac:(lia)) as (m & Hm & H).
      destruct (continuity_ab_min (fun r => dot (Om r k) (Om r k)) lo hi Hlh) as (y & Hmin & Hy).
      { intros c Hc. destruct (Om_cont c k Hc ltac:(lia)) as (A & B & C). unfold dot.
        apply (continuity_pt_plus _ _ c); [apply (continuity_pt_plus _ _ c)|];
          [apply (continuity_pt_mult (fun r => vx (Om r k)) (fun r => vx (Om r k)))
          |apply (continuity_pt_mult (fun r => vy (Om r k)) (fun r => vy (Om r k)))
          |apply (continuity_pt_mult (fun r => vz (Om r k)) (fun r => vz (Om r k)))]; assumption. }
      assert (Ny : 0 < norm (Om y k)) by (apply norm_pos, HO; [exact Hy|lia]).
      exists (Rmin m (norm (Om y k))). split; [apply Rmin_glb_lt; assumption|].
      intros x i Hx Hi. destruct (Nat.eq_dec i k) as [->|Ni].
      + eapply Rle_trans; [apply Rmin_r|]. apply sqrt_le_1_alt. apply Hmin. exact Hx.
      + eapply Rle_trans; [apply Rmin_l|]. apply H; [exact Hx|lia]. }
  destruct (G n ltac:(lia)) as (m & Hm & H). exists m. split; assumption.
Qed.
End Ring.
