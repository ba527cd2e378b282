(** The rotation to second order, and vector expansions. *)
From Coq Require Import Reals Lra Lia List ZArith Arith.
From Verif Require Import Num NumR Spin SpecVec SpecChain ProofsSpin ProofsEnergy ProofsDrive ProofsJet.
Local Open Scope R_scope.

(** ** Sine and cosine *)
Lemma mvt0 (f f' : R -> R) x K m : 0 <= x -> (forall y, 0 <= y <= x -> derivable_pt_lim f y (f' y)) -> f 0 = 0 ->
  (forall y, 0 <= y <= x -> Rabs (f' y) <= K * y ^ m) -> 0 <= K -> Rabs (f x) <= K * x ^ (S m).
Proof.
  intros Hx Hd H0 Hb HK. destruct (Req_dec x 0) as [->|N].
  { rewrite H0, Rabs_R0. apply Rmult_le_pos; [exact HK|apply pow_le; lra]. }
  destruct (MVT_cor2 f f' 0 x) as (y & E & Hy); [lra|exact Hd|]. rewrite H0, !Rminus_0_r in E. rewrite E.
  replace (K * x ^ S m) with (K * x ^ m * x) by (simpl; ring).
  apply rmul_le; [|rewrite Rabs_pos_eq; lra].
  eapply Rle_trans; [apply Hb; lra|]. apply Rmult_le_compat_l; [exact HK|]. apply pow_incr; lra.
Qed.
Lemma sin_abs1 x : Rabs (sin x) <= 1.
Proof. destruct (SIN_bound x). apply Rabs_le; lra. Qed.
Lemma cos_1 x : 0 <= x -> Rabs (cos x - 1) <= 1 * x ^ 1.
Proof.
  intro H. apply (mvt0 (fun x => cos x - 1) (fun x => - sin x - 0) x 1 0); auto; try lra.
  - intros. apply derivable_pt_lim_minus; [apply derivable_pt_lim_cos|apply derivable_pt_lim_const].
  - rewrite cos_0. lra.
  - intros. rewrite Rminus_0_r, Rabs_Ropp. pose proof (sin_abs1 y). simpl; lra.
Qed.
Lemma sin_2 x : 0 <= x -> Rabs (sin x - x) <= 1 * x ^ 2.
Proof.
  intro H. apply (mvt0 (fun x => sin x - x) (fun x => cos x - 1) x 1 1); auto; try lra.
  - intros. apply derivable_pt_lim_minus; [apply derivable_pt_lim_sin|apply derivable_pt_lim_id].
  - rewrite sin_0. lra.
  - intros. apply cos_1. lra.
Qed.
Lemma half_sq_deriv y : derivable_pt_lim (fun x => x * x * / 2) y y.
Proof.
  replace y with ((1 * y + y * 1) * / 2 + (y * y) * 0) at 2 by field.
  apply (derivable_pt_lim_mult (fun x => x * x) (fun _ => / 2)); [|apply derivable_pt_lim_const].
  apply (derivable_pt_lim_mult (fun y => y) (fun y => y)); apply derivable_pt_lim_id.
Qed.
Lemma cos_3 x : 0 <= x -> Rabs (1 - cos x - x * x * / 2) <= 1 * x ^ 3.
Proof.
  intro H. apply (mvt0 (fun x => 1 - cos x - x * x * / 2) (fun x => 0 - - sin x - x) x 1 2); auto; try lra.
  - intros. apply derivable_pt_lim_minus; [|apply half_sq_deriv].
    apply derivable_pt_lim_minus; [apply derivable_pt_lim_const|apply derivable_pt_lim_cos].
  - rewrite cos_0. lra.
  - intros. replace (0 - - sin y - y) with (sin y - y) by ring. apply sin_2. lra.
Qed.
Lemma cos_2 x : 0 <= x -> Rabs (cos x - 1) <= 1 * x ^ 2.
Proof.
  intro H. apply (mvt0 (fun x => cos x - 1) (fun x => - sin x - 0) x 1 1); auto; try lra.
  - intros. apply derivable_pt_lim_minus; [apply derivable_pt_lim_cos|apply derivable_pt_lim_const].
  - rewrite cos_0. lra.
  - intros. rewrite Rminus_0_r, Rabs_Ropp.
    apply (mvt0 sin cos y 1 0); auto; try lra.
    + intros. apply derivable_pt_lim_sin.
    + apply sin_0.
    + intros z _. destruct (COS_bound z). simpl. apply Rabs_le; lra.
Qed.
Lemma sin_3 x : 0 <= x -> Rabs (sin x - x) <= 1 * x ^ 3.
Proof.
  intro H. apply (mvt0 (fun x => sin x - x) (fun x => cos x - 1) x 1 2); auto; try lra.
  - intros. apply derivable_pt_lim_minus; [apply derivable_pt_lim_sin|apply derivable_pt_lim_id].
  - rewrite sin_0. lra.
  - intros. apply cos_2. lra.
Qed.

(** ** Lengths *)
Definition comp3 (P : R -> Prop) (v : vec) : Prop := P (vx v) /\ P (vy v) /\ P (vz v).
Lemma norm_comp v e : comp3 (fun x => Rabs x <= e) v -> norm v <= 2 * e.
Proof.
  intros (A & B & C). assert (0 <= e) by (eapply Rle_trans; [apply Rabs_pos|exact A]).
  apply norm_le_sq; [lra|]. unfold dot.
  assert (Q : forall x, Rabs x <= e -> x * x <= e * e).
  { intros x Hx. rewrite <- (Rabs_pos_eq (x * x)) by (apply Rle_0_sqr). apply rmul_le; assumption. }
  pose proof (Q _ A). pose proof (Q _ B). pose proof (Q _ C). assert (0 <= e * e) by (apply Rmult_le_pos; assumption). lra.
Qed.
Lemma comp_norm v e : norm v <= e -> comp3 (fun x => Rabs x <= e) v.
Proof. intro H. destruct (comp_le_norm v) as (A & B & C). repeat split; lra. Qed.
Lemma norm_cross a b : norm (cross a b) <= norm a * norm b.
Proof.
  apply norm_le_sq; [apply Rmult_le_pos; apply norm_nonneg|].
  replace (norm a * norm b * (norm a * norm b)) with ((norm a * norm a) * (norm b * norm b)) by ring.
  rewrite !norm_sq. unfold cross, dot; cbn [vx vy vz].
  assert (0 <= (vx a * vx b + vy a * vy b + vz a * vz b) * (vx a * vx b + vy a * vy b + vz a * vz b)) by apply Rle_0_sqr. 
  lra.
Qed.
Lemma norm_sub_le a b : norm (vsub a b) <= norm a + norm b.
Proof.
  replace (vsub a b) with (vadd a (vscale (-1) b)) by (apply v3_ext; cbn; ring).
  eapply Rle_trans; [apply norm_triangle|]. apply Rplus_le_compat_l. right.
  unfold norm. f_equal. unfold dot; cbn. ring.
Qed.
Lemma norm_vscale c a : norm (vscale c a) = Rabs c * norm a.
Proof.
  destruct (Rle_dec 0 c) as [H|H].
  - rewrite norm_scale by exact H. rewrite Rabs_pos_eq by exact H. reflexivity.
  - rewrite Rabs_left by lra. rewrite <- norm_scale by lra. unfold norm. f_equal. unfold dot; cbn; ring.
Qed.

(** ** The rotation *)
Definition rot2 (s f : vec) (x : R) : vec :=
  vadd s (vadd (vscale x (cross s f)) (vscale (x * x * / 2) (cross (cross s f) f))).

Lemma double_cross_unit s f : unit3 f -> cross (cross s f) f = vsub (vscale (dot s f) f) s.
Proof.
  intro Hf. transitivity (vsub (vscale (dot s f) f) (vscale (dot f f) s)).
  - apply v3_ext; cbn; unfold dot; ring.
  - rewrite Hf. apply v3_ext; cbn; ring.
Qed.
Lemma rodr_rot2 s f p : unit3 s -> unit3 f -> 0 <= p -> norm (vsub (rodr s f p) (rot2 s f p)) <= 2 * p ^ 3.
Proof.
  intros Hs Hf Hp.
  replace (vsub (rodr s f p) (rot2 s f p)) with
    (vadd (vscale (1 - cos p - p * p * / 2) (cross (cross s f) f)) (vscale (sin p - p) (cross s f))).
  2:{ unfold rot2. rewrite double_cross_unit by exact Hf. apply v3_ext; cbn; ring. }
  eapply Rle_trans; [apply norm_triangle|]. rewrite !norm_vscale.
  assert (N1 : norm (cross s f) <= 1).
  { eapply Rle_trans; [apply norm_cross|]. rewrite !unit3_norm by assumption. lra. }
  assert (N2 : norm (cross (cross s f) f) <= 1).
  { eapply Rle_trans; [apply norm_cross|]. rewrite (unit3_norm f) by assumption. lra. }
  pose proof (cos_3 p Hp). pose proof (sin_3 p Hp).
  pose proof (norm_nonneg (cross s f)). pose proof (norm_nonneg (cross (cross s f) f)).
  replace (2 * p ^ 3) with (1 * p ^ 3 * 1 + 1 * p ^ 3 * 1) by ring.
  apply Rplus_le_compat; apply Rmult_le_compat; auto using Rabs_pos.
Qed.
Lemma rotate_rot2 s f x W : unit3 s -> norm f <= W -> 0 <= x ->
  norm (vsub (rotate RNum s f x) (rot2 s f x)) <= 2 * W ^ 3 * x ^ 3.
Proof.
  intros Hs HW Hx. pose proof (norm_nonneg f) as Hf0.
  assert (P : 0 <= 2 * W ^ 3 * x ^ 3).
  { apply Rmult_le_pos; [apply Rmult_le_pos; [lra|]|]; apply pow_le; lra. }
  destruct (Req_dec (norm f) 0) as [E|E].
  - assert (f = vzero) by (apply dot_zero; rewrite <- norm_sq, E; ring). subst.
    rewrite rotate_R_zero by assumption. replace (vsub s (rot2 s vzero x)) with vzero by (apply v3_ext; cbn; ring).
    rewrite norm_vzero. exact P.
  - assert (U : unit3 (nrm f)) by (apply nrm_unit; intro; subst; apply E, norm_vzero).
    rewrite rotate_R_unit_eq by assumption.
    replace (rot2 s f x) with (rot2 s (nrm f) (norm f * x)).
    2:{ rewrite <- (nrm_back f) at 3. unfold rot2. apply v3_ext; cbn; ring. }
    eapply Rle_trans; [apply rodr_rot2; auto; apply Rmult_le_pos; assumption|].
    rewrite Rpow_mult_distr. rewrite <- Rmult_assoc. apply Rmult_le_compat_r; [apply pow_le; exact Hx|].
    apply Rmult_le_compat_l; [lra|]. apply pow_incr. lra.
Qed.

(** Two rotations of two unit vectors about two axes *)
Lemma rotate_same_axis s s' f x : unit3 s -> unit3 s' ->
  norm (vsub (rotate RNum s f x) (rotate RNum s' f x)) = norm (vsub s s').
Proof.
  intros Hs Hs'. destruct (Req_dec (norm f) 0) as [E|E].
  - assert (f = vzero) by (apply dot_zero; rewrite <- norm_sq, E; ring). subst. rewrite !rotate_R_zero by assumption. reflexivity.
  - assert (U : unit3 (nrm f)) by (apply nrm_unit; intro; subst; apply E, norm_vzero).
    rewrite !rotate_R_unit_eq by assumption. set (g := nrm f) in *. set (p := norm f * x).
    replace (vsub (rodr s g p) (rodr s' g p)) with (rodr (vsub s s') g p).
    2:{ apply v3_ext; cbn; unfold dot; cbn; ring. }
    unfold norm. rewrite rodr_dot by exact U. reflexivity.
Qed.
Lemma rot2_diff s f f' x W : unit3 s -> norm f <= W -> norm f' <= W -> 0 <= x <= 1 ->
  norm (vsub (rot2 s f x) (rot2 s f' x)) <= x * (1 + W) * norm (vsub f f').
Proof.
  intros Hs Hf Hf' Hx. pose proof (norm_nonneg f). pose proof (norm_nonneg f').
  set (d := vsub f f'). pose proof (norm_nonneg d) as Hd.
  replace (vsub (rot2 s f x) (rot2 s f' x)) with
    (vadd (vscale x (cross s d)) (vscale (x * x * / 2) (vadd (cross (cross s f) d) (cross (cross s d) f')))).
  2:{ unfold rot2, d. apply v3_ext; cbn; ring. }
  assert (C : forall g, norm (cross s g) <= norm g).
  { intro g. eapply Rle_trans; [apply norm_cross|]. rewrite (unit3_norm s) by assumption. lra. }
  assert (A1 : norm (cross s d) <= norm d) by apply C.
  assert (A2 : norm (cross (cross s f) d) <= W * norm d).
  { eapply Rle_trans; [apply norm_cross|]. apply Rmult_le_compat_r; [exact Hd|]. eapply Rle_trans; [apply C|exact Hf]. }
  assert (A3 : norm (cross (cross s d) f') <= W * norm d).
  { eapply Rle_trans; [apply norm_cross|]. rewrite (Rmult_comm W). apply Rmult_le_compat; auto using norm_nonneg. }
  eapply Rle_trans; [apply norm_triangle|]. rewrite !norm_vscale.
  assert (0 <= x * x) by (apply Rle_0_sqr).
  rewrite !Rabs_pos_eq by lra.
  assert (A4 : norm (vadd (cross (cross s f) d) (cross (cross s d) f')) <= 2 * (W * norm d)).
  { eapply Rle_trans; [apply norm_triangle|]. lra. }
  assert (0 <= W * norm d) by (apply Rmult_le_pos; lra).
  assert (x * norm (cross s d) <= x * norm d) by (apply Rmult_le_compat_l; lra).
  assert (x * x * / 2 * norm (vadd (cross (cross s f) d) (cross (cross s d) f')) <= x * x * / 2 * (2 * (W * norm d)))
    by (apply Rmult_le_compat_l; lra).
  assert (x * x * (W * norm d) <= x * 1 * (W * norm d)).
  { apply Rmult_le_compat_r; [assumption|]. apply Rmult_le_compat_l; lra. }
  replace (x * (1 + W) * norm d) with (x * norm d + x * 1 * (W * norm d)) by ring. lra.
Qed.
Lemma rotate_diff s s' f f' x W : unit3 s -> unit3 s' -> norm f <= W -> norm f' <= W -> 0 <= x <= 1 ->
  norm (vsub (rotate RNum s f x) (rotate RNum s' f' x)) <=
    norm (vsub s s') + x * (1 + W) * norm (vsub f f') + 4 * W ^ 3 * x ^ 3.
Proof.
  intros Hs Hs' Hf Hf' Hx.
  replace (vsub (rotate RNum s f x) (rotate RNum s' f' x)) with
    (vadd (vsub (rotate RNum s f x) (rotate RNum s' f x))
       (vadd (vsub (rotate RNum s' f x) (rot2 s' f x))
          (vsub (vsub (rot2 s' f x) (rot2 s' f' x)) (vsub (rotate RNum s' f' x) (rot2 s' f' x))))).
  2:{ generalize (rotate RNum s f x), (rotate RNum s' f x), (rotate RNum s' f' x). intros u v w.
      apply v3_ext; unfold vadd, vsub; cbn [vx vy vz]; match goal with |- @eq _ ?a ?b => change (@eq R a b) end; ring. }
  eapply Rle_trans; [apply norm_triangle|]. rewrite rotate_same_axis by assumption.
  assert (A := rotate_rot2 s' f x W Hs' Hf (proj1 Hx)). assert (B := rotate_rot2 s' f' x W Hs' Hf' (proj1 Hx)).
  assert (C := rot2_diff s' f f' x W Hs' Hf Hf' Hx).
  assert (D := norm_triangle (vsub (rotate RNum s' f x) (rot2 s' f x))
          (vsub (vsub (rot2 s' f x) (rot2 s' f' x)) (vsub (rotate RNum s' f' x) (rot2 s' f' x)))).
  assert (E := norm_sub_le (vsub (rot2 s' f x) (rot2 s' f' x)) (vsub (rotate RNum s' f' x) (rot2 s' f' x))).
  lra.
Qed.

(** ** Vector expansions *)
Section VJet.
Context (lo hi : R).
Notation jet := (jet lo hi).
Notation at_time := (at_time lo hi).
Definition vjet (Q : nat -> Prop) (m : nat) (F : R -> nat -> R -> vec) (a b c : R -> nat -> vec) : Prop :=
  jet Q m (fun r i h => vx (F r i h)) (fun r i => vx (a r i)) (fun r i => vx (b r i)) (fun r i => vx (c r i)) /\
  jet Q m (fun r i h => vy (F r i h)) (fun r i => vy (a r i)) (fun r i => vy (b r i)) (fun r i => vy (c r i)) /\
  jet Q m (fun r i h => vz (F r i h)) (fun r i => vz (a r i)) (fun r i => vz (b r i)) (fun r i => vz (c r i)).

Lemma vjet_weak Q m m' F a b c : (m' <= m)%nat -> vjet Q m F a b c -> vjet Q m' F a b c.
Proof. intros L (A & B & C). split; [|split]; eapply jet_weak; eauto. Qed.
Lemma vjet_eq (Q : nat -> Prop) m F F' a a' b b' c c' : vjet Q m F a b c ->
  (forall r i h, Q i -> at_time r h -> F' r i h = F r i h) ->
  (forall r i, Q i -> lo <= r <= hi -> a' r i = a r i) -> (forall r i, Q i -> lo <= r <= hi -> b' r i = b r i) ->
  (forall r i, Q i -> lo <= r <= hi -> c' r i = c r i) -> vjet Q m F' a' b' c'.
Proof.
  intros (X & Y & Z) HF A B C. split; [|split]; [eapply jet_eq; [exact X|..]|eapply jet_eq; [exact Y|..]|eapply jet_eq; [exact Z|..]]; cbv beta; intros;
    first [rewrite HF by assumption|rewrite A by assumption|rewrite B by assumption|rewrite C by assumption]; reflexivity.
Qed.
Lemma vjet_sub (Q Q' : nat -> Prop) m F a b c (p : nat -> nat) : (forall i, Q i -> Q' (p i)) -> vjet Q' m F a b c ->
  vjet Q m (fun r i => F r (p i)) (fun r i => a r (p i)) (fun r i => b r (p i)) (fun r i => c r (p i)).
Proof. intros P (A & B & C). split; [|split]; [exact (jet_sub _ _ _ _ _ _ _ _ _ p P A)|exact (jet_sub _ _ _ _ _ _ _ _ _ p P B)|exact (jet_sub _ _ _ _ _ _ _ _ _ p P C)]. Qed.
Lemma vjet_const (Q : nat -> Prop) m g : (exists K, forall r i, Q i -> lo <= r <= hi -> norm (g r i) <= K) ->
  vjet Q m (fun r i _ => g r i) g (fun _ _ => vzero) (fun _ _ => vzero).
Proof.
  intros (K & H). split; [|split].
  - apply (jet_const lo hi Q m (fun r i => vx (g r i))). exists K. intros r i Hi Hr. apply (comp_norm _ _ (H r i Hi Hr)).
  - apply (jet_const lo hi Q m (fun r i => vy (g r i))). exists K. intros r i Hi Hr. apply (comp_norm _ _ (H r i Hi Hr)).
  - apply (jet_const lo hi Q m (fun r i => vz (g r i))). exists K. intros r i Hi Hr. apply (comp_norm _ _ (H r i Hi Hr)).
Qed.
Lemma vjet_small (Q : nat -> Prop) m F : (exists K, forall r i h, Q i -> at_time r h -> norm (F r i h) <= K * h ^ (m + 1)) ->
  vjet Q m F (fun _ _ => vzero) (fun _ _ => vzero) (fun _ _ => vzero).
Proof.
  intros (K & H). split; [|split]; apply jet_small; exists K; intros r i h Hi Ht; apply (comp_norm _ _ (H r i h Hi Ht)).
Qed.
Lemma vjet_add Q m F a b c G a' b' c' : vjet Q m F a b c -> vjet Q m G a' b' c' ->
  vjet Q m (fun r i h => vadd (F r i h) (G r i h)) (fun r i => vadd (a r i) (a' r i)) (fun r i => vadd (b r i) (b' r i))
    (fun r i => vadd (c r i) (c' r i)).
Proof. intros (A & B & C) (A' & B' & C'). split; [|split]; cbn; apply jet_add; assumption. Qed.
Lemma jet_opp Q m f a b c : jet Q m f a b c -> jet Q m (fun r i h => - f r i h) (fun r i => - a r i) (fun r i => - b r i) (fun r i => - c r i).
Proof.
  intros (K & K0 & H). exists K. split; [exact K0|]. intros r i h Hi Ht. destruct (H r i h Hi Ht) as (A & B & C & D).
  rewrite !Rabs_Ropp. repeat split; auto. rewrite <- Rabs_Ropp. eapply Rle_trans; [right|exact D]. f_equal. unfold poly; ring.
Qed.
Lemma jet_minus Q m f a b c g a' b' c' : jet Q m f a b c -> jet Q m g a' b' c' ->
  jet Q m (fun r i h => f r i h - g r i h) (fun r i => a r i - a' r i) (fun r i => b r i - b' r i) (fun r i => c r i - c' r i).
Proof. intros A B. apply (jet_add lo hi Q m _ _ _ _ _ _ _ _ A (jet_opp Q m _ _ _ _ B)). Qed.
Lemma vjet_minus Q m F a b c G a' b' c' : vjet Q m F a b c -> vjet Q m G a' b' c' ->
  vjet Q m (fun r i h => vsub (F r i h) (G r i h)) (fun r i => vsub (a r i) (a' r i)) (fun r i => vsub (b r i) (b' r i))
    (fun r i => vsub (c r i) (c' r i)).
Proof. intros (A & B & C) (A' & B' & C'). split; [|split]; cbn; apply jet_minus; assumption. Qed.
Lemma vjet_had Q m F a b c G a' b' c' : (m <= 2)%nat -> vjet Q m F a b c -> vjet Q m G a' b' c' ->
  vjet Q m (fun r i h => vhad (F r i h) (G r i h)) (fun r i => vhad (a r i) (a' r i))
    (fun r i => vadd (vhad (a r i) (b' r i)) (vhad (b r i) (a' r i)))
    (fun r i => vadd (vadd (vhad (a r i) (c' r i)) (vhad (b r i) (b' r i))) (vhad (c r i) (a' r i))).
Proof. intros L (A & B & C) (A' & B' & C'). split; [|split]; cbn; apply jet_mul; assumption. Qed.
Lemma vjet_cross Q m F a b c G a' b' c' : (m <= 2)%nat -> vjet Q m F a b c -> vjet Q m G a' b' c' ->
  vjet Q m (fun r i h => cross (F r i h) (G r i h)) (fun r i => cross (a r i) (a' r i))
    (fun r i => vadd (cross (a r i) (b' r i)) (cross (b r i) (a' r i)))
    (fun r i => vadd (vadd (cross (a r i) (c' r i)) (cross (b r i) (b' r i))) (cross (c r i) (a' r i))).
Proof.
  intros L (A & B & C) (A' & B' & C'). 
  pose (M := fun f a b c g a' b' c' H H' => jet_mul lo hi Q m f a b c g a' b' c' L H H').
  split; [|split]; cbn;
  [ eapply jet_eq; [exact (jet_minus _ _ _ _ _ _ _ _ _ _ (M _ _ _ _ _ _ _ _ B C') (M _ _ _ _ _ _ _ _ C B'))|..]
  | eapply jet_eq; [exact (jet_minus _ _ _ _ _ _ _ _ _ _ (M _ _ _ _ _ _ _ _ C A') (M _ _ _ _ _ _ _ _ A C'))|..]
  | eapply jet_eq; [exact (jet_minus _ _ _ _ _ _ _ _ _ _ (M _ _ _ _ _ _ _ _ A B') (M _ _ _ _ _ _ _ _ B A'))|..] ];
  cbv beta; intros; ring.
Qed.
Lemma vjet_scale Q m F a b c k : vjet Q m F a b c ->
  vjet Q m (fun r i h => vscale k (F r i h)) (fun r i => vscale k (a r i)) (fun r i => vscale k (b r i)) (fun r i => vscale k (c r i)).
Proof.
  assert (J1 : forall f a b c, jet Q m f a b c -> jet Q m (fun r i h => k * f r i h) (fun r i => k * a r i) (fun r i => k * b r i) (fun r i => k * c r i)).
  { intros f a0 b0 c0 (K & K0 & H). exists (Rabs k * K). pose proof (Rabs_pos k). split; [apply Rmult_le_pos; assumption|]. intros r i h Hi Ht.
    destruct (H r i h Hi Ht) as (A & B & C & D). split; [|split; [|split]]; try (apply rmul_le; [apply Rle_refl|assumption]).
    replace (k * f r i h - poly (k * a0 r i) (k * b0 r i) (k * c0 r i) h) with (k * (f r i h - poly (a0 r i) (b0 r i) (c0 r i) h)) by (unfold poly; ring).
    rewrite Rmult_assoc. apply rmul_le; [apply Rle_refl|assumption]. }
  intros (A & B & C). split; [|split]; cbn; apply J1; assumption.
Qed.
Lemma vjet_h Q m F a b c : (m <= 1)%nat -> vjet Q m F a b c ->
  vjet Q (S m) (fun r i h => vscale h (F r i h)) (fun _ _ => vzero) a b.
Proof.
  intros L (A & B & C). split; [|split]; cbn;
  [exact (jet_h _ _ _ _ _ _ _ _ L A)|exact (jet_h _ _ _ _ _ _ _ _ L B)|exact (jet_h _ _ _ _ _ _ _ _ L C)].
Qed.
Lemma vjet_step Q m F a b c k : 0 <= k <= 1 -> vjet Q m F a b c ->
  vjet Q m (fun r i h => F r i (k * h)) a (fun r i => vscale k (b r i)) (fun r i => vscale (k * k) (c r i)).
Proof.
  intros L (A & B & C). split; [|split]; cbn;
  [exact (jet_step _ _ _ _ _ _ _ _ k L A)|exact (jet_step _ _ _ _ _ _ _ _ k L B)|exact (jet_step _ _ _ _ _ _ _ _ k L C)].
Qed.
Lemma vjet_int (Q : nat -> Prop) m F F' a b c : (m <= 1)%nat -> vjet Q m F' a b c ->
  (forall r i h, Q i -> at_time r h -> has_velocity (F r i) h (F' r i h)) ->
  (exists K, forall r i, Q i -> lo <= r <= hi -> norm (F r i 0) <= K) ->
  vjet Q (S m) F (fun r i => F r i 0) a (fun r i => vscale (/ 2) (b r i)).
Proof.
  intros L (A & B & C) Hd (K & H).
  split; [|split]; cbn.
  - apply (jet_int _ _ Q m (fun r i h => vx (F r i h)) _ _ _ _ L A); [intros; apply Hd; assumption|].
    exists K. intros r i Hi Hr. apply (comp_norm _ _ (H r i Hi Hr)).
  - apply (jet_int _ _ Q m (fun r i h => vy (F r i h)) _ _ _ _ L B); [intros; apply Hd; assumption|].
    exists K. intros r i Hi Hr. apply (comp_norm _ _ (H r i Hi Hr)).
  - apply (jet_int _ _ Q m (fun r i h => vz (F r i h)) _ _ _ _ L C); [intros; apply Hd; assumption|].
    exists K. intros r i Hi Hr. apply (comp_norm _ _ (H r i Hi Hr)).
Qed.
Lemma vjet_int0 (Q : nat -> Prop) F F' :
  (forall r i h, Q i -> at_time r h -> has_velocity (F r i) h (F' r i h)) ->
  (exists K, forall r i h, Q i -> at_time r h -> norm (F' r i h) <= K) ->
  (exists K, forall r i, Q i -> lo <= r <= hi -> norm (F r i 0) <= K) ->
  vjet Q 0 F (fun r i => F r i 0) (fun _ _ => vzero) (fun _ _ => vzero).
Proof.
  intros Hd (K' & H') (K & H).
  split; [|split]; cbn.
  - apply (jet_int0 _ _ Q (fun r i h => vx (F r i h)) (fun r i h => vx (F' r i h))); [intros; apply Hd; assumption| |].
    + exists K'. intros r i h Hi Hr. apply (comp_norm _ _ (H' r i h Hi Hr)).
    + exists K. intros r i Hi Hr. apply (comp_norm _ _ (H r i Hi Hr)).
  - apply (jet_int0 _ _ Q (fun r i h => vy (F r i h)) (fun r i h => vy (F' r i h))); [intros; apply Hd; assumption| |].
    + exists K'. intros r i h Hi Hr. apply (comp_norm _ _ (H' r i h Hi Hr)).
    + exists K. intros r i Hi Hr. apply (comp_norm _ _ (H r i Hi Hr)).
  - apply (jet_int0 _ _ Q (fun r i h => vz (F r i h)) (fun r i h => vz (F' r i h))); [intros; apply Hd; assumption| |].
    + exists K'. intros r i h Hi Hr. apply (comp_norm _ _ (H' r i h Hi Hr)).
    + exists K. intros r i Hi Hr. apply (comp_norm _ _ (H r i Hi Hr)).
Qed.
(** an expansion is bounded, and two functions with the same expansion are close *)
Lemma vjet_bound (Q : nat -> Prop) m F a b c : vjet Q m F a b c -> exists K, 0 <= K /\ forall r i h, Q i -> at_time r h -> norm (F r i h) <= K.
Proof.
  intros ((K1 & P1 & H1) & (K2 & P2 & H2) & (K3 & P3 & H3)). exists (2 * (4 * (K1 + K2 + K3))). split; [lra|]. intros r i h Hi Ht.
  assert (Hh : 0 <= h <= 1) by apply Ht. assert (P := pow_le_1 h (m + 1) Hh).
  assert (G : forall K a b c x, 0 <= K -> Rabs a <= K /\ Rabs b <= K /\ Rabs c <= K /\ Rabs (x - poly a b c h) <= K * h ^ (m + 1) -> Rabs x <= 4 * K).
  { intros K a0 b0 c0 x K0 (A & B & C & D). replace x with ((x - poly a0 b0 c0 h) + poly a0 b0 c0 h) by ring.
    replace (4 * K) with (K * 1 + 3 * K) by ring. apply radd_le; [|apply poly_le; auto].
    eapply Rle_trans; [exact D|]. apply Rmult_le_compat_l; lra. }
  apply norm_comp. repeat split.
  - pose proof (G _ _ _ _ _ P1 (H1 r i h Hi Ht)). lra.
  - pose proof (G _ _ _ _ _ P2 (H2 r i h Hi Ht)). lra.
  - pose proof (G _ _ _ _ _ P3 (H3 r i h Hi Ht)). lra.
Qed.
Lemma vjet_close (Q : nat -> Prop) m F G a b c : vjet Q m F a b c -> vjet Q m G a b c ->
  exists K, 0 <= K /\ forall r i h, Q i -> at_time r h -> norm (vsub (F r i h) (G r i h)) <= K * h ^ (m + 1).
Proof.
  intros ((K1 & P1 & H1) & (K2 & P2 & H2) & (K3 & P3 & H3)) ((K1' & P1' & H1') & (K2' & P2' & H2') & (K3' & P3' & H3')).
  set (K := K1 + K2 + K3 + K1' + K2' + K3').
  exists (2 * K). split; [unfold K; lra|]. intros r i h Hi Ht.
  assert (Hh : 0 <= h <= 1) by apply Ht. assert (P := pow_ge0 h (m + 1) Hh).
  assert (G0 : forall k k' p x y, k + k' <= K -> Rabs (x - p) <= k * h ^ (m + 1) -> Rabs (y - p) <= k' * h ^ (m + 1) -> Rabs (x - y) <= K * h ^ (m + 1)).
  { intros k k' p x y L A B. replace (x - y) with ((x - p) + - (y - p)) by ring.
    eapply Rle_trans; [apply radd_le; [exact A|rewrite Rabs_Ropp; exact B]|]. rewrite <- Rmult_plus_distr_r. apply Rmult_le_compat_r; assumption. }
  rewrite Rmult_assoc. apply norm_comp. repeat split; cbn.
  - eapply G0; [|apply (H1 r i h Hi Ht)|apply (H1' r i h Hi Ht)]. unfold K; lra.
  - eapply G0; [|apply (H2 r i h Hi Ht)|apply (H2' r i h Hi Ht)]. unfold K; lra.
  - eapply G0; [|apply (H3 r i h Hi Ht)|apply (H3' r i h Hi Ht)]. unfold K; lra.
Qed.

(** a rotation *)
Lemma vjet_rotate (Q : nat -> Prop) F a b c G a' b' c' k : 0 <= k <= 1 ->
  (forall r i h, Q i -> at_time r h -> unit3 (F r i h)) ->
  vjet Q 2 F a b c -> vjet Q 1 G a' b' c' ->
  vjet Q 2 (fun r i h => rotate RNum (F r i h) (G r i h) (k * h)) a
    (fun r i => vadd (b r i) (vscale k (cross (a r i) (a' r i))))
    (fun r i => vadd (c r i) (vadd (vscale k (vadd (cross (a r i) (b' r i)) (cross (b r i) (a' r i))))
       (vscale (k * k * / 2) (cross (cross (a r i) (a' r i)) (a' r i))))).
Proof.
  intros Hk HU HF HG.
  assert (C1 := vjet_cross Q 1 _ _ _ _ _ _ _ _ ltac:(lia) (vjet_weak Q 2 1 _ _ _ _ ltac:(lia) HF) HG).
  assert (C2 := vjet_cross Q 0 _ _ _ _ _ _ _ _ ltac:(lia) (vjet_weak Q 1 0 _ _ _ _ ltac:(lia) C1) (vjet_weak Q 1 0 _ _ _ _ ltac:(lia) HG)).
  assert (D1 := vjet_h Q 1 _ _ _ _ ltac:(lia) (vjet_scale Q 1 _ _ _ _ k C1)).
  assert (D2 := vjet_h Q 1 _ _ _ _ ltac:(lia) (vjet_h Q 0 _ _ _ _ ltac:(lia) (vjet_scale Q 0 _ _ _ _ (k * k * / 2) C2))).
  destruct (vjet_bound Q 1 _ _ _ _ HG) as (W & W0 & HW).
  assert (R0 : vjet Q 2 (fun r i h => vsub (rotate RNum (F r i h) (G r i h) (k * h)) (rot2 (F r i h) (G r i h) (k * h)))
     (fun _ _ => vzero) (fun _ _ => vzero) (fun _ _ => vzero)).
  { apply vjet_small. exists (2 * W ^ 3). intros r i h Hi Ht. assert (Hh : 0 <= h <= 1) by apply Ht.
    assert (0 <= k * h <= h).
    { split; [apply Rmult_le_pos; lra|]. rewrite <- (Rmult_1_l h) at 2. apply Rmult_le_compat_r; lra. }
    eapply Rle_trans; [apply rotate_rot2; [apply HU; assumption|apply HW; assumption|lra]|].
    apply Rmult_le_compat_l; [|apply pow_incr; lra]. apply Rmult_le_pos; [lra|]. apply pow_le; exact W0. }
  eapply vjet_eq; [exact (vjet_add Q 2 _ _ _ _ _ _ _ _ R0 (vjet_add Q 2 _ _ _ _ _ _ _ _ HF (vjet_add Q 2 _ _ _ _ _ _ _ _ D1 D2)))|..]; cbv beta.
  - intros r i h _ _. generalize (rotate RNum (F r i h) (G r i h) (k * h)). intro u. generalize (F r i h), (G r i h). intros.
    apply v3_ext; unfold rot2, vadd, vsub, vscale, cross; cbn [vx vy vz]; match goal with |- @eq _ ?a ?b => change (@eq R a b) end; ring.
  - intros; apply v3_ext; cbn; ring.
  - intros; apply v3_ext; cbn; ring.
  - intros; apply v3_ext; cbn; ring.
Qed.
End VJet.
