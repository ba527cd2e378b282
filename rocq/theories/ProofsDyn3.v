(** Consistency with the equation of motion; absence of NaN under strong fields; free spins;
    locality; energy non-conservation for odd lengths. *)
From Coq Require Import Reals Lra Lia List ZArith Arith Bool.
From Verif Require Import Num Monad NumR Spin Config Chain SpecVec SpecChain
  ProofsSpin ProofsChain ProofsEnergy ProofsDrive ProofsNew ProofsDyn ProofsDynR ProofsDyn2.
Import ListNotations.
Local Open Scope R_scope.

(** ** Elementary bounds *)
Lemma sin_abs_le x : Rabs (sin x) <= Rabs x.
Proof.
  destruct (Rtotal_order x 0) as [H|[->|H]].
  - rewrite <- (Rabs_Ropp (sin x)), <- sin_neg, <- (Rabs_Ropp x).
    assert (0 < - x) by lra. destruct (Rle_dec 1 (- x)).
    + pose proof (SIN_bound (- x)). rewrite (Rabs_right (- x)) by lra. apply Rabs_le. lra.
    + pose proof (sin_lt_x (- x) H0). pose proof PI2_1. assert (0 < sin (- x)) by (apply sin_gt_0; lra).
      rewrite !Rabs_right by lra. lra.
  - rewrite sin_0. lra.
  - destruct (Rle_dec 1 x).
    + pose proof (SIN_bound x). rewrite (Rabs_right x) by lra. apply Rabs_le. lra.
    + pose proof (sin_lt_x x H). pose proof PI2_1. assert (0 < sin x) by (apply sin_gt_0; lra).
      rewrite !Rabs_right by lra. lra.
Qed.

Lemma cos_quad x : 0 <= 1 - cos x <= x * x / 2.
Proof.
  pose proof (COS_bound x). split; [lra|].
  replace x with (2 * (x / 2)) at 1 by field. rewrite cos_2a_sin.
  pose proof (sin_abs_le (x / 2)) as H1.
  assert (H2 : sin (x / 2) * sin (x / 2) <= (x / 2) * (x / 2)).
  { rewrite <- (Rsqr_abs_c (sin (x / 2))), <- (Rsqr_abs_c (x / 2)).
    pose proof (Rabs_pos (sin (x / 2))). apply Rmult_le_compat; lra. }
  lra.
Qed.

Lemma sin_quad_pos x : 0 < x -> Rabs (sin x - x) <= x * x.
Proof.
  intro H. destruct (Rle_dec x 1) as [L|L].
  - destruct (MVT_cor2 sin cos 0 x H) as (c & E & Hc).
    { intros c _. apply derivable_pt_lim_sin. }
    rewrite sin_0 in E. pose proof (cos_quad c) as Q.
    replace (sin x - x) with (- (x * (1 - cos c))) by lra.
    rewrite Rabs_Ropp, Rabs_right by (apply Rle_ge, Rmult_le_pos; lra).
    apply Rmult_le_compat_l; [lra|]. apply Rle_trans with (c * c / 2); [lra|].
    assert (c * c <= x * x) by (apply Rmult_le_compat; lra).
    assert (x * x <= x * 1) by (apply Rmult_le_compat_l; lra). lra.
  - pose proof (SIN_bound x). apply Rnot_le_lt in L. pose proof PI2_1.
    assert (x * 1 <= x * x) by (apply Rmult_le_compat_l; lra).
    destruct (Rle_dec x PI).
    + assert (0 <= sin x) by (apply sin_ge_0; lra). apply Rabs_le. lra.
    + assert (2 * x <= x * x). { apply Rmult_le_compat_r; lra. } apply Rabs_le. lra.
Qed.
Lemma sin_quad x : Rabs (sin x - x) <= x * x.
Proof.
  destruct (Rtotal_order x 0) as [H|[->|H]].
  - pose proof (sin_quad_pos (- x) ltac:(lra)) as Q. rewrite sin_neg in Q.
    replace (- sin x - - x) with (- (sin x - x)) in Q by ring. rewrite Rabs_Ropp in Q. lra.
  - rewrite sin_0, Rminus_0_r, Rabs_R0. lra.
  - apply sin_quad_pos; assumption.
Qed.

Lemma unit_comp v : unit3 v -> Rabs (vx v) <= 1 /\ Rabs (vy v) <= 1 /\ Rabs (vz v) <= 1.
Proof. intro H. pose proof (comp_le_norm v) as C. rewrite unit3_norm in C by assumption. exact C. Qed.

(** Rotation to first order *)
Lemma rot_quad_aux a b k phi : Rabs a <= 1 -> Rabs b <= 1 -> Rabs k <= 1 ->
  Rabs (a * cos phi + b * (1 - cos phi) - k * sin phi - (a - k * phi)) <= 2 * (phi * phi).
Proof.
  intros Ha Hb Hk.
  replace (a * cos phi + b * (1 - cos phi) - k * sin phi - (a - k * phi))
    with ((b - a) * (1 - cos phi) - k * (sin phi - phi)) by ring.
  pose proof (cos_quad phi) as C. pose proof (sin_quad phi) as Sq.
  assert (Rabs ((b - a) * (1 - cos phi)) <= phi * phi).
  { rewrite Rabs_mult, (Rabs_right (1 - cos phi)) by lra.
    assert (Rabs (b - a) <= 2). { apply Rabs_le. apply Rabs_def2_le in Ha || (revert Ha Hb; unfold Rabs; destruct (Rcase_abs a), (Rcase_abs b); lra). }
    apply Rle_trans with (2 * (phi * phi / 2)); [|lra]. apply Rmult_le_compat; try lra. apply Rabs_pos. }
  assert (Rabs (k * (sin phi - phi)) <= phi * phi).
  { rewrite Rabs_mult. rewrite <- (Rmult_1_l (phi * phi)). apply Rmult_le_compat; auto using Rabs_pos. }
  unfold Rminus at 1. eapply Rle_trans; [apply Rabs_triang|]. rewrite Rabs_Ropp. lra.
Qed.

Lemma rot_quad s w tau0 : unit3 s ->
  let r := rotate RNum s w tau0 in let c := cross s w in let e := 2 * (tau0 * tau0 * dot w w) in
  Rabs (vx r - (vx s + tau0 * vx c)) <= e /\
  Rabs (vy r - (vy s + tau0 * vy c)) <= e /\
  Rabs (vz r - (vz s + tau0 * vz c)) <= e.
Proof.
  intros Hs. cbv zeta. destruct (Req_dec (norm w) 0) as [E|E].
  { assert (w = vzero) by (apply dot_zero; rewrite <- norm_sq, E; ring). subst.
    rewrite rotate_R_zero by assumption. unfold cross, dot, vzero; cbn.
    repeat split; match goal with |- Rabs ?a <= ?b => replace a with 0 by ring; replace b with 0 by ring end; rewrite Rabs_R0; lra. }
  assert (U : unit3 (nrm w)) by (apply nrm_unit; intro; subst; apply E, norm_vzero).
  rewrite rotate_R_unit_eq by assumption. set (phi := norm w * tau0).
  assert (Ee : 2 * (tau0 * tau0 * dot w w) = 2 * (phi * phi)) by (unfold phi; rewrite <- norm_sq; ring).
  rewrite Ee. pose proof (unit_comp s Hs) as (S1 & S2 & S3). pose proof (unit_comp _ U) as (F1 & F2 & F3).
  assert (D : Rabs (dot s (nrm w)) <= 1).
  { eapply Rle_trans; [apply dot_cs|]. rewrite !unit3_norm by assumption. lra. }
  assert (X : forall x, Rabs x <= 1 -> Rabs (x * dot s (nrm w)) <= 1).
  { intros x Hx. rewrite Rabs_mult, <- (Rmult_1_l 1). apply Rmult_le_compat; auto using Rabs_pos. }
  assert (C : Rabs (vx (cross (nrm w) s)) <= 1 /\ Rabs (vy (cross (nrm w) s)) <= 1 /\ Rabs (vz (cross (nrm w) s)) <= 1).
  { pose proof (comp_le_norm (cross (nrm w) s)) as K.
    assert (norm (cross (nrm w) s) <= 1); [|lra]. apply norm_le_sq; [lra|]. rewrite lagrange.
    unfold unit3 in *. rewrite U, Hs. pose proof (Rle_0_sqr (dot (nrm w) s)) as Q. unfold Rsqr in Q. lra. }
  destruct C as (C1 & C2 & C3).
  assert (W : w = vscale (norm w) (nrm w)) by (symmetry; apply nrm_back).
  assert (P : forall a b k y, y = - k * norm w -> Rabs a <= 1 -> Rabs b <= 1 -> Rabs k <= 1 ->
     Rabs (a * cos phi + b * (1 - cos phi) - k * sin phi - (a + tau0 * y)) <= 2 * (phi * phi)).
  { intros a b k y -> Ha Hb Hk. replace (a + tau0 * (- k * norm w)) with (a - k * phi) by (unfold phi; ring).
    apply rot_quad_aux; assumption. }
  unfold rodr; cbn [vx vy vz].
  repeat split; apply P; auto; rewrite W at 1; unfold cross, vscale; cbn [vx vy vz]; ring.
Qed.

(** ** Derivatives at 0 *)
Lemma deriv_id_times k : continuity_pt k 0 -> derivable_pt_lim (fun d => d * k d) 0 (k 0).
Proof.
  intros Hk eps He. destruct (Hk eps He) as (al & Hal & H).
  exists (mkposreal al Hal). intros h Hh Hl. cbn in Hl.
  replace ((((0 + h) * k (0 + h)) - 0 * k 0) / h - k 0) with (k h - k 0) by (rewrite Rplus_0_l; field; assumption).
  apply H. split; [split; [exact I|auto]|]. cbn. unfold R_dist. rewrite Rminus_0_r. assumption.
Qed.

Lemma deriv_quad g q : continuity_pt q 0 -> (forall d, Rabs (g d) <= d * d * q d) ->
  derivable_pt_lim g 0 0.
Proof.
  intros Hq Hg eps He. destruct (Hq 1 Rlt_0_1) as (al & Hal & H).
  set (K := Rabs (q 0) + 1). assert (HK : 0 < K) by (unfold K; pose proof (Rabs_pos (q 0)); lra).
  assert (Hd : 0 < Rmin al (eps / K)) by (apply Rmin_pos; [assumption|apply Rdiv_lt_0_compat; assumption]).
  assert (G0 : g 0 = 0).
  { specialize (Hg 0). rewrite !Rmult_0_l in Hg. pose proof (Rabs_pos (g 0)).
    destruct (Req_dec (g 0) 0); [assumption|]. apply Rabs_pos_lt in H1. lra. }
  exists (mkposreal _ Hd). intros h Hh Hl. cbn in Hl.
  rewrite Rplus_0_l, G0, !Rminus_0_r. unfold Rdiv. rewrite Rabs_mult, Rabs_inv.
  assert (Q : q h <= K).
  { assert (D : R_dist (q h) (q 0) < 1).
    { apply H. split; [split; [exact I|auto]|]. cbn. unfold R_dist. rewrite Rminus_0_r.
      eapply Rlt_le_trans; [exact Hl|apply Rmin_l]. }
    unfold R_dist in D. apply Rabs_def2 in D. unfold K. pose proof (Rle_abs (q 0)). lra. }
  assert (Hh0 : 0 < Rabs h) by (apply Rabs_pos_lt; assumption).
  apply Rle_lt_trans with (Rabs h * K).
  - apply Rmult_le_reg_r with (Rabs h); [assumption|].
    rewrite Rmult_assoc, Rinv_l, Rmult_1_r by lra.
    eapply Rle_trans; [apply Hg|]. replace (h * h) with (Rabs h * Rabs h) by apply Rsqr_abs_c.
    replace (Rabs h * K * Rabs h) with (Rabs h * Rabs h * K) by ring.
    apply Rmult_le_compat_l; [|assumption]. apply Rmult_le_pos; lra.
  - apply Rlt_le_trans with (eps / K * K); [|right; field; lra].
    apply Rmult_lt_compat_r; [assumption|]. eapply Rlt_le_trans; [exact Hl|apply Rmin_r].
Qed.

Lemma dl_ext f g x l : (forall y, f y = g y) -> derivable_pt_lim f x l -> derivable_pt_lim g x l.
Proof. intros E H eps He. destruct (H eps He) as (d & Hd). exists d. intros h Hh Hl. rewrite <- !E. auto. Qed.
Lemma ct_ext f g x : (forall y, f y = g y) -> continuity_pt f x -> continuity_pt g x.
Proof.
  intros E H eps He. destruct (H eps He) as (d & Hd & A). exists d. split; [assumption|].
  intros y Hy. rewrite <- !E. auto.
Qed.
Lemma dl_cont f x l : derivable_pt_lim f x l -> continuity_pt f x.
Proof. intro H. apply derivable_continuous_pt. exists l. exact H. Qed.

(** Continuous curves of vectors *)
Definition vcont (W : R -> vec) : Prop :=
  continuity_pt (fun d => vx (W d)) 0 /\ continuity_pt (fun d => vy (W d)) 0 /\ continuity_pt (fun d => vz (W d)) 0.

Lemma vel_cont c v : has_velocity c 0 v -> vcont c.
Proof. intros (A & B & C). repeat split; eapply dl_cont; eassumption. Qed.
Lemma vcont_const a : vcont (fun _ => a).
Proof. repeat split; apply continuity_pt_const; intros ? ?; reflexivity. Qed.
Ltac ctac := repeat first
  [ assumption | apply continuity_pt_const; intros ? ?; reflexivity
  | apply continuity_pt_plus | apply continuity_pt_minus | apply continuity_pt_mult ].
Lemma ct_plus f g x : continuity_pt f x -> continuity_pt g x -> continuity_pt (fun d => f d + g d) x.
Proof. apply continuity_pt_plus. Qed.
Lemma ct_minus f g x : continuity_pt f x -> continuity_pt g x -> continuity_pt (fun d => f d - g d) x.
Proof. apply continuity_pt_minus. Qed.
Lemma ct_mult f g x : continuity_pt f x -> continuity_pt g x -> continuity_pt (fun d => f d * g d) x.
Proof. apply continuity_pt_mult. Qed.
Lemma ct_const a x : continuity_pt (fun _ => a) x.
Proof. apply continuity_pt_const. intros ? ?; reflexivity. Qed.

Lemma vcont_add a b : vcont a -> vcont b -> vcont (fun d => vadd (a d) (b d)).
Proof. intros (A & B & C) (D & E & F). repeat split; cbn; apply ct_plus; assumption. Qed.
Lemma vcont_sub a b : vcont a -> vcont b -> vcont (fun d => vsub (a d) (b d)).
Proof. intros (A & B & C) (D & E & F). repeat split; cbn; apply ct_minus; assumption. Qed.
Lemma vcont_had a b : vcont b -> vcont (fun d => vhad a (b d)).
Proof. intros (D & E & F). repeat split; cbn; apply ct_mult; auto using ct_const. Qed.
Lemma cont_dot a b : vcont a -> vcont b -> continuity_pt (fun d => dot (a d) (b d)) 0.
Proof.
  intros (A & B & C) (D & E & F). unfold dot. apply ct_plus; [apply ct_plus|]; apply ct_mult; assumption.
Qed.
Lemma vcont_cross a b : vcont a -> vcont b -> vcont (fun d => cross (a d) (b d)).
Proof.
  intros (A & B & C) (D & E & F). unfold cross.
  repeat split; cbn; apply ct_minus; apply ct_mult; assumption.
Qed.
Lemma vcont_ext a b : (forall d, a d = b d) -> vcont a -> vcont b.
Proof.
  intros H (A & B & C). repeat split.
  - eapply ct_ext; [|exact A]. intro; cbv beta; rewrite H; reflexivity.
  - eapply ct_ext; [|exact B]. intro; cbv beta; rewrite H; reflexivity.
  - eapply ct_ext; [|exact C]. intro; cbv beta; rewrite H; reflexivity.
Qed.

Lemma vcont_nonzero W : vcont W -> W 0 <> vzero -> exists del, 0 < del /\ forall d, Rabs d < del -> W d <> vzero.
Proof.
  intros HW H0. pose proof (cont_dot W W HW HW) as Hq.
  pose proof (dot_pos (W 0) H0) as Hp.
  destruct (Hq (dot (W 0) (W 0)) Hp) as (al & Hal & H). exists al. split; [assumption|].
  intros d Hd E. destruct (Req_dec d 0) as [->|Hd0]; [contradiction|].
  specialize (H d). cbn in H. unfold R_dist in H. rewrite E, Rminus_0_r in H.
  assert (Q : Rabs (dot vzero vzero - dot (W 0) (W 0)) < dot (W 0) (W 0)).
  { apply H. split; [split; [exact I|auto]|assumption]. }
  replace (dot vzero vzero - dot (W 0) (W 0)) with (- dot (W 0) (W 0)) in Q by (unfold dot at 2, vzero; cbn; ring).
  rewrite Rabs_Ropp, Rabs_right in Q; lra.
Qed.

Lemma small_all (P : nat -> R -> Prop) M :
  (forall p, (p < M)%nat -> exists del, 0 < del /\ forall d, Rabs d < del -> P p d) ->
  exists del, 0 < del /\ forall d, Rabs d < del -> forall p, (p < M)%nat -> P p d.
Proof.
  induction M; intro H.
  - exists 1. split; [lra|]. intros; lia.
  - destruct IHM as (d1 & H1 & A1); [auto|]. destruct (H M ltac:(lia)) as (d2 & H2 & A2).
    exists (Rmin d1 d2). split; [apply Rmin_pos; assumption|]. intros d Hd p Hp.
    assert (p = M \/ (p < M)%nat) as [->|Hlt] by lia.
    + apply A2. eapply Rlt_le_trans; [exact Hd|apply Rmin_r].
    + apply A1; [|assumption]. eapply Rlt_le_trans; [exact Hd|apply Rmin_l].
Qed.

(** The rotated curve *)
Lemma vel_rotate (s W : R -> vec) (tf : R -> R) c v :
  (forall d, unit3 (s d)) -> has_velocity s 0 v -> vcont W -> (forall d, tf d = c * d) ->
  has_velocity (fun d => rotate RNum (s d) (W d) (tf d)) 0 (vadd v (vscale c (cross (s 0) (W 0)))).
Proof.
  intros Hu Hv HW Ht.
  pose proof (vcont_cross s W (vel_cont _ _ Hv) HW) as HC.
  pose proof (cont_dot W W HW HW) as HD.
  assert (P : forall (x : vec -> R) (dx : R),
     (forall a w k, Rabs (x (rotate RNum a w k) - (x a + k * x (cross a w))) <= 2 * (k * k * dot w w) \/ ~ unit3 a) ->
     derivable_pt_lim (fun d => x (s d)) 0 dx ->
     continuity_pt (fun d => x (cross (s d) (W d))) 0 ->
     derivable_pt_lim (fun d => x (rotate RNum (s d) (W d) (tf d))) 0 (dx + c * x (cross (s 0) (W 0)))).
  { intros x dx Hq Hdx Hcx.
    set (g := fun d => x (rotate RNum (s d) (W d) (tf d)) - (x (s d) + tf d * x (cross (s d) (W d)))).
    apply (dl_ext (fun d => (x (s d) + d * (c * x (cross (s d) (W d)))) + g d)).
    { intro d. unfold g. rewrite Ht. ring. }
    replace (dx + c * x (cross (s 0) (W 0))) with ((dx + c * x (cross (s 0) (W 0))) + 0) by ring.
    apply (derivable_pt_lim_plus (fun d => x (s d) + d * (c * x (cross (s d) (W d)))) g).
    - apply (derivable_pt_lim_plus (fun d => x (s d)) (fun d => d * (c * x (cross (s d) (W d))))); [assumption|].
      apply (deriv_id_times (fun d => c * x (cross (s d) (W d)))). apply ct_mult; auto using ct_const.
    - apply (deriv_quad g (fun d => 2 * (c * c) * dot (W d) (W d))).
      + apply ct_mult; auto using ct_const.
      + intro d. unfold g. destruct (Hq (s d) (W d) (tf d)) as [H|H]; [|contradict H; apply Hu].
        eapply Rle_trans; [exact H|]. rewrite Ht. right; ring. }
  destruct Hv as (V1 & V2 & V3), HC as (C1 & C2 & C3).
  assert (UD : forall a : vec, unit3 a \/ ~ unit3 a) by (intro; unfold unit3; destruct (Req_dec (dot a a) 1); auto).
  repeat split.
  - apply (P vx); auto. intros a w k. destruct (UD a); [left; apply rot_quad; assumption|auto].
  - apply (P vy); auto. intros a w k. destruct (UD a); [left; apply rot_quad; assumption|auto].
  - apply (P vz); auto. intros a w k. destruct (UD a); [left; apply rot_quad; assumption|auto].
Qed.

Lemma vel_ext a b v w x : (forall d, a d = b d) -> v = w -> has_velocity a x v -> has_velocity b x w.
Proof.
  intros H <- (A & B & C). repeat split.
  - eapply dl_ext; [|exact A]. intro; cbv beta; rewrite H; reflexivity.
  - eapply dl_ext; [|exact B]. intro; cbv beta; rewrite H; reflexivity.
  - eapply dl_ext; [|exact C]. intro; cbv beta; rewrite H; reflexivity.
Qed.

(** ** One step as a curve in dt *)
Section Curve.
Variables (M : nat) (J : nat -> vec) (Bd : R -> nat -> vec).
Hypothesis HBd : forall p, (p < M)%nat -> vcont (fun d => Bd d p).

Lemma om_cont (X : R -> nat -> vec) p : (p < M)%nat ->
  (forall q, (q < M)%nat -> vcont (fun d => X d q)) -> vcont (fun d => om M (X d) J (Bd d) p).
Proof.
  intros Hp HX. unfold om. apply vcont_sub; [apply vcont_add|]; try (apply vcont_had, HX).
  - apply lft_lt; assumption.
  - apply rgt_lt; assumption.
  - apply HBd; assumption.
Qed.

Lemma stage_vel b (X : R -> nat -> vec) (V : nat -> vec) tf c :
  (forall d p, (p < M)%nat -> unit3 (X d p)) ->
  (forall p, (p < M)%nat -> has_velocity (fun d => X d p) 0 (V p)) -> (forall d, tf d = c * d) ->
  forall p, (p < M)%nat -> has_velocity (fun d => stageF RNum M b J (Bd d) (tf d) (X d) p) 0
    (if onsub M b p then vadd (V p) (vscale c (cross (X 0 p) (om M (X 0) J (Bd 0) p))) else V p).
Proof.
  intros Hu HV Ht p Hp. unfold stageF. destruct (onsub M b p) eqn:E; [|auto].
  eapply vel_ext; [|reflexivity|].
  2:{ apply (vel_rotate (fun d => X d p) (fun d => om M (X d) J (Bd d) p) tf c); auto.
      apply om_cont; [assumption|]. intros q Hq. eapply vel_cont. apply HV. assumption. }
  intro d. cbv beta. apply (f_equal (fun q => rotate RNum (X d p) q (tf d))). symmetry. apply omF_R.
Qed.

Variable S : nat -> vec.
Hypothesis HS : forall p, (p < M)%nat -> unit3 (S p).
Hypothesis HM : (M mod 2 = 0)%nat.

Definition X1 (d : R) := stageF RNum M 0 J (Bd d) (d / 2) S.
Definition X2 (d : R) := stageF RNum M 1 J (Bd d) d (X1 d).
Definition X3 (d : R) := stageF RNum M 0 J (Bd d) (d / 2) (X2 d).

Lemma X1_0 p : X1 0 p = S p.
Proof. unfold X1. replace (0 / 2) with 0 by field. apply stage_0. assumption. Qed.
Lemma U1 d p : (p < M)%nat -> unit3 (X1 d p).
Proof. apply stage_unit; assumption. Qed.
Lemma X2_0 p : X2 0 p = S p.
Proof. unfold X2. rewrite stage_0; [apply X1_0|]. intros; apply U1; assumption. Qed.
Lemma U2 d p : (p < M)%nat -> unit3 (X2 d p).
Proof. apply stage_unit. intros; apply U1; assumption. Qed.

Lemma om_ext A B C p : (forall q, A q = B q) -> om M A J C p = om M B J C p.
Proof. intro H. unfold om. rewrite !H. reflexivity. Qed.

Lemma const_vel (a : vec) : has_velocity (fun _ => a) 0 vzero.
Proof. repeat split; apply derivable_pt_lim_const. Qed.

Lemma V1 p : (p < M)%nat -> has_velocity (fun d => X1 d p) 0
  (if onsub M 0 p then vscale (/ 2) (cross (S p) (om M S J (Bd 0) p)) else vzero).
Proof.
  intro Hp. eapply vel_ext; [intro; reflexivity| |apply (stage_vel 0 (fun _ => S) (fun _ => vzero) (fun d => d / 2) (/ 2))]; auto.
  - destruct (onsub M 0 p); [|reflexivity]. unfold vadd, vzero; cbn. apply v3_ext; cbn; ring.
  - intros; apply const_vel.
  - intro; unfold Rdiv; ring.
Qed.
Lemma V2 p : (p < M)%nat -> has_velocity (fun d => X2 d p) 0
  (if onsub M 0 p then vscale (/ 2) (cross (S p) (om M S J (Bd 0) p)) else cross (S p) (om M S J (Bd 0) p)).
Proof.
  intro Hp. eapply vel_ext; [intro; reflexivity| |apply (stage_vel 1 X1 _ (fun d => d) 1 U1 V1)]; auto.
  - cbv beta. assert (D : onsub M 0 p = negb (onsub M 1 p)).
    { unfold onsub. destruct (Nat.ltb_spec p M); [|lia]. cbn [andb].
      destruct (Nat.eqb_spec (p mod 2) 0), (Nat.eqb_spec (p mod 2) 1); cbn [negb]; auto; lia. }
    rewrite D. destruct (onsub M 1 p); cbn [negb]; [|reflexivity].
    rewrite X1_0, (om_ext (X1 0) S) by apply X1_0. unfold vadd, vzero; apply v3_ext; cbn; ring.
  - intro; ring.
Qed.
Lemma V3 p : (p < M)%nat -> has_velocity (fun d => X3 d p) 0 (cross (S p) (om M S J (Bd 0) p)).
Proof.
  intro Hp. eapply vel_ext; [intro; reflexivity| |apply (stage_vel 0 X2 _ (fun d => d / 2) (/ 2) U2 V2)]; auto.
  - cbv beta. destruct (onsub M 0 p); [|reflexivity].
    rewrite X2_0, (om_ext (X2 0) S) by apply X2_0. unfold vadd; apply v3_ext; cbn; field.
  - intro; unfold Rdiv; ring.
Qed.

Lemma nv_small : (forall p, (p < M)%nat -> om M S J (Bd 0) p <> vzero) ->
  exists del, 0 < del /\ forall d, Rabs d < del -> nv M J (Bd d) (d / 2) d S.
Proof.
  intro H.
  assert (K : forall X, (forall p, (p < M)%nat -> vcont (fun d => X d p)) -> (forall p, X 0 p = S p) ->
     exists del, 0 < del /\ forall d, Rabs d < del -> forall p, (p < M)%nat -> om M (X d) J (Bd d) p <> vzero).
  { intros X HX X0. apply small_all. intros p Hp.
    apply (vcont_nonzero (fun d => om M (X d) J (Bd d) p)).
    - apply om_cont; assumption.
    - rewrite (om_ext (X 0) S) by assumption. auto. }
  destruct (K (fun _ => S)) as (d0 & D0 & A0); [intros; apply vcont_const|reflexivity|].
  destruct (K X1) as (d1 & D1 & A1); [intros p Hp; eapply vel_cont, V1; assumption|apply X1_0|].
  destruct (K X2) as (d2 & D2 & A2); [intros p Hp; eapply vel_cont, V2; assumption|apply X2_0|].
  exists (Rmin d0 (Rmin d1 d2)). split; [repeat apply Rmin_pos; assumption|].
  intros d Hd. assert (Hd0 := Rlt_le_trans _ _ _ Hd (Rmin_l _ _)).
  assert (Hd12 := Rlt_le_trans _ _ _ Hd (Rmin_r _ _)).
  assert (Hd1 := Rlt_le_trans _ _ _ Hd12 (Rmin_l _ _)). assert (Hd2 := Rlt_le_trans _ _ _ Hd12 (Rmin_r _ _)).
  unfold nv; cbv zeta. split; [|split]; intros p Hp; apply onsub_spec in Hp; destruct Hp as [Hp _].
  - apply A0; assumption.
  - apply (A1 d Hd1 p Hp).
  - apply (A2 d Hd2 p Hp).
Qed.
End Curve.
