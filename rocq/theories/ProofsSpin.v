(** Proofs about spins (auxiliary; the theorems proper are in PropSpin.v). *)
From Coq Require Import Reals Lra Lia List ZArith Psatz.
From Verif Require Import Num Monad NumR Spin SpecVec.
Import ListNotations.
Local Open Scope R_scope.

Lemma v3_ext (A : Type) (a b : v3 A) : vx a = vx b -> vy a = vy b -> vz a = vz b -> a = b.
Proof. destruct a, b; cbn; intros; subst; reflexivity. Qed.

Lemma fin3_inj a b : fin3 a = fin3 b -> a = b.
Proof. destruct a, b; cbn; intro H; injection H; intros; subst; reflexivity. Qed.

Lemma dot_comm a b : dot a b = dot b a.
Proof. unfold dot; ring. Qed.
Lemma dot_nonneg a : 0 <= dot a a.
Proof. unfold dot; nra. Qed.
Lemma dot_zero a : dot a a = 0 -> a = vzero.
Proof. unfold dot; intro H; apply v3_ext; cbn; nra. Qed.
Lemma dot_pos a : a <> vzero -> 0 < dot a a.
Proof.
  intro H. destruct (Rle_lt_or_eq_dec 0 (dot a a) (dot_nonneg a)) as [?|E]; [assumption|].
  exfalso; apply H; apply dot_zero; auto.
Qed.
Lemma norm_sq a : norm a * norm a = dot a a.
Proof. apply sqrt_def, dot_nonneg. Qed.
Lemma norm_nonneg a : 0 <= norm a.
Proof. apply sqrt_pos. Qed.
Lemma norm_pos a : a <> vzero -> 0 < norm a.
Proof. intro H; apply sqrt_lt_R0, dot_pos, H. Qed.
Lemma unit3_nonzero s : unit3 s -> s <> vzero.
Proof. unfold unit3; intros H E; subst; cbn in H; unfold dot in H; cbn in H; lra. Qed.
Lemma unit3_norm s : unit3 s -> norm s = 1.
Proof. unfold unit3, norm; intros ->; apply sqrt_1. Qed.
Lemma norm_scale c a : 0 <= c -> norm (vscale c a) = c * norm a.
Proof.
  intro H. unfold norm.
  replace (dot (vscale c a) (vscale c a)) with ((c * c) * dot a a) by (unfold dot; cbn; ring).
  rewrite sqrt_mult_alt by nra. rewrite sqrt_square by assumption. reflexivity.
Qed.
Lemma unit3_normalise a : a <> vzero -> unit3 (vscale (/ norm a) a).
Proof.
  intro H. pose proof (norm_pos a H). unfold unit3.
  replace (dot (vscale (/ norm a) a) (vscale (/ norm a) a))
    with (dot a a / (norm a * norm a)) by (unfold dot; cbn; field; lra).
  rewrite norm_sq. field. pose proof (dot_pos a H); lra.
Qed.

(** ** Rodrigues' formula with the program's sign convention *)
Definition rodr (s f : vec) (phi : R) : vec :=
  mk3 (vx s * cos phi + vx f * dot s f * (1 - cos phi) - vx (cross f s) * sin phi)
      (vy s * cos phi + vy f * dot s f * (1 - cos phi) - vy (cross f s) * sin phi)
      (vz s * cos phi + vz f * dot s f * (1 - cos phi) - vz (cross f s) * sin phi).

Lemma cs1 x : sin x * sin x = 1 - cos x * cos x.
Proof. pose proof (sin2_cos2 x); unfold Rsqr in *; lra. Qed.

Lemma rodr_dot s1 s2 f phi : unit3 f -> dot (rodr s1 f phi) (rodr s2 f phi) = dot s1 s2.
Proof.
  unfold unit3; destruct s1 as [a b c], s2 as [d e g], f as [p q r].
  unfold rodr, dot, cross; cbn. intro Hf.
  pose proof (cs1 phi) as Hc. set (C := cos phi) in *; set (S := sin phi) in *.
  assert (Hr : r * r = 1 - p * p - q * q) by lra.
  match goal with |- ?L = ?Rt =>
    assert (E : L - Rt = (S * S - (1 - C * C)) * (
        (q * c - r * b) * (q * g - r * e) + (r * a - p * c) * (r * d - p * g) + (p * b - q * a) * (p * e - q * d))
      + (p * p + q * q + r * r - 1) *
        ((a * p + b * q + c * r) * (d * p + e * q + g * r) * (1 - C) * (1 - C) + (1 - C * C) * (a * d + b * e + c * g))) by ring end.
  rewrite Hc in E. replace (p * p + q * q + r * r - 1) with 0 in E by lra. lra.
Qed.

Lemma rodr_axis s f phi : unit3 f -> dot (rodr s f phi) f = dot s f.
Proof.
  unfold unit3; destruct s as [a b c], f as [p q r]. unfold rodr, dot, cross; cbn. intro Hf.
  set (C := cos phi) in *; set (S := sin phi) in *.
  match goal with |- ?L = ?Rt =>
    assert (E : L - Rt = (p * p + q * q + r * r - 1) * (a * p + b * q + c * r) * (1 - C)) by ring end.
  replace (p * p + q * q + r * r - 1) with 0 in E by lra. lra.
Qed.

Lemma rodr_add s f a b : unit3 f -> rodr (rodr s f a) f b = rodr s f (a + b).
Proof.
  intro Hf. pose proof (rodr_axis s f a Hf) as Hax. revert Hf Hax.
  destruct s as [x y z], f as [p q r]. unfold unit3, rodr, dot, cross; cbn. intros Hf Hax.
  rewrite cos_plus, sin_plus.
  set (A := cos a) in *; set (A' := sin a) in *; set (B := cos b) in *; set (B' := sin b) in *.
  apply v3_ext; cbn; rewrite Hax.
  - match goal with |- ?L = ?Rt =>
      assert (E : L - Rt = (p * p + q * q + r * r - 1) * (- (A' * B' * x))) by ring end.
    replace (p * p + q * q + r * r - 1) with 0 in E by lra. lra.
  - match goal with |- ?L = ?Rt =>
      assert (E : L - Rt = (p * p + q * q + r * r - 1) * (- (A' * B' * y))) by ring end.
    replace (p * p + q * q + r * r - 1) with 0 in E by lra. lra.
  - match goal with |- ?L = ?Rt =>
      assert (E : L - Rt = (p * p + q * q + r * r - 1) * (- (A' * B' * z))) by ring end.
    replace (p * p + q * q + r * r - 1) with 0 in E by lra. lra.
Qed.

Lemma rodr_0 s f : rodr s f 0 = s.
Proof. destruct s; unfold rodr; cbn; rewrite cos_0, sin_0; apply v3_ext; cbn; ring. Qed.

Lemma rodr_unit s f phi : unit3 f -> unit3 s -> unit3 (rodr s f phi).
Proof. unfold unit3 at 2 3; intros Hf Hs; rewrite rodr_dot by assumption; assumption. Qed.

Lemma cross_scale_l c a b : cross (vscale c a) b = vscale c (cross a b).
Proof. apply v3_ext; cbn; ring. Qed.

Lemma rodr_velocity s f w phi0 :
  unit3 f ->
  has_velocity (fun x => rodr s f (w * x)) phi0 (cross (rodr s f (w * phi0)) (vscale w f)).
Proof.
  unfold unit3; destruct s as [x y z], f as [p q r]. intro Hf.
  assert (Hlin : forall x0, derivable_pt_lim (fun x => w * x) x0 w).
  { intro x0. pose proof (derivable_pt_lim_scal id w x0 1 (derivable_pt_lim_id x0)) as H.
    rewrite Rmult_1_r in H. exact H. }
  assert (Hc : derivable_pt_lim (fun x => cos (w * x)) phi0 (- sin (w * phi0) * w)).
  { apply (derivable_pt_lim_comp (fun x => w * x) cos); [apply Hlin | apply derivable_pt_lim_cos]. }
  assert (Hs : derivable_pt_lim (fun x => sin (w * x)) phi0 (cos (w * phi0) * w)).
  { apply (derivable_pt_lim_comp (fun x => w * x) sin); [apply Hlin | apply derivable_pt_lim_sin]. }
  assert (Hgen : forall a b c, derivable_pt_lim
      (fun x => a * cos (w * x) + b * (1 - cos (w * x)) - c * sin (w * x)) phi0
      (a * (- sin (w * phi0) * w) + b * (0 - (- sin (w * phi0) * w)) - c * (cos (w * phi0) * w))).
  { intros a b c.
    apply (derivable_pt_lim_minus (fun x => a * cos (w * x) + b * (1 - cos (w * x))) (fun x => c * sin (w * x))).
    - apply (derivable_pt_lim_plus (fun x => a * cos (w * x)) (fun x => b * (1 - cos (w * x)))).
      + apply (derivable_pt_lim_scal (fun x => cos (w * x))); assumption.
      + apply (derivable_pt_lim_scal (fun x => 1 - cos (w * x))).
        apply (derivable_pt_lim_minus (fun _ => 1) (fun x => cos (w * x))); [|assumption].
        apply derivable_pt_lim_const.
    - apply (derivable_pt_lim_scal (fun x => sin (w * x))); assumption. }
  unfold dot in Hf; cbn in Hf.
  unfold has_velocity; repeat split; unfold rodr, dot; cbn;
    match goal with |- derivable_pt_lim (fun r => ?a * _ + ?b * _ - ?c * _) _ ?l =>
      let H := fresh in pose proof (Hgen a b c) as H;
      match type of H with derivable_pt_lim _ _ ?l' =>
        replace l with l'; [exact H|] end end.
  - set (C := cos (w * phi0)); set (S := sin (w * phi0)).
    match goal with |- ?L = ?Rt => assert (E : L - Rt = (p*p+q*q+r*r-1) * (x * w * S)) by ring end.
    replace (p*p+q*q+r*r-1) with 0 in E by lra. lra.
  - set (C := cos (w * phi0)); set (S := sin (w * phi0)).
    match goal with |- ?L = ?Rt => assert (E : L - Rt = (p*p+q*q+r*r-1) * (y * w * S)) by ring end.
    replace (p*p+q*q+r*r-1) with 0 in E by lra. lra.
  - set (C := cos (w * phi0)); set (S := sin (w * phi0)).
    match goal with |- ?L = ?Rt => assert (E : L - Rt = (p*p+q*q+r*r-1) * (z * w * S)) by ring end.
    replace (p*p+q*q+r*r-1) with 0 in E by lra. lra.
Qed.

(** ** The real-number rotation *)
Definition nrm (a : vec) : vec := mk3 (vx a / norm a) (vy a / norm a) (vz a / norm a).

Lemma nrm_scale a : nrm a = vscale (/ norm a) a.
Proof. apply v3_ext; cbn; unfold Rdiv; ring. Qed.
Lemma nrm_unit a : a <> vzero -> unit3 (nrm a).
Proof. intro; rewrite nrm_scale; apply unit3_normalise; assumption. Qed.
Lemma nrm_id a : unit3 a -> nrm a = a.
Proof. intro H; unfold nrm; rewrite unit3_norm by assumption; apply v3_ext; cbn; field. Qed.
Lemma nrm_back a : vscale (norm a) (nrm a) = a.
Proof.
  destruct (Req_dec (norm a) 0) as [E|E].
  - assert (a = vzero).
    { apply dot_zero. rewrite <- norm_sq, E. ring. }
    subst; apply v3_ext; cbn; rewrite E; ring.
  - apply v3_ext; cbn; field; assumption.
Qed.
Lemma nrm_zero : nrm vzero = vzero.
Proof. apply v3_ext; cbn; unfold Rdiv; ring. Qed.
Lemma nrm_scale_pos c a : 0 < c -> nrm (vscale c a) = nrm a.
Proof.
  intro H. destruct (Req_dec (norm a) 0) as [E|E].
  - assert (a = vzero). { apply dot_zero. rewrite <- norm_sq, E. ring. }
    subst. replace (vscale c vzero) with vzero by (apply v3_ext; cbn; ring). reflexivity.
  - unfold nrm. rewrite norm_scale by lra. apply v3_ext; cbn; field; lra.
Qed.

Lemma sum_sq_R v : sum_sq RNum (arr RNum v) = dot v v.
Proof. unfold sum_sq, arr, dot; cbn; ring. Qed.

Lemma norm_R v : nsqrt RNum (sum_sq RNum (arr RNum v)) = norm v.
Proof. rewrite sum_sq_R; reflexivity. Qed.

Lemma rotate_R s f dt : rotate RNum s f dt = nrm (rodr s (nrm f) (norm f * dt)).
Proof.
  unfold rotate; cbv zeta. rewrite !norm_R.
  match goal with |- context [norm ?b] =>
    match b with mk3 _ _ _ =>
    replace b with (rodr s (nrm f) (norm f * dt)) end end.
  2:{ unfold rodr, dot, cross, nrm; apply v3_ext; cbn; ring. }
  unfold nrm at 2. apply v3_ext; cbn; f_equal; unfold dot, cross; cbn; ring.
Qed.

Lemma rotate_R_unit_eq s f dt : unit3 s -> rotate RNum s f dt = rodr s (nrm f) (norm f * dt).
Proof.
  intro Hs. rewrite rotate_R.
  destruct (Req_dec (norm f) 0) as [E|E].
  - assert (f = vzero). { apply dot_zero. rewrite <- norm_sq, E. ring. }
    subst f. rewrite E, Rmult_0_l, rodr_0. apply nrm_id; assumption.
  - apply nrm_id, rodr_unit; [|assumption]. apply nrm_unit. intro; subst f. apply E.
    unfold norm, dot; cbn. replace (0*0+0*0+0*0) with 0 by ring. apply sqrt_0.
Qed.

Lemma rotate_R_zero s dt : unit3 s -> rotate RNum s vzero dt = s.
Proof.
  intro Hs. rewrite rotate_R_unit_eq by assumption.
  replace (norm vzero) with 0; [rewrite Rmult_0_l; apply rodr_0|].
  unfold norm, dot; cbn. replace (0*0+0*0+0*0) with 0 by ring. symmetry; apply sqrt_0.
Qed.

(** ** Lifting to numbers with NaN *)
Lemma er_div_ok a b : b <> 0 -> er_div (Some a) (Some b) = Some (a / b).
Proof. intro H; cbn; destruct (Req_EM_T b 0); [contradiction|reflexivity]. Qed.
Lemma er_sqrt_ok a : 0 <= a -> er_sqrt (Some a) = Some (sqrt a).
Proof. intro H; cbn; destruct (Rlt_dec a 0); [lra|reflexivity]. Qed.
Lemma er_acos_ok a : -1 <= a <= 1 -> er_acos (Some a) = Some (acos a).
Proof. intro H; cbn; destruct (Rlt_dec a (-1)); [lra|]; destruct (Rlt_dec 1 a); [lra|reflexivity]. Qed.

Lemma norm_ER v : nsqrt ERNum (sum_sq ERNum (arr ERNum (fin3 v))) = Some (norm v).
Proof.
  change (er_sqrt (Some (0 + vx v * vx v + vy v * vy v + vz v * vz v)) = Some (norm v)).
  replace (0 + vx v * vx v + vy v * vy v + vz v * vz v) with (dot v v) by (unfold dot; ring).
  apply er_sqrt_ok, dot_nonneg.
Qed.

Lemma rodr_nonzero s f phi : unit3 f -> s <> vzero -> rodr s f phi <> vzero.
Proof.
  intros Hf Hs E. apply Hs, dot_zero. rewrite <- (rodr_dot s s f phi Hf), E.
  unfold dot; cbn; ring.
Qed.

Lemma rotate_ER_ok s f dt :
  s <> vzero -> f <> vzero ->
  rotate ERNum (fin3 s) (fin3 f) (Some dt) = fin3 (nrm (rodr s (nrm f) (norm f * dt))).
Proof.
  intros Hs Hf. pose proof (norm_pos f Hf) as Hn.
  unfold rotate; cbv zeta. rewrite norm_ER.
  cbn [ndiv ERNum fin3 v3map vx vy vz].
  rewrite !er_div_ok by lra.
  match goal with |- mk3 (er_div ?a (nsqrt _ (sum_sq _ (arr _ ?b)))) _ _ = _ =>
    replace b with (fin3 (rodr s (nrm f) (norm f * dt))) end.
  2:{ unfold rodr, dot, cross, nrm; apply v3_ext; cbn; f_equal; ring. }
  rewrite norm_ER.
  pose proof (norm_pos _ (rodr_nonzero s (nrm f) (norm f * dt) (nrm_unit f Hf) Hs)) as Hp.
  set (R0 := rodr s (nrm f) (norm f * dt)) in *.
  assert (E : forall a b c, mk3 a b c = fin3 R0 ->
     mk3 (er_div a (Some (norm R0))) (er_div b (Some (norm R0))) (er_div c (Some (norm R0))) = fin3 (nrm R0)).
  { intros a b c H. injection H; intros; subst. rewrite !er_div_ok by lra. reflexivity. }
  apply E. unfold R0, rodr, dot, cross, nrm; apply v3_ext; cbn; f_equal; ring.
Qed.

Lemma er_div_none_r a : er_div a None = None.
Proof. destruct a; reflexivity. Qed.
Lemma er2_none_r f a : er2 f a None = None.
Proof. destruct a; reflexivity. Qed.

Lemma norm_vzero : norm vzero = 0.
Proof. unfold norm, dot; cbn. replace (0*0+0*0+0*0) with 0 by ring. apply sqrt_0. Qed.

Lemma er_div_zero a : er_div (Some a) (Some 0) = None.
Proof. cbn; destruct (Req_EM_T 0 0); [reflexivity | exfalso; auto]. Qed.

(** [rotate] about the zero field is NaN in every component *)
Lemma rotate_ER_zero_field s dt : rotate ERNum s (fin3 vzero) dt = nan3.
Proof.
  unfold rotate; cbv zeta. rewrite norm_ER, norm_vzero.
  cbn [ndiv ERNum fin3 v3map vx vy vz vzero].
  rewrite !er_div_zero.
  destruct s as [a b c]; cbn. rewrite ?er2_none_r. cbn. rewrite ?er2_none_r. cbn. reflexivity.
Qed.

Lemma rodr_vzero f phi : rodr vzero f phi = vzero.
Proof. unfold rodr, dot, cross; apply v3_ext; cbn; ring. Qed.

(** A zero direction cannot be normalised *)
Lemma rotate_ER_zero_spin f dt : rotate ERNum (fin3 vzero) (fin3 f) (Some dt) = nan3.
Proof.
  destruct (Req_dec (norm f) 0) as [E|E].
  { assert (f = vzero) by (apply dot_zero; rewrite <- norm_sq, E; ring).
    subst. apply rotate_ER_zero_field. }
  unfold rotate; cbv zeta. rewrite norm_ER.
  cbn [ndiv ERNum fin3 v3map vx vy vz vzero].
  rewrite !er_div_ok by lra.
  match goal with |- mk3 (er_div ?a (nsqrt _ (sum_sq _ (arr _ ?b)))) _ _ = _ =>
    replace b with (fin3 vzero) end.
  2:{ apply v3_ext; cbn; f_equal; ring. }
  rewrite norm_ER, norm_vzero.
  assert (H : forall a, er_div a (Some 0) = None) by (intros [a|]; [apply er_div_zero|reflexivity]).
  rewrite !H. reflexivity.
Qed.

Lemma rotate_ER_fin s f dt s' :
  rotate ERNum (fin3 s) (fin3 f) (Some dt) = fin3 s' ->
  s <> vzero /\ f <> vzero /\ s' = nrm (rodr s (nrm f) (norm f * dt)) /\ s' = rotate RNum s f dt.
Proof.
  intro H.
  assert (Hf : f <> vzero). { intro; subst; rewrite rotate_ER_zero_field in H; discriminate. }
  assert (Hs : s <> vzero). { intro; subst; rewrite rotate_ER_zero_spin in H; discriminate. }
  rewrite rotate_ER_ok in H by assumption. apply fin3_inj in H.
  repeat split; auto. rewrite rotate_R; auto.
Qed.

Lemma rotate_ER_R s f dt : s <> vzero -> f <> vzero ->
  rotate ERNum (fin3 s) (fin3 f) (Some dt) = fin3 (rotate RNum s f dt).
Proof. intros; rewrite rotate_ER_ok, rotate_R by assumption; reflexivity. Qed.

Lemma rotate_ER_unit s f dt : unit3 s -> f <> vzero ->
  rotate ERNum (fin3 s) (fin3 f) (Some dt) = fin3 (rodr s (nrm f) (norm f * dt)).
Proof.
  intros Hs Hf. rewrite rotate_ER_ok by (auto using unit3_nonzero).
  rewrite nrm_id; [reflexivity|]. apply rodr_unit; [apply nrm_unit|]; assumption.
Qed.

Lemma rotate_unit_result s f dt :
  s <> vzero -> f <> vzero ->
  exists s', rotate ERNum (fin3 s) (fin3 f) (Some dt) = fin3 s' /\ unit3 s'.
Proof.
  intros Hs Hf. exists (nrm (rodr s (nrm f) (norm f * dt))). split.
  - apply rotate_ER_ok; assumption.
  - apply nrm_unit, rodr_nonzero; [apply nrm_unit|]; assumption.
Qed.

Lemma rotations_unit_result (l : list (vec * R)) : forall s,
  s <> vzero -> Forall (fun p => fst p <> vzero) l ->
  exists s', fold_left (fun a p => rotate ERNum a (fin3 (fst p)) (Some (snd p))) l (fin3 s) = fin3 s'
             /\ (l <> [] -> unit3 s') /\ s' <> vzero.
Proof.
  induction l as [|[f dt] l IH]; intros s Hs Hl.
  - exists s; cbn; repeat split; auto; congruence.
  - inversion Hl as [|? ? Hf Hl' E]; subst. cbn [fold_left fst snd] in *.
    destruct (rotate_unit_result s f dt Hs Hf) as (s1 & E1 & U1).
    rewrite E1.
    destruct (IH s1 (unit3_nonzero _ U1) Hl') as (s2 & E2 & U2 & N2).
    exists s2; split; [exact E2|]; split; [|exact N2].
    intros _. destruct l; [|apply U2; discriminate].
    cbn in E2. apply fin3_inj in E2. subst. exact U1.
Qed.

(** ** Uniqueness of the precession equation *)
Lemma has_velocity_dot_const (D : R -> vec) (W : vec) :
  (forall x, has_velocity D x (cross (D x) W)) -> forall x, dot (D x) (D x) = dot (D 0) (D 0).
Proof.
  intros H x.
  assert (Hd : forall y, derivable_pt_lim (fun r => dot (D r) (D r)) y 0).
  { intro y. destruct (H y) as (Hx & Hy & Hz).
    pose proof (derivable_pt_lim_plus _ _ _ _ _
      (derivable_pt_lim_plus _ _ _ _ _ (derivable_pt_lim_mult _ _ _ _ _ Hx Hx) (derivable_pt_lim_mult _ _ _ _ _ Hy Hy))
      (derivable_pt_lim_mult _ _ _ _ _ Hz Hz)) as P.
    cbv beta in P.
    match type of P with derivable_pt_lim _ _ ?l =>
      assert (E : l = 0) by (unfold cross; cbn; ring); rewrite E in P end. exact P. }
  pose (pr := fun y => exist (derivable_pt_lim (fun r => dot (D r) (D r)) y) 0 (Hd y) : derivable_pt _ y).
  assert (C : constant (fun r => dot (D r) (D r))).
  { apply (null_derivative_1 _ pr). intro y. unfold derive_pt, pr; reflexivity. }
  apply C.
Qed.

Lemma has_velocity_minus C1 C2 x v1 v2 :
  has_velocity C1 x v1 -> has_velocity C2 x v2 ->
  has_velocity (fun r => vsub (C1 r) (C2 r)) x (vsub v1 v2).
Proof.
  intros (A1 & B1 & D1) (A2 & B2 & D2).
  repeat split; cbn.
  - exact (derivable_pt_lim_minus _ _ _ _ _ A1 A2).
  - exact (derivable_pt_lim_minus _ _ _ _ _ B1 B2).
  - exact (derivable_pt_lim_minus _ _ _ _ _ D1 D2).
Qed.

Lemma precession_unique (S1 S2 : R -> vec) (W : vec) :
  S1 0 = S2 0 ->
  (forall x, has_velocity S1 x (cross (S1 x) W)) ->
  (forall x, has_velocity S2 x (cross (S2 x) W)) ->
  forall x, S1 x = S2 x.
Proof.
  intros H0 H1 H2 x.
  assert (HD : forall y, has_velocity (fun r => vsub (S1 r) (S2 r)) y (cross (vsub (S1 y) (S2 y)) W)).
  { intro y. replace (cross (vsub (S1 y) (S2 y)) W) with (vsub (cross (S1 y) W) (cross (S2 y) W)).
    - apply has_velocity_minus; auto.
    - apply v3_ext; cbn; ring. }
  pose proof (has_velocity_dot_const _ W HD x) as E. cbn beta in E.
  assert (Z : vsub (S1 x) (S2 x) = vzero).
  { apply dot_zero. rewrite E, H0. unfold dot; cbn; ring. }
  injection Z; intros. apply v3_ext; lra.
Qed.

Lemma rotate_precession s W :
  unit3 s -> W <> vzero ->
  exists C : R -> vec,
    (forall dt, rotate ERNum (fin3 s) (fin3 W) (Some dt) = fin3 (C dt)) /\
    C 0 = s /\ (forall x, has_velocity C x (cross (C x) W)).
Proof.
  intros Hs HW. exists (fun x => rodr s (nrm W) (norm W * x)). repeat split.
  - intro dt. apply rotate_ER_unit; assumption.
  - rewrite Rmult_0_r. apply rodr_0.
  - pose proof (rodr_velocity s (nrm W) (norm W) x (nrm_unit W HW)) as H. rewrite nrm_back in H. apply H.
  - pose proof (rodr_velocity s (nrm W) (norm W) x (nrm_unit W HW)) as H. rewrite nrm_back in H. apply H.
  - pose proof (rodr_velocity s (nrm W) (norm W) x (nrm_unit W HW)) as H. rewrite nrm_back in H. apply H.
Qed.

(** ** Rigid motion *)
Lemma dot_nrm s f : dot s (nrm f) = dot s f / norm f.
Proof. unfold dot, nrm; cbn; unfold Rdiv; ring. Qed.

Lemma rodr_axis_f s f phi : f <> vzero -> dot (rodr s (nrm f) phi) f = dot s f.
Proof.
  intro Hf. pose proof (norm_pos f Hf). pose proof (rodr_axis s (nrm f) phi (nrm_unit f Hf)) as E.
  rewrite !dot_nrm in E. unfold Rdiv in E. apply Rmult_eq_reg_r in E; [exact E|].
  apply Rinv_neq_0_compat; lra.
Qed.

(** ** Gram-Schmidt *)
Lemma cross_zero_iff a b : cross a b = vzero <-> dot a a * dot b b - dot a b * dot a b = 0.
Proof.
  assert (L : dot (cross a b) (cross a b) = dot a a * dot b b - dot a b * dot a b)
    by (unfold dot, cross; cbn; ring).
  split; intro H.
  - rewrite <- L, H. unfold dot; cbn; ring.
  - apply dot_zero. rewrite L. exact H.
Qed.

Definition gs_sub (old perp : vec) : vec := vsub perp (vscale (dot perp old / dot old old) old).

Lemma gs_ER old perp :
  old <> vzero -> cross old perp <> vzero ->
  gs ERNum (fin3 old) (fin3 perp) = fin3 (nrm (gs_sub old perp)).
Proof.
  intros Ho Hc. pose proof (dot_pos old Ho) as Hp.
  unfold gs; cbv zeta.
  change (sum_sq ERNum (arr ERNum (fin3 old))) with
    (Some (0 + vx old * vx old + vy old * vy old + vz old * vz old)).
  replace (0 + vx old * vx old + vy old * vy old + vz old * vz old) with (dot old old) by (unfold dot; ring).
  cbn [ndiv ERNum fin3 v3map vx vy vz nadd nsub nmul er2].
  rewrite !er_div_ok by lra. cbn [er2].
  match goal with |- mk3 (er_div ?a (nsqrt _ (sum_sq _ (arr _ ?b)))) _ _ = _ =>
    assert (E : b = fin3 (gs_sub old perp)) end.
  { unfold gs_sub; apply v3_ext; cbn; f_equal; unfold dot; cbn; unfold dot in Hp; field; lra. }
  rewrite E, norm_ER.
  injection E; intros E3 E2 E1. rewrite E1, E2, E3.
  assert (Hn : gs_sub old perp <> vzero).
  { intro Z. apply Hc. apply cross_zero_iff.
    assert (D : dot (gs_sub old perp) (gs_sub old perp) = 0) by (rewrite Z; unfold dot; cbn; ring).
    assert (D' : dot old old * dot (gs_sub old perp) (gs_sub old perp) =
                 dot old old * dot perp perp - dot old perp * dot old perp).
    { unfold gs_sub, dot in *; cbn in *. field. lra. }
    rewrite <- D', D. ring. }
  pose proof (norm_pos _ Hn). rewrite !er_div_ok by lra. reflexivity.
Qed.

Lemma gs_sub_nonzero old perp : old <> vzero -> cross old perp <> vzero -> gs_sub old perp <> vzero.
Proof.
  intros Ho Hc Z. pose proof (dot_pos old Ho) as Hp. apply Hc. apply cross_zero_iff.
  assert (D : dot (gs_sub old perp) (gs_sub old perp) = 0) by (rewrite Z; unfold dot; cbn; ring).
  assert (D' : dot old old * dot (gs_sub old perp) (gs_sub old perp) =
               dot old old * dot perp perp - dot old perp * dot old perp).
  { unfold gs_sub, dot in *; cbn in *. field. lra. }
  rewrite <- D', D. ring.
Qed.

Lemma gs_sub_orth old perp : old <> vzero -> dot (gs_sub old perp) old = 0.
Proof.
  intro Ho. pose proof (dot_pos old Ho) as Hp. unfold gs_sub, dot in *; cbn in *. field. lra.
Qed.

Lemma gs_spec old perp :
  old <> vzero -> cross old perp <> vzero ->
  exists u, gs ERNum (fin3 old) (fin3 perp) = fin3 u /\ unit3 u /\ dot u old = 0 /\
            0 < dot u perp /\ exists a b, u = vadd (vscale a old) (vscale b perp).
Proof.
  intros Ho Hc. exists (nrm (gs_sub old perp)).
  pose proof (gs_sub_nonzero old perp Ho Hc) as Hn. pose proof (norm_pos _ Hn) as Hp.
  pose proof (gs_sub_orth old perp Ho) as Horth.
  split; [apply gs_ER; assumption|]. split; [apply nrm_unit; assumption|].
  assert (L : forall w, dot (nrm (gs_sub old perp)) w = dot (gs_sub old perp) w / norm (gs_sub old perp)).
  { intro w. rewrite dot_comm, dot_nrm, dot_comm. reflexivity. }
  split; [rewrite L, Horth; unfold Rdiv; ring|].
  split.
  - rewrite L. apply Rdiv_lt_0_compat; [|assumption].
    assert (E : dot (gs_sub old perp) perp = dot (gs_sub old perp) (gs_sub old perp)).
    { unfold gs_sub at 3. 
      replace (dot (gs_sub old perp) (vsub perp (vscale (dot perp old / dot old old) old)))
        with (dot (gs_sub old perp) perp - (dot perp old / dot old old) * dot (gs_sub old perp) old)
        by (unfold dot; cbn; ring).
      rewrite Horth. ring. }
    rewrite E. apply dot_pos; assumption.
  - exists (- (dot perp old / dot old old) / norm (gs_sub old perp)), (/ norm (gs_sub old perp)).
    apply v3_ext; unfold nrm; cbn; field; lra || (split; [lra| unfold not; intros; pose proof (dot_pos old Ho); lra]).
Qed.

Lemma gs_nan old perp :
  old = vzero \/ cross old perp = vzero -> gs ERNum (fin3 old) (fin3 perp) = nan3.
Proof.
  intro H.
  destruct (Req_dec (dot old old) 0) as [E|E].
  - apply dot_zero in E; subst old.
    unfold gs; cbv zeta.
    change (sum_sq ERNum (arr ERNum (fin3 vzero))) with (Some (0 + 0 * 0 + 0 * 0 + 0 * 0)).
    replace (0 + 0 * 0 + 0 * 0 + 0 * 0) with 0 by ring.
    cbn [ndiv ERNum fin3 v3map vx vy vz nadd nsub nmul er2].
    rewrite !er_div_zero. reflexivity.
  - assert (Ho : old <> vzero) by (intro; subst; apply E; unfold dot; cbn; ring).
    destruct H as [H|H]; [contradiction|].
    pose proof (dot_pos old Ho) as Hp.
    apply cross_zero_iff in H.
    assert (Z : gs_sub old perp = vzero).
    { apply dot_zero.
      assert (D' : dot old old * dot (gs_sub old perp) (gs_sub old perp) =
                 dot old old * dot perp perp - dot old perp * dot old perp).
      { unfold gs_sub, dot in *; cbn in *. field. lra. }
      rewrite H in D'. nra. }
    unfold gs; cbv zeta.
    change (sum_sq ERNum (arr ERNum (fin3 old))) with
      (Some (0 + vx old * vx old + vy old * vy old + vz old * vz old)).
    replace (0 + vx old * vx old + vy old * vy old + vz old * vz old) with (dot old old) by (unfold dot; ring).
    cbn [ndiv ERNum fin3 v3map vx vy vz nadd nsub nmul er2].
    rewrite !er_div_ok by lra. cbn [er2].
    match goal with |- mk3 (er_div ?a (nsqrt _ (sum_sq _ (arr _ ?b)))) _ _ = _ =>
      assert (E' : b = fin3 vzero) end.
    { rewrite <- Z. unfold gs_sub; apply v3_ext; cbn; f_equal; unfold dot; cbn; unfold dot in Hp; field; lra. }
    rewrite E', norm_ER, norm_vzero.
    rewrite !er_div_zero. reflexivity.
Qed.

(** ** Angles *)

Lemma dirn_unit th ph : unit3 (dirn th ph).
Proof.
  unfold unit3, dirn, dot; cbn.
  replace (cos th * sin ph * (cos th * sin ph) + sin th * sin ph * (sin th * sin ph) + cos ph * cos ph)
    with ((sin th * sin th + cos th * cos th) * (sin ph * sin ph) + cos ph * cos ph) by ring.
  rewrite (cs1 th), (cs1 ph). ring.
Qed.

Lemma theta_phi_roundtrip s :
  unit3 s -> vx s <> 0 ->
  exists th ph, theta ERNum (fin3 s) = Some th /\ phi ERNum (fin3 s) = Some ph /\ dirn th ph = s.
Proof.
  destruct s as [x y z]. unfold unit3, dot; cbn [vx vy vz]. intros Hu Hx.
  exists (atan (y / x) + (if Rlt_dec 0 x then 0 else PI)), (acos z).
  assert (Hz : -1 <= z <= 1) by nra.
  split; [|split].
  - unfold theta. cbn [fin3 v3map vx vy vz ndiv ERNum natan nltb nofZ npi nadd].
    rewrite er_div_ok by assumption. cbn. unfold Rltb. destruct (Rlt_dec 0 x); reflexivity.
  - unfold phi. cbn [fin3 v3map vz nacos ERNum]. apply er_acos_ok; assumption.
  - assert (Hq : sqrt (1 + (y / x)²) = sqrt (x * x + y * y) / Rabs x).
    { replace (1 + (y / x)²) with ((x * x + y * y) / (x * x)) by (unfold Rsqr; field; assumption).
      rewrite sqrt_div_alt by nra. f_equal. apply sqrt_Rsqr_abs. }
    assert (Hs : sin (acos z) = sqrt (x * x + y * y)).
    { rewrite sin_acos by assumption. f_equal. unfold Rsqr; lra. }
    assert (Hpos : 0 < sqrt (x * x + y * y)) by (apply sqrt_lt_R0; nra).
    unfold dirn. rewrite Hs, cos_acos by assumption.
    assert (Hca : cos (atan (y / x)) = Rabs x / sqrt (x * x + y * y)).
    { rewrite cos_atan, Hq. field. split; [lra|]. apply Rabs_no_R0; assumption. }
    assert (Hsa : sin (atan (y / x)) = (y / x) * Rabs x / sqrt (x * x + y * y)).
    { rewrite sin_atan, Hq. field. repeat split; [assumption|lra|]. apply Rabs_no_R0; assumption. }
    destruct (Rlt_dec 0 x) as [P|P].
    + rewrite Rplus_0_r, Hca, Hsa. rewrite Rabs_right by lra.
      apply v3_ext; cbn; field; lra.
    + rewrite neg_cos, neg_sin, Hca, Hsa. rewrite Rabs_left by lra.
      apply v3_ext; cbn; field; lra.
Qed.

Lemma theta_phi_none_or s th ph :
  unit3 s -> theta ERNum (fin3 s) = Some th -> phi ERNum (fin3 s) = Some ph -> dirn th ph = s.
Proof.
  intros Hu Ht Hp.
  assert (Hx : vx s <> 0).
  { intro E. unfold theta in Ht. cbn [fin3 v3map vx vy vz ndiv ERNum natan] in Ht.
    rewrite E, er_div_zero in Ht. cbn in Ht. discriminate. }
  destruct (theta_phi_roundtrip s Hu Hx) as (th' & ph' & A & B & C). congruence.
Qed.

Lemma rotate_perp_dot s p a : unit3 s -> unit3 p -> dot p s = 0 ->
  dot (rodr s p a) s = cos a.
Proof.
  unfold unit3; destruct s as [x y z], p as [q r w]. unfold rodr, dot, cross; cbn. intros Hs Hp Ho.
  replace (x * q + y * r + z * w) with 0 by lra.
  match goal with |- ?L = _ => assert (E : L = cos a * (x*x+y*y+z*z)) by ring end.
  rewrite E, Hs; ring.
Qed.

Lemma nrm_unit_id u : unit3 u -> nrm u = u.
Proof. apply nrm_id. Qed.

Lemma rot_perp_spec th ph r a :
  cross (dirn th ph) r <> vzero ->
  exists d, unit3 d /\ dot d (dirn th ph) = cos a /\
    rot_perp ERNum (Some th, Some ph) (fin3 r) (Some a) = (theta ERNum (fin3 d), phi ERNum (fin3 d)).
Proof.
  intro Hc.
  pose proof (dirn_unit th ph) as Hu.
  destruct (gs_spec (dirn th ph) r (unit3_nonzero _ Hu) Hc) as (p & Ep & Up & Op & _).
  exists (rodr (dirn th ph) p (- a)). repeat split.
  - apply rodr_unit; assumption.
  - rewrite rotate_perp_dot by assumption. apply cos_neg.
  - unfold rot_perp. cbn [fst snd].
    change (new_from_angles ERNum (Some th) (Some ph)) with (fin3 (dirn th ph)).
    rewrite Ep. change (nopp ERNum (Some a)) with (Some (- a)).
    rewrite rotate_ER_unit by (auto using unit3_nonzero).
    rewrite nrm_id, unit3_norm, Rmult_1_l by assumption. reflexivity.
Qed.

(** ** Construction from components *)

Lemma sumsq_nonneg l : 0 <= sumsq l.
Proof. induction l; cbn; nra. Qed.
Lemma sumsq_zero l : sumsq l = 0 -> Forall (fun x => x = 0) l.
Proof.
  induction l; cbn; intro H; constructor; pose proof (sumsq_nonneg l).
  - nra.
  - apply IHl; nra.
Qed.

Lemma sum_sq_ER l : sum_sq ERNum (map Some l) = Some (sumsq l).
Proof.
  unfold sum_sq.
  assert (H : forall l a, fold_left (fun a x : ER => nadd ERNum a (nmul ERNum x x)) (map Some l) (Some a)
                          = Some (a + sumsq l)).
  { clear. induction l as [|x l IH]; intro a; cbn [map fold_left sumsq].
    - f_equal; ring.
    - change (nadd ERNum (Some a) (nmul ERNum (Some x) (Some x))) with (Some (a + x * x)).
      rewrite IH. f_equal; ring. }
  change (nofZ ERNum 0) with (Some 0). etransitivity; [apply H|]. f_equal; ring.
Qed.

Lemma new_xyz_ER x y z rest :
  0 < sumsq (x :: y :: z :: rest) ->
  new_xyz ERNum (map Some (x :: y :: z :: rest)) =
  Ok (fin3 (vscale (/ sqrt (sumsq (x :: y :: z :: rest))) (mk3 x y z))).
Proof.
  intro H. unfold new_xyz; cbv zeta. rewrite sum_sq_ER.
  set (n := sumsq (x :: y :: z :: rest)) in *.
  cbn [nsqrt ERNum]. rewrite er_sqrt_ok by lra.
  cbn [map idx nth_error bind ndiv ERNum].
  pose proof (sqrt_lt_R0 n H).
  rewrite !er_div_ok by lra. unfold fin3, v3map; cbn. unfold Rdiv.
  rewrite !(Rmult_comm (/ sqrt n)). reflexivity.
Qed.

Lemma new_xyz_ER_zero x y z rest :
  sumsq (x :: y :: z :: rest) = 0 ->
  new_xyz ERNum (map Some (x :: y :: z :: rest)) = Ok nan3.
Proof.
  intro H. unfold new_xyz; cbv zeta. rewrite sum_sq_ER, H.
  cbn [nsqrt ERNum]. rewrite er_sqrt_ok by lra. rewrite sqrt_0.
  cbn [map idx nth_error bind ndiv ERNum]. rewrite !er_div_zero. reflexivity.
Qed.

Lemma new_xyz_short (N : NumOps) (l : list (num N)) :
  (length l < 3)%nat -> new_xyz N l = Panic IndexOOB.
Proof.
  intro H. destruct l as [|a [|b [|c l]]]; cbn in *; try lia; reflexivity.
Qed.

Lemma new_xyz_norm x y z rest v :
  0 < sumsq (x :: y :: z :: rest) ->
  new_xyz ERNum (map Some (x :: y :: z :: rest)) = Ok (fin3 v) ->
  dot v v = (x * x + y * y + z * z) / (x * x + y * y + z * z + sumsq rest).
Proof.
  intros H E. rewrite new_xyz_ER in E by assumption. injection E as E1.
  assert (E2 : v = vscale (/ sqrt (sumsq (x :: y :: z :: rest))) (mk3 x y z)).
  { destruct v; unfold vscale; cbn in *; congruence. }
  subst v. cbn [sumsq] in *.
  set (n := x * x + (y * y + (z * z + sumsq rest))) in *.
  pose proof (sqrt_lt_R0 n H).
  unfold dot, vscale; cbn.
  replace (x * x + y * y + z * z + sumsq rest) with (sqrt n * sqrt n)
    by (rewrite sqrt_def by lra; unfold n; ring).
  field. lra.
Qed.

(** ** Equality *)
Lemma er_ltb_iff a b : er_ltb a b = true <-> exists x y, a = Some x /\ b = Some y /\ x < y.
Proof.
  destruct a, b; cbn; split; try discriminate; try (intros (?&?&?&?&?); discriminate).
  - unfold Rltb; destruct (Rlt_dec r r0); intro; [eauto|discriminate].
  - intros (x & y & A & B & C). injection A; injection B; intros; subst.
    unfold Rltb; destruct (Rlt_dec x y); [reflexivity|contradiction].
Qed.

Lemma spin_eqb_ER_fin a b :
  spin_eqb ERNum (fin3 a) (fin3 b) = true <->
  Rabs (vx a - vx b) < 1 / 1000 /\ Rabs (vy a - vy b) < 1 / 1000 /\ Rabs (vz a - vz b) < 1 / 1000.
Proof.
  unfold spin_eqb, Rltb. cbn.
  unfold Rltb.
  destruct (Rlt_dec (Rabs (vx a - vx b)) (1 / 1000)), (Rlt_dec (Rabs (vy a - vy b)) (1 / 1000)),
    (Rlt_dec (Rabs (vz a - vz b)) (1 / 1000)); cbn; intuition discriminate.
Qed.

Lemma spin_eqb_ER_true a b :
  spin_eqb ERNum a b = true -> exists a' b', a = fin3 a' /\ b = fin3 b'.
Proof.
  destruct a as [[a1|] [a2|] [a3|]], b as [[b1|] [b2|] [b3|]]; unfold spin_eqb; cbn;
    rewrite ?Bool.andb_false_r; cbn; try discriminate; intro.
  exists (mk3 a1 a2 a3), (mk3 b1 b2 b3). split; reflexivity.
Qed.

Lemma spin_eqb_ER_iff a b :
  spin_eqb ERNum a b = true <->
  exists a' b', a = fin3 a' /\ b = fin3 b' /\
    Rabs (vx a' - vx b') < 1 / 1000 /\ Rabs (vy a' - vy b') < 1 / 1000 /\ Rabs (vz a' - vz b') < 1 / 1000.
Proof.
  split.
  - intro H. destruct (spin_eqb_ER_true a b H) as (a' & b' & -> & ->).
    apply spin_eqb_ER_fin in H. exists a', b'; auto.
  - intros (a' & b' & -> & -> & H). apply spin_eqb_ER_fin; auto.
Qed.

Lemma spin_eqb_ER_sym a b : spin_eqb ERNum a b = spin_eqb ERNum b a.
Proof.
  assert (H : forall a b, spin_eqb ERNum a b = true -> spin_eqb ERNum b a = true).
  { intros x y H. apply spin_eqb_ER_iff in H. destruct H as (x' & y' & -> & -> & A & B & C).
    apply spin_eqb_ER_fin. rewrite (Rabs_minus_sym (vx y')), (Rabs_minus_sym (vy y')), (Rabs_minus_sym (vz y')).
    auto. }
  destruct (spin_eqb ERNum a b) eqn:E1; destruct (spin_eqb ERNum b a) eqn:E2; auto.
  - apply H in E1; congruence.
  - apply H in E2; congruence.
Qed.

Lemma spin_eqb_ER_refl a : spin_eqb ERNum a a = true <-> exists a', a = fin3 a'.
Proof.
  split.
  - intro H. apply spin_eqb_ER_iff in H. destruct H as (a' & _ & -> & _). eauto.
  - intros (a' & ->). apply spin_eqb_ER_fin. unfold Rminus. rewrite !Rplus_opp_r, Rabs_R0. lra.
Qed.

Lemma new_angles_unit th ph :
  new_from_angles ERNum (Some th) (Some ph) = fin3 (dirn th ph) /\
  (forall s, set_angles ERNum s (Some th) (Some ph) = fin3 (dirn th ph)) /\ unit3 (dirn th ph).
Proof. repeat split; try reflexivity. apply dirn_unit. Qed.

Lemma spin_new_unit : spin_new ERNum = fin3 (mk3 1 0 0) /\ unit3 (mk3 1 0 0).
Proof. split; [reflexivity|]. unfold unit3, dot; cbn; ring. Qed.

Lemma sumsq3_pos v : v <> vzero -> 0 < sumsq [vx v; vy v; vz v].
Proof. intro H. pose proof (dot_pos v H) as P. unfold dot in P. cbn. lra. Qed.

Lemma new_xyz_three v : v <> vzero ->
  exists u c, new_xyz ERNum [Some (vx v); Some (vy v); Some (vz v)] = Ok (fin3 u) /\ unit3 u /\
              0 < c /\ u = vscale c v.
Proof.
  intro H. pose proof (sumsq3_pos v H) as P.
  exists (vscale (/ norm v) v), (/ norm v). repeat split.
  - change ([Some (vx v); Some (vy v); Some (vz v)]) with (map Some [vx v; vy v; vz v]).
    rewrite new_xyz_ER by assumption. f_equal. f_equal. unfold norm.
    replace (sumsq [vx v; vy v; vz v]) with (dot v v) by (unfold dot; cbn; ring).
    destruct v; reflexivity.
  - apply unit3_normalise; assumption.
  - apply Rinv_0_lt_compat, norm_pos; assumption.
Qed.

Lemma new_xyz_rescale v c : 0 < c -> v <> vzero ->
  new_xyz ERNum [Some (c * vx v); Some (c * vy v); Some (c * vz v)] =
  new_xyz ERNum [Some (vx v); Some (vy v); Some (vz v)].
Proof.
  intros Hc H.
  assert (Hc' : vscale c v <> vzero).
  { intro E. apply H. apply dot_zero.
    assert (D : dot (vscale c v) (vscale c v) = 0) by (rewrite E; unfold dot; cbn; ring).
    replace (dot (vscale c v) (vscale c v)) with (c * c * dot v v) in D by (unfold dot; cbn; ring).
    apply Rmult_integral in D. destruct D as [D|D]; [nra|assumption]. }
  change [Some (c * vx v); Some (c * vy v); Some (c * vz v)] with
    (map Some [vx (vscale c v); vy (vscale c v); vz (vscale c v)]).
  change ([Some (vx v); Some (vy v); Some (vz v)]) with (map Some [vx v; vy v; vz v]).
  rewrite !new_xyz_ER by (apply sumsq3_pos; assumption). f_equal. f_equal.
  replace (sumsq [vx (vscale c v); vy (vscale c v); vz (vscale c v)])
    with (dot (vscale c v) (vscale c v)) by (unfold dot; cbn; ring).
  replace (sumsq [vx v; vy v; vz v]) with (dot v v) by (unfold dot; cbn; ring).
  change (sqrt (dot (vscale c v) (vscale c v))) with (norm (vscale c v)).
  change (sqrt (dot v v)) with (norm v).
  pose proof (norm_pos v H). rewrite norm_scale by lra.
  apply v3_ext; cbn; field; lra.
Qed.

Lemma new_xyz_long_unit x y z rest v :
  new_xyz ERNum (map Some (x :: y :: z :: rest)) = Ok (fin3 v) ->
  (unit3 v <-> Forall (fun r => r = 0) rest).
Proof.
  intro E. pose proof (sumsq_nonneg (x :: y :: z :: rest)) as P.
  destruct (Rle_lt_or_eq_dec _ _ P) as [Q|Q].
  2:{ rewrite new_xyz_ER_zero in E by (symmetry; assumption). discriminate. }
  pose proof (new_xyz_norm _ _ _ _ _ Q E) as D. unfold unit3. rewrite D. cbn in Q.
  set (q := x * x + y * y + z * z) in *. pose proof (sumsq_nonneg rest) as Pr.
  split; intro H.
  - apply sumsq_zero. apply (f_equal (fun r => r * (q + sumsq rest))) in H.
    unfold Rdiv in H. rewrite Rmult_assoc, Rinv_l in H by (unfold q; lra). lra.
  - assert (Z : sumsq rest = 0) by (clear - H; induction H as [|r l H0 _ IH]; cbn; [|rewrite H0, IH]; ring).
    rewrite Z in *. field. unfold q. lra.
Qed.

Lemma rotate_same_dot s1 s2 f dt : unit3 s1 -> unit3 s2 -> f <> vzero ->
  exists r1 r2, rotate ERNum (fin3 s1) (fin3 f) (Some dt) = fin3 r1 /\
                rotate ERNum (fin3 s2) (fin3 f) (Some dt) = fin3 r2 /\
                dot r1 r2 = dot s1 s2 /\ dot r1 f = dot s1 f.
Proof.
  intros H1 H2 Hf. exists (rodr s1 (nrm f) (norm f * dt)), (rodr s2 (nrm f) (norm f * dt)).
  repeat split; try (apply rotate_ER_unit; assumption).
  - apply rodr_dot, nrm_unit, Hf.
  - apply rodr_axis_f, Hf.
Qed.

Lemma rotate_group s f a b : unit3 s -> f <> vzero ->
  rotate ERNum (rotate ERNum (fin3 s) (fin3 f) (Some a)) (fin3 f) (Some b) =
  rotate ERNum (fin3 s) (fin3 f) (Some (a + b)).
Proof.
  intros Hs Hf. rewrite rotate_ER_unit by assumption.
  rewrite rotate_ER_unit; [|apply rodr_unit; [apply nrm_unit|]; assumption|assumption].
  rewrite rotate_ER_unit by assumption.
  rewrite rodr_add by (apply nrm_unit; assumption). rewrite Rmult_plus_distr_l. reflexivity.
Qed.

Lemma rotate_0 s f : unit3 s -> f <> vzero -> rotate ERNum (fin3 s) (fin3 f) (Some 0) = fin3 s.
Proof. intros. rewrite rotate_ER_unit by assumption. rewrite Rmult_0_r, rodr_0. reflexivity. Qed.

Lemma rotate_inverse s f a : unit3 s -> f <> vzero ->
  rotate ERNum (rotate ERNum (fin3 s) (fin3 f) (Some a)) (fin3 f) (Some (- a)) = fin3 s.
Proof. intros. rewrite rotate_group by assumption. rewrite Rplus_opp_r. apply rotate_0; assumption. Qed.

Lemma vscale_nonzero c f : c <> 0 -> f <> vzero -> vscale c f <> vzero.
Proof.
  intros Hc H E. apply H. injection E; intros.
  apply v3_ext; cbn; apply (Rmult_eq_reg_l c); lra.
Qed.

Lemma rotate_rescale s f c dt : unit3 s -> f <> vzero -> 0 < c ->
  rotate ERNum (fin3 s) (fin3 (vscale c f)) (Some dt) = rotate ERNum (fin3 s) (fin3 f) (Some (c * dt)).
Proof.
  intros Hs Hf Hc. rewrite !rotate_ER_unit; try assumption.
  - rewrite nrm_scale_pos, norm_scale by lra. f_equal. f_equal. ring.
  - apply vscale_nonzero; [lra|assumption].
Qed.

(** full turns *)
Lemma rotate_period s f dt (k : Z) : unit3 s -> f <> vzero ->
  rotate ERNum (fin3 s) (fin3 f) (Some (dt + IZR k * (2 * PI / norm f))) =
  rotate ERNum (fin3 s) (fin3 f) (Some dt).
Proof.
  intros Hs Hf. pose proof (norm_pos f Hf). rewrite !rotate_ER_unit by assumption. f_equal.
  replace (norm f * (dt + IZR k * (2 * PI / norm f))) with (norm f * dt + 2 * IZR k * PI) by (field; lra).
  unfold rodr.
  assert (C : cos (norm f * dt + 2 * IZR k * PI) = cos (norm f * dt)).
  { destruct (Z_le_gt_dec 0 k) as [P|P].
    - rewrite <- (Z2Nat.id k) by lia. rewrite <- INR_IZR_INZ. apply cos_period.
    - rewrite <- (cos_period _ (Z.to_nat (- k))). f_equal. rewrite INR_IZR_INZ, Z2Nat.id by lia.
      rewrite opp_IZR. ring. }
  assert (S : sin (norm f * dt + 2 * IZR k * PI) = sin (norm f * dt)).
  { destruct (Z_le_gt_dec 0 k) as [P|P].
    - rewrite <- (Z2Nat.id k) by lia. rewrite <- INR_IZR_INZ. apply sin_period.
    - rewrite <- (sin_period _ (Z.to_nat (- k))). f_equal. rewrite INR_IZR_INZ, Z2Nat.id by lia.
      rewrite opp_IZR. ring. }
  rewrite C, S. reflexivity.
Qed.

Lemma rotate_precession_unique s W (C : R -> vec) :
  unit3 s -> W <> vzero -> C 0 = s -> (forall x, has_velocity C x (cross (C x) W)) ->
  forall dt, rotate ERNum (fin3 s) (fin3 W) (Some dt) = fin3 (C dt).
Proof.
  intros Hs HW H0 HC dt.
  destruct (rotate_precession s W Hs HW) as (C' & E & E0 & V).
  rewrite E. f_equal. apply (precession_unique C' C W); auto. congruence.
Qed.

Lemma rot_perp_angle th ph r a th' ph' :
  rot_perp ERNum (Some th, Some ph) (fin3 r) (Some a) = (Some th', Some ph') ->
  dot (dirn th' ph') (dirn th ph) = cos a.
Proof.
  intro H.
  destruct (Req_dec (dot (cross (dirn th ph) r) (cross (dirn th ph) r)) 0) as [E|E].
  - apply dot_zero in E. exfalso.
    unfold rot_perp in H. cbn [fst snd] in H.
    change (new_from_angles ERNum (Some th) (Some ph)) with (fin3 (dirn th ph)) in H.
    rewrite gs_nan in H by (right; assumption).
    unfold rotate in H. cbn in H. discriminate.
  - destruct (rot_perp_spec th ph r a) as (d & U & D & R).
    { intro Z. apply E. rewrite Z. unfold dot; cbn; ring. }
    rewrite R in H. injection H; intros H2 H1.
    rewrite (theta_phi_none_or d th' ph' U H1 H2). exact D.
Qed.

Lemma rot_perp_defined th ph r a :
  cross (dirn th ph) r <> vzero ->
  exists d, unit3 d /\ dot d (dirn th ph) = cos a /\
    (vx d <> 0 -> exists th' ph',
      rot_perp ERNum (Some th, Some ph) (fin3 r) (Some a) = (Some th', Some ph') /\ dirn th' ph' = d) /\
    (vx d = 0 -> exists q, rot_perp ERNum (Some th, Some ph) (fin3 r) (Some a) = (None, q)).
Proof.
  intro Hc. destruct (rot_perp_spec th ph r a Hc) as (d & U & D & R).
  exists d. repeat split; auto.
  - intro Hx. destruct (theta_phi_roundtrip d U Hx) as (th' & ph' & A & B & C).
    exists th', ph'. rewrite R, A, B. auto.
  - intro Hx. rewrite R. eexists. f_equal. unfold theta.
    cbn [fin3 v3map vx vy vz ndiv ERNum natan]. rewrite Hx, er_div_zero. reflexivity.
Qed.

Lemma spin_eqb_not_transitive :
  exists a b c, spin_eqb ERNum (fin3 a) (fin3 b) = true /\ spin_eqb ERNum (fin3 b) (fin3 c) = true /\
                spin_eqb ERNum (fin3 a) (fin3 c) = false.
Proof.
  exists (mk3 0 0 0), (mk3 (9/10000) 0 0), (mk3 (18/10000) 0 0).
  split; [|split].
  - apply spin_eqb_ER_fin; cbn. rewrite Rabs_left, !Rabs_right by lra. lra.
  - apply spin_eqb_ER_fin; cbn. rewrite Rabs_left, !Rabs_right by lra. lra.
  - destruct (spin_eqb ERNum _ _) eqn:E; [|reflexivity].
    apply spin_eqb_ER_fin in E; cbn in E. rewrite Rabs_left in E by lra. lra.
Qed.
