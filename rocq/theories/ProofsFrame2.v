(** Energy along the exact motion and the rotating frame. *)
From Coq Require Import Reals Lra Lia List ZArith Arith.
From Verif Require Import Num Monad NumR Spin Config Chain SpecVec SpecChain SpecOrder SpecFrame ProofsSpin ProofsEnergy ProofsDrive ProofsJet ProofsOrder
  ProofsMCR ProofsDyn ProofsDynR ProofsDyn2 ProofsDyn3 ProofsOrder2 ProofsOrder3 ProofsMCR3 ProofsFirst ProofsBath ProofsExist ProofsExist2.
Local Open Scope R_scope.

(** ** Derivative of the energy *)
Lemma Rsum_deriv n (f : nat -> R -> R) (g : nat -> R) x : (forall i, (i < n)%nat -> derivable_pt_lim (f i) x (g i)) ->
  derivable_pt_lim (fun r => Rsum n (fun i => f i r)) x (Rsum n g).
Proof.
  induction n as [|n IH]; intro H; cbn [Rsum]; [apply derivable_pt_lim_const|].
  apply (derivable_pt_lim_plus (fun r => Rsum n (fun i => f i r)) (f n)); [apply IH; intros; apply H; lia|apply H; lia].
Qed.
Lemma dot_deriv (a b : R -> vec) x u v : has_velocity a x u -> has_velocity b x v ->
  derivable_pt_lim (fun r => dot (a r) (b r)) x (dot u (b x) + dot (a x) v).
Proof.
  intros (A1 & A2 & A3) (B1 & B2 & B3). unfold dot.
  replace (vx u * vx (b x) + vy u * vy (b x) + vz u * vz (b x) + (vx (a x) * vx v + vy (a x) * vy v + vz (a x) * vz v)) with
    ((vx u * vx (b x) + vx (a x) * vx v) + (vy u * vy (b x) + vy (a x) * vy v) + (vz u * vz (b x) + vz (a x) * vz v)) by ring.
  apply derivable_pt_lim_plus; [apply derivable_pt_lim_plus|].
  - apply (derivable_pt_lim_mult (fun r => vx (a r)) (fun r => vx (b r))); assumption.
  - apply (derivable_pt_lim_mult (fun r => vy (a r)) (fun r => vy (b r))); assumption.
  - apply (derivable_pt_lim_mult (fun r => vz (a r)) (fun r => vz (b r))); assumption.
Qed.
Lemma had_vel k (a : R -> vec) x u : has_velocity a x u -> has_velocity (fun r => vhad k (a r)) x (vhad k u).
Proof.
  intros (A & B & C). split; [|split]; cbn.
  - apply (derivable_pt_lim_scal (fun r => vx (a r))). exact A.
  - apply (derivable_pt_lim_scal (fun r => vy (a r))). exact B.
  - apply (derivable_pt_lim_scal (fun r => vz (a r))). exact C.
Qed.
Lemma deriv_to f x a b : a = b -> derivable_pt_lim f x a -> derivable_pt_lim f x b.
Proof. intros ->. trivial. Qed.
Lemma deriv_fun f g x a : (forall r, f r = g r) -> derivable_pt_lim f x a -> derivable_pt_lim g x a.
Proof. intros E H eps He. destruct (H eps He) as (d & Hd). exists d. intros h H0 H1. rewrite <- !E. apply Hd; assumption. Qed.

Lemma energy_deriv n J (Bv X : R -> nat -> vec) (V Bp : nat -> vec) x : (1 <= n)%nat ->
  (forall i, (i < n)%nat -> has_velocity (fun r => X r i) x (V i)) -> (forall i, (i < n)%nat -> has_velocity (fun r => Bv r i) x (Bp i)) ->
  derivable_pt_lim (fun r => ring_energy n (X r) J (Bv r)) x
    (Rsum n (fun i => - dot (V i) (om n (X x) J (Bv x) i)) + Rsum n (fun i => dot (Bp i) (X x i))).
Proof.
  intros Hn HX HB. unfold ring_energy.
  eapply deriv_to; [|apply (Rsum_deriv n (fun i r => bond (X r) J i ((i + 1) mod n) + dot (Bv r i) (X r i))
    (fun i => (- (dot (V i) (vhad (J i) (X x (rgt n i)))) - dot (X x i) (vhad (J i) (V (rgt n i)))) + (dot (Bp i) (X x i) + dot (Bv x i) (V i))))].
  - rewrite !Rsum_plus, Rsum_minus, Rsum_opp.
    set (F := fun i => dot (V i) (vhad (J (lft n i)) (X x (lft n i)))).
    rewrite (Rsum_ext n (fun i => dot (X x i) (vhad (J i) (V (rgt n i)))) (fun i => F (rgt n i))).
    2:{ intros i Hi. unfold F. rewrite lft_rgt by assumption. generalize (X x i), (J i), (V (rgt n i)). intros a b c. unfold dot; cbn. ring. }
    rewrite Rsum_rgt by exact Hn. unfold F.
    rewrite (Rsum_ext n (fun i => - dot (V i) (om n (X x) J (Bv x) i))
      (fun i => (- dot (V i) (vhad (J i) (X x (rgt n i))) - dot (V i) (vhad (J (lft n i)) (X x (lft n i)))) + dot (Bv x i) (V i))).
    2:{ intros i Hi. unfold om. generalize (V i) (vhad (J (lft n i)) (X x (lft n i))) (vhad (J i) (X x (rgt n i))) (Bv x i). intros. unfold dot; cbn. ring. }
    rewrite Rsum_plus, Rsum_minus, Rsum_opp. ring.
  - intros i Hi. apply (derivable_pt_lim_plus (fun r => bond (X r) J i ((i + 1) mod n)) (fun r => dot (Bv r i) (X r i))).
    + unfold bond. rewrite <- rgt_mod by exact Hi.
      replace (- dot (V i) (vhad (J i) (X x (rgt n i))) - dot (X x i) (vhad (J i) (V (rgt n i)))) with
        (- (dot (V i) (vhad (J i) (X x (rgt n i))) + dot (X x i) (vhad (J i) (V (rgt n i))))) by ring.
      apply (derivable_pt_lim_opp (fun r => dot (X r i) (vhad (J i) (X r (rgt n i))))).
      apply (dot_deriv (fun r => X r i) (fun r => vhad (J i) (X r (rgt n i)))); [apply HX, Hi|].
      apply (had_vel (J i) (fun r => X r (rgt n i))), HX, rgt_lt, Hi.
    + apply (dot_deriv (fun r => Bv r i) (fun r => X r i)); [apply HB, Hi|apply HX, Hi].
Qed.
Lemma dot_cross0 a b : dot (cross a b) b = 0.
Proof. unfold dot, cross; cbn. ring. Qed.

(** Slopes zero: constant *)
Lemma deriv0_const f a b : (forall x, a <= x <= b -> derivable_pt_lim f x 0) -> forall x, a <= x <= b -> f x = f a.
Proof.
  intros H x Hx. destruct (Req_dec x a) as [->|N]; [reflexivity|].
  assert (pr : forall y, a < y < x -> derivable_pt f y) by (intros y Hy; exists 0; apply H; lra).
  destruct (MVT_cor2 f (fun _ => 0) a x ltac:(lra)) as (c & E & _).
  - intros c Hc. apply H. lra.
  - rewrite Rmult_0_l in E. lra.
Qed.

Section Power.
Context (n s : nat) (sc : chain R) (Ww : wf n s sc).
Notation w := (drive_w sc).

Lemma B_drive_vel x i : has_velocity (fun r => B_ sc s r i) x (if (i <? s)%nat then vscale w (drive_fieldp (vars sc) x) else vzero).
Proof.
  pose proof (drive_velocity (vars sc) x) as (A & B & C). unfold B_.
  destruct (i <? s)%nat.
  - split; [|split]; cbn.
    + eapply deriv_to; [|apply (derivable_pt_lim_plus (fun _ => vx (h_ sc i)) (fun r => vx (drive_field (vars sc) r))); [apply derivable_pt_lim_const|exact A]]. cbn. unfold drive_w. ring.
    + eapply deriv_to; [|apply (derivable_pt_lim_plus (fun _ => vy (h_ sc i)) (fun r => vy (drive_field (vars sc) r))); [apply derivable_pt_lim_const|exact B]]. cbn. unfold drive_w. ring.
    + eapply deriv_to; [|apply (derivable_pt_lim_plus (fun _ => vz (h_ sc i)) (fun r => vz (drive_field (vars sc) r))); [apply derivable_pt_lim_const|exact C]]. cbn. unfold drive_w. ring.
  - split; [|split]; cbn; apply derivable_pt_lim_const.
Qed.

Lemma wf_sn : (s <= n)%nat.
Proof. destruct Ww; assumption. Qed.

Lemma power_law T X : solves n s sc T X -> forall x, t sc <= x <= t sc + T ->
  derivable_pt_lim (fun r => ring_energy n (X r) (J_ sc) (B_ sc s r)) x (w * Rsum s (fun i => dot (drive_fieldp (vars sc) x) (X x i))).
Proof.
  intros HX x Hx. destruct (Nat.eq_dec n 0) as [E|E].
  { pose proof wf_sn. assert (Es : (s = 0)%nat) by lia. replace (Rsum s (fun i => dot (drive_fieldp (vars sc) x) (X x i))) with 0 by (rewrite Es; reflexivity). unfold ring_energy. rewrite E. cbn [Rsum]. rewrite Rmult_0_r. apply derivable_pt_lim_const. }
  eapply deriv_to; [|apply (energy_deriv n (J_ sc) (B_ sc s) X (fun i => cross (X x i) (Rf n s sc x (X x) i)) (fun i => if (i <? s)%nat then vscale w (drive_fieldp (vars sc) x) else vzero) x); [lia| |]].
  - rewrite (Rsum_ext n (fun i => - dot (cross (X x i) (Rf n s sc x (X x) i)) (om n (X x) (J_ sc) (B_ sc s x) i)) (fun _ => 0)).
    2:{ intros i Hi. unfold Rf. rewrite dot_cross0. ring. }
    rewrite Rsum_0, Rplus_0_l, <- Rsum_scal.
    rewrite (Rsum_ext n _ (fun i => if (i <? s)%nat then w * dot (drive_fieldp (vars sc) x) (X x i) else 0)).
    2:{ intros i Hi. destruct (i <? s)%nat; unfold dot; cbn [vx vy vz vscale vzero]; unfold dot; cbn; ring. }
    apply Rsum_if. apply wf_sn.
  - intros i Hi. apply (ring_motion n s sc T X HX); assumption.
  - intros i Hi. apply B_drive_vel.
Qed.
End Power.

(** ** The rotating frame *)
Lemma seen_vel v0 (f : R -> vec) x v : has_velocity f x v ->
  has_velocity (fun r => seen v0 r (f r)) x (vadd (seen v0 x v) (vscale v0 (cross (seen v0 x (f x)) (mk3 0 0 1)))).
Proof.
  intros (A & B & C). pose proof (dl_cos v0 x) as Dc. pose proof (dl_sin v0 x) as Ds. split; [|split]; cbn.
  - eapply deriv_to; [|apply (derivable_pt_lim_plus (fun r => cos (v0 * r) * vx (f r)) (fun r => sin (v0 * r) * vy (f r)));
      [apply (derivable_pt_lim_mult (fun r => cos (v0 * r)) (fun r => vx (f r))); [exact Dc|exact A]
      |apply (derivable_pt_lim_mult (fun r => sin (v0 * r)) (fun r => vy (f r))); [exact Ds|exact B]]]. ring.
  - eapply deriv_to; [|apply (derivable_pt_lim_minus (fun r => cos (v0 * r) * vy (f r)) (fun r => sin (v0 * r) * vx (f r)));
      [apply (derivable_pt_lim_mult (fun r => cos (v0 * r)) (fun r => vy (f r))); [exact Dc|exact B]
      |apply (derivable_pt_lim_mult (fun r => sin (v0 * r)) (fun r => vx (f r))); [exact Ds|exact A]]]. ring.
  - eapply deriv_to; [|exact C]. ring.
Qed.
Lemma cs2 a : sin a * sin a = 1 - cos a * cos a.
Proof. pose proof (sin2_cos2 a) as H. unfold Rsqr in H. lra. Qed.
Lemma seen_cross v0 x a b : seen v0 x (cross a b) = cross (seen v0 x a) (seen v0 x b).
Proof. pose proof (cs2 (v0 * x)) as H. apply v3_ext; cbn; [ring|ring|]. ring_simplify. replace (sin (v0 * x) ^ 2) with (1 - cos (v0 * x) * cos (v0 * x)) by (rewrite <- H; ring). ring. Qed.
Lemma seen_back v0 x a : seen (- v0) x (seen v0 x a) = a.
Proof.
  pose proof (cs2 (v0 * x)) as H. unfold seen. replace (- v0 * x) with (- (v0 * x)) by ring. rewrite cos_neg, sin_neg. apply v3_ext; cbn; [| |reflexivity];
  ring_simplify; replace (sin (v0 * x) ^ 2) with (1 - cos (v0 * x) * cos (v0 * x)) by (rewrite <- H; ring); ring.
Qed.
Lemma seen_dot v0 x a b : dot (seen v0 x a) (seen v0 x b) = dot a b.
Proof. pose proof (cs2 (v0 * x)) as H. unfold dot, seen; cbn. ring_simplify. replace (sin (v0 * x) ^ 2) with (1 - cos (v0 * x) * cos (v0 * x)) by (rewrite <- H; ring). ring. Qed.
Lemma seen_had v0 x k a : vx k = vy k -> seen v0 x (vhad k a) = vhad k (seen v0 x a).
Proof. intro H. apply v3_ext; cbn; rewrite ?H; ring. Qed.
Lemma seen_unit v0 x a : unit3 a -> unit3 (seen v0 x a).
Proof. unfold unit3. rewrite seen_dot. trivial. Qed.

Section Frame.
Context (n s : nat) (sc : chain R) (Ww : wf n s sc).
Notation w := (drive_w sc).
Context (Hx : drive (vars sc) = Dxyplane) (Hr : round_z n sc).
Notation fc := (frame_chain n s sc).
Lemma frame_h i : (i < n)%nat -> h_ fc i = vadd (h_ sc i) (frame_field s w i).
Proof.
  intro Hi. unfold h_ at 1, at_, frame_chain. cbn [static_h].
  set (f := fun i => vadd (h_ sc i) (frame_field s w i)).
  rewrite (nth_indep _ _ (f 0%nat)) by (rewrite map_length, seq_length; exact Hi).
  rewrite map_nth, seq_nth by exact Hi. reflexivity.
Qed.
Lemma frame_B x i : (i < n)%nat -> B_ fc s x i = vadd (h_ sc i) (frame_field s w i).
Proof.
  intro Hi. unfold B_. rewrite frame_h by exact Hi. change (drive_field (vars fc) x) with vzero.
  generalize (vadd (h_ sc i) (frame_field s w i)). intro v. destruct (i <? s)%nat; [|reflexivity]. apply v3_ext; cbn; ring.
Qed.
Lemma seen_B x i : (i < n)%nat -> vadd (seen w x (B_ sc s x i)) (mk3 0 0 (- w)) = B_ fc s x i.
Proof.
  intro Hi. rewrite frame_B by exact Hi. destruct (Hr i Hi) as (_ & H1 & H2). unfold B_, drive_field, frame_field. rewrite Hx. fold w.
  pose proof (cs2 (w * x)) as H. fold (drive_w sc). destruct (i <? s)%nat; apply v3_ext; cbn; rewrite ?H1, ?H2; try ring.
  ring_simplify. replace (sin (w * x) ^ 2) with (1 - cos (w * x) * cos (w * x)) by (rewrite <- H; ring). ring.
Qed.
Lemma seen_om x S i : (i < n)%nat -> om n (fun p => seen w x (S p)) (J_ fc) (B_ fc s x) i = vadd (seen w x (om n S (J_ sc) (B_ sc s x) i)) (mk3 0 0 w).
Proof.
  intro Hi. unfold om. change (J_ fc) with (J_ sc). rewrite <- seen_B by exact Hi.
  rewrite <- (seen_had _ _ (J_ sc (lft n i))) by (apply Hr, lft_lt; exact Hi).
  rewrite <- (seen_had _ _ (J_ sc i)) by (apply Hr; exact Hi).
  apply v3_ext; cbn; ring.
Qed.
Lemma frame_S i : (i < n)%nat -> S_ fc i = seen w (t sc) (S_ sc i).
Proof.
  intro Hi. unfold S_, at_, frame_chain. cbn [spins]. pose proof (wf_spins _ _ _ Ww) as L.
  rewrite (nth_indep (map (seen w (t sc)) (spins sc)) vzero (seen w (t sc) vzero)) by (rewrite map_length; exact (eq_ind_r (fun k => (i < k)%nat) Hi L)). apply map_nth.
Qed.
Lemma frame_forth T X : solves n s sc T X -> solves n s fc T (fun x i => seen w x (X x i)).
Proof.
  intros HX. split.
  - intros i Hi. change (t fc) with (t sc). rewrite (proj1 HX) by exact Hi. symmetry. apply frame_S. exact Hi.
  - intros x i Hxt Hi. change (t fc) with (t sc) in Hxt. rewrite field_at_om by exact Hi. rewrite seen_om by exact Hi.
    pose proof (seen_vel w (fun r => X r i) x _ (ring_motion n s sc T X HX x i Hxt Hi)) as V. unfold Rf in V. rewrite seen_cross in V.
    eapply vel_ext; [| |exact V]; [reflexivity|]. set (a := seen w x (X x i)). set (b := seen w x (om n (X x) (J_ sc) (B_ sc s x) i)). apply v3_ext; cbn; ring.
Qed.
Lemma frame_back T X : solves n s fc T (fun x i => seen w x (X x i)) -> solves n s sc T X.
Proof.
  intros HY. split.
  - intros i Hi. pose proof (proj1 HY i Hi) as E. cbn beta in E. change (t fc) with (t sc) in E. rewrite frame_S in E by exact Hi.
    rewrite <- (seen_back w (t sc) (X (t sc) i)), E. apply seen_back.
  - intros x i Hxt Hi. rewrite field_at_om by exact Hi.
    pose proof (ring_motion n s fc T _ HY x i Hxt Hi) as V. cbn beta in V. apply (seen_vel (- w)) in V. unfold Rf in V.
    eapply vel_ext; [| |exact V]; [intro d; apply seen_back|].
    rewrite (seen_om x (X x) i Hi). rewrite seen_cross, !seen_back.
    set (a := seen w x (X x i)). set (o := om n (X x) (J_ sc) (B_ sc s x) i).
    replace (seen (- w) x (vadd (seen w x o) (mk3 0 0 w))) with (vadd o (mk3 0 0 w)).
    2:{ rewrite <- (seen_back w x o) at 1. apply v3_ext; cbn; ring. }
    generalize (X x i) as u. intro u. apply v3_ext; cbn; ring.
Qed.
Lemma frame_iff T X : solves n s sc T X <-> solves n s fc T (fun x i => seen w x (X x i)).
Proof. split; [apply frame_forth|apply frame_back]. Qed.

(** ** The invariant *)
Lemma frame_energy_seen S x : ring_energy n (fun i => seen w x (S i)) (J_ fc) (B_ fc s x) = frame_energy n s sc S x.
Proof.
  unfold frame_energy, ring_energy. rewrite <- Rsum_scal, <- Rsum_minus. apply Rsum_ext. intros i Hi.
  change (J_ fc) with (J_ sc). unfold bond. rewrite <- seen_had by (apply Hr; exact Hi). rewrite seen_dot. rewrite <- seen_B by exact Hi.
  rewrite <- (seen_dot w x (B_ sc s x i) (S i)). generalize (dot (S i) (vhad (J_ sc i) (S ((i + 1) mod n)))). intro q.
  unfold dot. cbn. ring.
Qed.
Lemma frame_energy_fields S x :
  ring_energy n (fun i => seen w x (S i)) (J_ sc) (fun i => vadd (h_ sc i) (frame_field s w i)) = ring_energy n S (J_ sc) (B_ sc s x) - w * Rsum n (fun i => vz (S i)).
Proof.
  change (ring_energy n S (J_ sc) (B_ sc s x) - w * Rsum n (fun i => vz (S i))) with (frame_energy n s sc S x). rewrite <- frame_energy_seen.
  apply ring_energy_ext; auto. intros i Hi. symmetry. apply frame_B, Hi.
Qed.
Lemma frame_const T X : solves n s sc T X -> forall x, t sc <= x <= t sc + T -> frame_energy n s sc (X x) x = frame_energy n s sc (X (t sc)) (t sc).
Proof.
  intros HX x Hxt. pose proof (frame_forth T X HX) as HY.
  assert (D : forall y, t sc <= y <= t sc + T -> derivable_pt_lim (fun r => frame_energy n s sc (X r) r) y 0).
  { intros y Hy. apply (deriv_fun (fun r => ring_energy n (fun i => seen w r (X r i)) (J_ fc) (B_ fc s r))); [intro r; apply frame_energy_seen|].
    assert (Wf : wf n s fc). { destruct Ww. constructor; cbn; rewrite ?map_length, ?seq_length; auto. }
    eapply deriv_to; [|apply (power_law n s fc Wf T _ HY y Hy)]. cbn.
    rewrite (Rsum_ext s _ (fun _ => 0)); [rewrite Rsum_0; ring|]. intros i Hi. unfold drive_fieldp. cbn. unfold dot; cbn. ring. }
  apply (deriv0_const (fun r => frame_energy n s sc (X r) r) (t sc) (t sc + T) D x Hxt).
Qed.
End Frame.

(** ** The program *)
Lemma energy_lip n J B j b S S' e : (forall i, (i < n)%nat -> norm (J i) <= j) -> (forall i, (i < n)%nat -> norm (B i) <= b) -> 0 <= j ->
  (forall i, (i < n)%nat -> unit3 (S i)) -> (forall i, (i < n)%nat -> unit3 (S' i)) -> (forall i, (i < n)%nat -> norm (vsub (S i) (S' i)) <= e) ->
  Rabs (ring_energy n S J B - ring_energy n S' J B) <= INR n * ((2 * j + b) * e).
Proof.
  intros HJ HB j0 HS HS' He. unfold ring_energy. rewrite <- Rsum_minus. apply Rsum_abs. intros i Hi.
  unfold bond. rewrite <- rgt_mod by exact Hi. pose proof (rgt_lt n i Hi) as Hg. set (g := rgt n i) in *.
  replace (- dot (S i) (vhad (J i) (S g)) + dot (B i) (S i) - (- dot (S' i) (vhad (J i) (S' g)) + dot (B i) (S' i))) with
    (- dot (vsub (S i) (S' i)) (vhad (J i) (S g)) - dot (S' i) (vhad (J i) (vsub (S g) (S' g))) + dot (B i) (vsub (S i) (S' i)))
    by (unfold dot; cbn; ring).
  eapply Rle_trans; [apply Rabs_triang|].
  pose proof (Rabs_triang (- dot (vsub (S i) (S' i)) (vhad (J i) (S g))) (- dot (S' i) (vhad (J i) (vsub (S g) (S' g))))) as T1.
  rewrite !Rabs_Ropp in T1.
  assert (e0 : 0 <= e) by (pose proof (norm_nonneg (vsub (S i) (S' i))); pose proof (He i Hi); lra).
  assert (N1 : norm (vhad (J i) (S g)) <= j * 1). { eapply Rle_trans; [apply norm_had|]. apply Rmult_le_compat; auto using norm_nonneg. rewrite unit3_norm; auto; lra. }
  assert (N2 : norm (vhad (J i) (vsub (S g) (S' g))) <= j * e). { eapply Rle_trans; [apply norm_had|]. apply Rmult_le_compat; auto using norm_nonneg. }
  assert (A : Rabs (dot (vsub (S i) (S' i)) (vhad (J i) (S g))) <= e * (j * 1)). { eapply Rle_trans; [apply dot_cs|]. apply Rmult_le_compat; auto using norm_nonneg. }
  assert (B' : Rabs (dot (S' i) (vhad (J i) (vsub (S g) (S' g)))) <= 1 * (j * e)). { eapply Rle_trans; [apply dot_cs|]. apply Rmult_le_compat; auto using norm_nonneg. rewrite unit3_norm; auto; lra. }
  assert (C : Rabs (dot (B i) (vsub (S i) (S' i))) <= b * e). { eapply Rle_trans; [apply dot_cs|]. apply Rmult_le_compat; auto using norm_nonneg. }
  unfold Rminus at 1. lra.
Qed.

Section Prog.
Context (n s : nat) (sc : chain R) (Ww : wf n s sc) (Hu : unit_spins sc) (Hn : (2 <= n)%nat) (Hev : (n mod 2 = 0)%nat) (Hd : drive_ok (vars sc)).
Lemma run_state dt k sc' : iterM (update ERNum) k (fin (with_dt sc dt)) = Ok (fin sc') ->
  wf n s sc' /\ unit_spins sc' /\ J_ sc' = J_ sc /\ (forall x, B_ sc' s x = B_ sc s x) /\ t sc' = t sc + INR k * dt /\ drive_ok (vars sc') /\
  drive_w sc' = drive_w sc.
Proof.
  intro H. assert (W1 : wf n s (with_dt sc dt)) by (destruct Ww; constructor; cbn; auto).
  destruct (iter_ER n s k (with_dt sc dt) _ W1 Hn Hd Hu H (finspins_fin sc')) as [E _]. apply fin_inj in E.
  change (sc' = evol n s k (with_dt sc dt)) in E. subst sc'. split; [apply wf_evol, W1|]. split; [apply unit_evol; [exact W1|exact Hu]|].
  split; [rewrite J_evol; reflexivity|]. split; [intro x; rewrite B_evol; reflexivity|]. split; [rewrite t_evol; reflexivity|].
  unfold drive_w. rewrite vars_evol. split; [exact Hd|reflexivity].
Qed.
Lemma all_unit c : wf n s c -> unit_spins c -> forall i, (i < n)%nat -> unit3 (S_ c i).
Proof. intros W U i Hi. apply (start_unit n s c W U). exact Hi. Qed.

Lemma energy_order T : 0 <= T -> exists X K, solves n s sc T X /\ forall dt k sc' e, 0 < dt -> INR k * dt <= T ->
  iterM (update ERNum) k (fin (with_dt sc dt)) = Ok (fin sc') -> total_energy2 ERNum (fin sc') = Ok (Some e) ->
  Rabs (INR n * e - ring_energy n (X (t sc + INR k * dt)) (J_ sc) (B_ sc s (t sc + INR k * dt))) <= K * dt ^ 2.
Proof.
  intro HT. destruct (ring_limit n s sc Ww Hu Hn Hev Hd T HT) as (X & K & HX & HK).
  destruct (fin_bound (J_ sc) n) as (j & j0 & Hj). destruct (B_all n s sc) as (b & b0 & Hb).
  exists X, (INR n * ((2 * j + b) * K)). split; [exact HX|]. intros dt k sc' e Hdt Hk Hr He.
  destruct (run_state dt k sc' Hr) as (W1 & U1 & EJ & EB & Et & D1 & _).
  rewrite (total_energy2_value n s sc' W1) in He by (lia || exact D1). injection He as <-.
  assert (n0 : INR n <> 0) by (apply not_0_INR; lia).
  replace (INR n * (ring_energy n (S_ sc') (J_ sc') (B_ sc' s (t sc')) / INR n)) with (ring_energy n (S_ sc') (J_ sc') (B_ sc' s (t sc'))) by (field; exact n0).
  rewrite EJ, EB, Et. set (y := t sc + INR k * dt).
  assert (Hy : t sc <= y <= t sc + T). { unfold y. assert (0 <= INR k * dt) by (apply Rmult_le_pos; [apply pos_INR|lra]). lra. }
  eapply Rle_trans; [apply (energy_lip n (J_ sc) (B_ sc s y) j b (S_ sc') (X y) (K * dt ^ 2)); auto|].
  - apply all_unit; assumption.
  - intros i Hi. apply (ring_unit n s sc Ww Hu T X HX y i Hy Hi).
  - intros i Hi. apply (HK dt k sc' Hdt Hk Hr i Hi).
  - right. ring.
Qed.

Lemma Vsum_vz k f : vz (Vsum k f) = Rsum k (fun i => vz (f i)).
Proof. induction k; cbn [Vsum Rsum]; [reflexivity|]. rewrite <- IHk. reflexivity. Qed.

Lemma invariant_order T : 0 <= T -> drive (vars sc) = Dxyplane -> round_z n sc ->
  exists K, forall dt k sc' e0 m0 e1 m1, 0 < dt -> INR k * dt <= T ->
    iterM (update ERNum) k (fin (with_dt sc dt)) = Ok (fin sc') ->
    total_energy2 ERNum (fin sc) = Ok (Some e0) -> m_tot ERNum (fin sc) = Ok (fin3 m0) ->
    total_energy2 ERNum (fin sc') = Ok (Some e1) -> m_tot ERNum (fin sc') = Ok (fin3 m1) ->
    Rabs ((INR n * e1 - 2 * PI / tau (vars sc) * vz m1) - (INR n * e0 - 2 * PI / tau (vars sc) * vz m0)) <= K * dt ^ 2.
Proof.
  intros HT Hx Hr. destruct (ring_limit n s sc Ww Hu Hn Hev Hd T HT) as (X & K & HX & HK).
  destruct (fin_bound (J_ sc) n) as (j & j0 & Hj). destruct (B_all n s sc) as (b & b0 & Hb). fold (drive_w sc). set (w := drive_w sc).
  exists (INR n * ((2 * j + b) * K) + Rabs w * (INR n * K)). intros dt k sc' e0 m0 e1 m1 Hdt Hk Hrun He0 Hm0 He1 Hm1.
  destruct (run_state dt k sc' Hrun) as (W1 & U1 & EJ & EB & Et & D1 & _).
  rewrite (total_energy2_value n s sc' W1) in He1 by (lia || exact D1). injection He1 as <-.
  rewrite (total_energy2_value n s sc Ww) in He0 by (lia || exact Hd). injection He0 as <-.
  rewrite (m_tot_value n s sc' W1) in Hm1. rewrite (m_tot_value n s sc Ww) in Hm0.
  assert (M1 : vz m1 = Rsum n (fun i => vz (S_ sc' i))). { rewrite <- Vsum_vz. unfold fin3, v3map in Hm1. injection Hm1 as _ _ E. symmetry. exact E. }
  assert (M0 : vz m0 = Rsum n (fun i => vz (S_ sc i))). { rewrite <- Vsum_vz. unfold fin3, v3map in Hm0. injection Hm0 as _ _ E. symmetry. exact E. }
  assert (n0 : INR n <> 0) by (apply not_0_INR; lia).
  replace (INR n * (ring_energy n (S_ sc') (J_ sc') (B_ sc' s (t sc')) / INR n)) with (ring_energy n (S_ sc') (J_ sc') (B_ sc' s (t sc'))) by (field; exact n0).
  replace (INR n * (ring_energy n (S_ sc) (J_ sc) (B_ sc s (t sc)) / INR n)) with (ring_energy n (S_ sc) (J_ sc) (B_ sc s (t sc))) by (field; exact n0).
  rewrite EJ, EB, Et. set (y := t sc + INR k * dt).
  assert (Hy : t sc <= y <= t sc + T). { unfold y. assert (0 <= INR k * dt) by (apply Rmult_le_pos; [apply pos_INR|lra]). lra. }
  assert (HKy : forall i, (i < n)%nat -> norm (vsub (S_ sc' i) (X y i)) <= K * dt ^ 2) by (intros i Hi; apply (HK dt k sc' Hdt Hk Hrun i Hi)).
  pose proof (energy_lip n (J_ sc) (B_ sc s y) j b (S_ sc') (X y) (K * dt ^ 2) Hj (fun i Hi => Hb y i Hi) j0 (all_unit sc' W1 U1)
    (fun i Hi => ring_unit n s sc Ww Hu T X HX y i Hy Hi) HKy) as A.
  pose proof (frame_const n s sc Ww Hx Hr T X HX y Hy) as C. unfold frame_energy in C. fold w in C.
  rewrite (ring_energy_ext n (X (t sc)) (J_ sc) (B_ sc s (t sc)) (S_ sc) (J_ sc) (B_ sc s (t sc))) in C by (auto; apply (proj1 HX)).
  rewrite (Rsum_ext n (fun i => vz (X (t sc) i)) (fun i => vz (S_ sc i))) in C by (intros i Hi; rewrite (proj1 HX) by exact Hi; reflexivity).
  rewrite M1, M0.
  assert (Z : Rabs (Rsum n (fun i => vz (S_ sc' i)) - Rsum n (fun i => vz (X y i))) <= INR n * (K * dt ^ 2)).
  { rewrite <- Rsum_minus. apply Rsum_abs. intros i Hi. apply (comp_norm _ _ (HKy i Hi)). }
  set (E1 := ring_energy n (S_ sc') (J_ sc) (B_ sc s y)) in *. set (E2 := ring_energy n (X y) (J_ sc) (B_ sc s y)) in *.
  set (E0 := ring_energy n (S_ sc) (J_ sc) (B_ sc s (t sc))) in *.
  set (Z1 := Rsum n (fun i => vz (S_ sc' i))) in *. set (Z2 := Rsum n (fun i => vz (X y i))) in *. set (Z0 := Rsum n (fun i => vz (S_ sc i))) in *.
  replace (E1 - w * Z1 - (E0 - w * Z0)) with ((E1 - E2) + - (w * (Z1 - Z2))) by lra.
  eapply Rle_trans; [apply Rabs_triang|]. rewrite Rabs_Ropp, Rabs_mult.
  assert (Rabs w * Rabs (Z1 - Z2) <= Rabs w * (INR n * (K * dt ^ 2))) by (apply Rmult_le_compat_l; [apply Rabs_pos|exact Z]). lra.
Qed.
End Prog.
