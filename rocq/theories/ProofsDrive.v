(** The drive, boundary terms. *)
From Coq Require Import Reals Lra Lia List ZArith Arith Bool Psatz.
From Verif Require Import Num Monad NumR Spin Config Chain Langevin SpecVec SpecChain
  ProofsSpin ProofsChain ProofsEnergy.
Import ListNotations.
Local Open Scope R_scope.

Lemma cos_periodZ x (k : Z) : cos (x + 2 * IZR k * PI) = cos x.
Proof.
  destruct (Z_le_gt_dec 0 k) as [P|P].
  - rewrite <- (Z2Nat.id k) by lia. rewrite <- INR_IZR_INZ. apply cos_period.
  - rewrite <- (cos_period _ (Z.to_nat (- k))). f_equal. rewrite INR_IZR_INZ, Z2Nat.id by lia.
    rewrite opp_IZR. ring.
Qed.
Lemma sin_periodZ x (k : Z) : sin (x + 2 * IZR k * PI) = sin x.
Proof.
  destruct (Z_le_gt_dec 0 k) as [P|P].
  - rewrite <- (Z2Nat.id k) by lia. rewrite <- INR_IZR_INZ. apply sin_period.
  - rewrite <- (sin_period _ (Z.to_nat (- k))). f_equal. rewrite INR_IZR_INZ, Z2Nat.id by lia.
    rewrite opp_IZR. ring.
Qed.

Lemma drive_field_period c x (k : Z) :
  drive_ok c -> drive_field c (x + IZR k * tau c) = drive_field c x.
Proof.
  unfold drive_ok, drive_field. destruct (drive c); intro H; try reflexivity;
  replace (2 * PI / tau c * (x + IZR k * tau c)) with (2 * PI / tau c * x + 2 * IZR k * PI)
    by (field; assumption); rewrite ?cos_periodZ, ?sin_periodZ; reflexivity.
Qed.

Lemma h_ext_period c x (k : Z) : drive_ok c ->
  h_ext ERNum (config_map Some c) (Some (x + IZR k * tau c)) = h_ext ERNum (config_map Some c) (Some x).
Proof. intro H. rewrite !h_ext_fin by assumption. rewrite drive_field_period by assumption. reflexivity. Qed.

Lemma xyplane_unit c x : drive c = Dxyplane -> unit3 (drive_field c x).
Proof.
  intro H. unfold drive_field. rewrite H. unfold unit3, dot; cbn.
  rewrite (cs1 (2 * PI / tau c * x)). ring.
Qed.

Definition drive_fieldp (c : config R) (x : R) : vec :=
  let w := 2 * PI / tau c in
  match drive c with
  | Dxyplane => mk3 (- sin (w * x)) (cos (w * x)) 0
  | Dxyelliptic => mk3 (- sin (w * x)) (c_e c * cos (w * x)) 0
  | Duniaxial => mk3 (- sin (w * x)) 0 0
  | _ => vzero
  end.

Lemma h_extp_fin c x : drive_ok c ->
  h_extp ERNum (config_map Some c) (Some x) = fin3 (drive_fieldp c x).
Proof.
  unfold drive_ok, h_extp, drive_fieldp. cbn [config_map drive tau hs c_e].
  assert (A : tau c <> 0 -> ndiv ERNum (nmul ERNum (nmul ERNum (nofZ ERNum 2) (npi ERNum)) (Some x)) (Some (tau c))
              = Some (2 * PI / tau c * x)).
  { intro Ht. cbn [nmul nofZ npi ERNum er2 ndiv]. rewrite er_div_ok by assumption. f_equal. field. assumption. }
  destruct (drive c); intro H; cbv zeta; rewrite ?A by assumption; reflexivity.
Qed.

Lemma dl_cos w x : derivable_pt_lim (fun r => cos (w * r)) x (w * - sin (w * x)).
Proof.
  assert (H1 : derivable_pt_lim (fun r => w * r) x w).
  { pose proof (derivable_pt_lim_scal id w x 1 (derivable_pt_lim_id x)) as H.
    rewrite Rmult_1_r in H. exact H. }
  pose proof (derivable_pt_lim_comp _ cos x _ _ H1 (derivable_pt_lim_cos (w * x))) as H.
  rewrite Rmult_comm. exact H.
Qed.
Lemma dl_sin w x : derivable_pt_lim (fun r => sin (w * r)) x (w * cos (w * x)).
Proof.
  assert (H1 : derivable_pt_lim (fun r => w * r) x w).
  { pose proof (derivable_pt_lim_scal id w x 1 (derivable_pt_lim_id x)) as H.
    rewrite Rmult_1_r in H. exact H. }
  pose proof (derivable_pt_lim_comp _ sin x _ _ H1 (derivable_pt_lim_sin (w * x))) as H.
  rewrite Rmult_comm. exact H.
Qed.

Lemma drive_velocity c x :
  has_velocity (drive_field c) x (vscale (2 * PI / tau c) (drive_fieldp c x)).
Proof.
  unfold has_velocity, drive_field, drive_fieldp. set (w := 2 * PI / tau c).
  assert (K : forall a, derivable_pt_lim (fun _ : R => a) x (w * 0)).
  { intro a. rewrite Rmult_0_r. apply derivable_pt_lim_const. }
  assert (E : derivable_pt_lim (fun r => c_e c * sin (w * r)) x (w * (c_e c * cos (w * x)))).
  { replace (w * (c_e c * cos (w * x))) with (c_e c * (w * cos (w * x))) by ring.
    apply (derivable_pt_lim_scal (fun r => sin (w * r))). apply dl_sin. }
  destruct (drive c); cbn; repeat split; auto using dl_cos, dl_sin.
Qed.

Lemma drive_derivative c : drive_ok c ->
  exists F P, (forall x, h_ext ERNum (config_map Some c) (Some x) = Ok (fin3 (F x))) /\
              (forall x, h_extp ERNum (config_map Some c) (Some x) = fin3 (P x)) /\
              (forall x, has_velocity F x (vscale (2 * PI / tau c) (P x))).
Proof.
  intro H. exists (drive_field c), (drive_fieldp c). repeat split; intros.
  - apply h_ext_fin; assumption.
  - apply h_extp_fin; assumption.
  - apply drive_velocity.
  - apply drive_velocity.
  - apply drive_velocity.
Qed.

(** ** Boundary terms *)
Lemma lagrange a b : dot (cross a b) (cross a b) = dot a a * dot b b - dot a b * dot a b.
Proof. unfold dot, cross; cbn; ring. Qed.

Lemma msq_fin a : msq ERNum (fin3 a) = Some (dot a a).
Proof. cbn. f_equal. unfold dot. ring. Qed.
Lemma mdot_fin a b : mdot ERNum (fin3 a) (fin3 b) = Some (dot a b).
Proof. cbn. f_equal. unfold dot. ring. Qed.

Definition om_of (j s h : vec) : vec := vsub (vhad j s) h.
Lemma om_fin j s h :
  mk3 (nsub ERNum (nmul ERNum (vx (fin3 j)) (vx (fin3 s))) (vx (fin3 h)))
      (nsub ERNum (nmul ERNum (vy (fin3 j)) (vy (fin3 s))) (vy (fin3 h)))
      (nsub ERNum (nmul ERNum (vz (fin3 j)) (vz (fin3 s))) (vz (fin3 h))) = fin3 (om_of j s h).
Proof. reflexivity. Qed.

Lemma boundary_value n s sc : wf n s sc -> (2 <= s)%nat -> beta (vars sc) <> 0 ->
  boundary_term ERNum (fin sc) = Ok (Some (
    let W1 := vsub (vhad (J_ sc 0) (S_ sc 1)) (h_ sc 0) in
    let Wl := vsub (vhad (J_ sc (s - 2)) (S_ sc (s - 2))) (h_ sc (s - 1)) in
    2 / beta (vars sc) * (dot W1 (S_ sc 0) + dot Wl (S_ sc (s - 1)))
    - (dot (cross (S_ sc 0) W1) (cross (S_ sc 0) W1)
       + dot (cross (S_ sc (s - 1)) Wl) (cross (S_ sc (s - 1)) Wl)))).
Proof.
  intros W Hs Hb. pose proof (proj2 (wf_fin n s sc) W) as W'.
  pose proof (wf_sub _ _ _ W) as Hsn.
  unfold boundary_term. rewrite (wf_s (T := num ERNum) W').
  rewrite (spin_idx ERNum n s (fin sc) W' 0) by lia. cbn [bind].
  rewrite !usub_ok by lia. cbn [bind].
  rewrite (spin_idx ERNum n s (fin sc) W' (s - 1)) by lia. cbn [bind].
  rewrite (h_idx ERNum n s (fin sc) W' 0) by lia. cbn [bind].
  rewrite (h_idx ERNum n s (fin sc) W' (s - 1)) by lia. cbn [bind].
  rewrite (j_idx ERNum n s (fin sc) W' 0) by lia. cbn [bind].
  rewrite (spin_idx ERNum n s (fin sc) W' 1) by lia. cbn [bind].
  rewrite (j_idx ERNum n s (fin sc) W' (s - 2)) by lia. cbn [bind].
  rewrite (spin_idx ERNum n s (fin sc) W' (s - 2)) by lia. cbn [bind].
  rewrite (m_value n s sc W). cbn [bind].
  rewrite !spins_fin, !js_fin, !hs_fin. rewrite !om_fin, !msq_fin, !mdot_fin.
  change (beta (vars (fin sc))) with (Some (beta (vars sc))).
  cbn [nofZ ndiv ERNum]. rewrite er_div_ok by assumption. cbn [nadd nmul nsub ERNum er2].
  f_equal. f_equal. cbv zeta. rewrite !lagrange. unfold om_of.
  rewrite !(dot_comm (vsub _ _) (S_ sc _)). ring.
Qed.

Lemma lboundary_value n s sc g : wf n s sc -> (2 <= s)%nat -> beta (vars sc) <> 0 ->
  tau (vars sc) <> 0 -> drive_ok (vars sc) ->
  exists P, h_extp ERNum (config_map Some (vars sc)) (Some (t sc)) = fin3 P /\
  lboundary_term ERNum (mkL (fin sc) (Some g)) = Ok (Some (
    let F := drive_field (vars sc) (t sc) in
    let W1 := vsub (vhad (J_ sc 0) (S_ sc 1)) F in
    let Wl := vsub (vhad (J_ sc (s - 2)) (S_ sc (s - 2))) F in
    2 * g / beta (vars sc) * (dot W1 (S_ sc 0) + dot Wl (S_ sc (s - 1)))
    - g * (dot (cross (S_ sc 0) W1) (cross (S_ sc 0) W1)
       + dot (cross (S_ sc (s - 1)) Wl) (cross (S_ sc (s - 1)) Wl))
    + 2 * PI / tau (vars sc) * dot P (Vsum s (S_ sc)))).
Proof.
  intros W Hs Hb Ht Hd. exists (drive_fieldp (vars sc) (t sc)).
  split; [apply h_extp_fin; assumption|].
  pose proof (proj2 (wf_fin n s sc) W) as W'.
  pose proof (wf_sub _ _ _ W) as Hsn.
  unfold lboundary_term. cbn [base gamma]. rewrite (wf_s (T := num ERNum) W').
  rewrite (spin_idx ERNum n s (fin sc) W' 0) by lia. cbn [bind].
  rewrite !usub_ok by lia. cbn [bind].
  rewrite (spin_idx ERNum n s (fin sc) W' (s - 1)) by lia. cbn [bind].
  change (vars (fin sc)) with (config_map (@Some R) (vars sc)). change (t (fin sc)) with (Some (t sc)).
  rewrite (h_ext_fin (vars sc) (t sc)) by assumption. cbn [bind].
  rewrite (j_idx ERNum n s (fin sc) W' 0) by lia. cbn [bind].
  rewrite (spin_idx ERNum n s (fin sc) W' 1) by lia. cbn [bind].
  rewrite (j_idx ERNum n s (fin sc) W' (s - 2)) by lia. cbn [bind].
  rewrite (spin_idx ERNum n s (fin sc) W' (s - 2)) by lia. cbn [bind].
  rewrite (m_value n s sc W). cbn [bind].
  rewrite !spins_fin, !js_fin. rewrite !om_fin, !msq_fin, !mdot_fin.
  rewrite (h_extp_fin (vars sc) (t sc)) by assumption. rewrite mdot_fin.
  cbn [beta tau config_map nofZ npi nmul ERNum er2 ndiv].
  rewrite !er_div_ok by assumption. cbn [nadd nmul nsub ERNum er2].
  f_equal. f_equal. cbv zeta. rewrite !lagrange. unfold om_of.
  rewrite !(dot_comm (vsub _ _) (S_ sc _)). field. split; assumption.
Qed.

Lemma norm_le_sq a c : 0 <= c -> dot a a <= c * c -> norm a <= c.
Proof. intros Hc H. unfold norm. rewrite <- (sqrt_square c Hc). apply sqrt_le_1_alt; assumption. Qed.

Lemma Rsqr_abs_c x : Rabs x * Rabs x = x * x.
Proof. rewrite <- Rabs_mult. apply Rabs_right. nra. Qed.

Lemma drive_amp_ok c x : norm (drive_field c x) <= drive_amp c.
Proof.
  assert (P : forall y, sin y * sin y + cos y * cos y = 1) by (intro; apply sin2_cos2).
  unfold drive_field, drive_amp. destruct (drive c); cbv zeta.
  - apply norm_le_sq; [lra|]. unfold dot; cbn [vx vy vz]. specialize (P (2 * PI / tau c * x)). lra.
  - set (M := Rmax 1 (Rabs (c_e c))).
    assert (1 <= M) by apply Rmax_l. assert (Rabs (c_e c) <= M) by apply Rmax_r.
    apply norm_le_sq; [lra|]. unfold dot; cbn [vx vy vz]. specialize (P (2 * PI / tau c * x)).
    set (co := cos (2 * PI / tau c * x)) in *. set (si := sin (2 * PI / tau c * x)) in *.
    assert (c_e c * c_e c <= M * M).
    { rewrite <- (Rsqr_abs_c (c_e c)). pose proof (Rabs_pos (c_e c)). nra. }
    assert (0 <= si * si) by nra. assert (0 <= co * co) by nra.
    replace (c_e c * si * (c_e c * si)) with (c_e c * c_e c * (si * si)) by ring.
    assert (1 <= M * M) by nra. nra.
  - apply norm_le_sq; [lra|]. unfold dot; cbn [vx vy vz]. specialize (P (2 * PI / tau c * x)). nra.
  - right; reflexivity.
  - rewrite norm_vzero. right; reflexivity.
Qed.

Lemma amp_nonneg c : 0 <= drive_amp c.
Proof.
  unfold drive_amp. destruct (drive c); try lra.
  - apply Rle_trans with 1; [lra|apply Rmax_l].
  - apply norm_nonneg.
Qed.

Lemma total_energy2_bound n s sc Jm Hm :
  wf n s sc -> (1 <= n)%nat -> drive_ok (vars sc) -> unit_spins sc -> 0 <= Jm ->
  (forall i, (i < n)%nat -> Rabs (vx (J_ sc i)) <= Jm /\ Rabs (vy (J_ sc i)) <= Jm /\ Rabs (vz (J_ sc i)) <= Jm) ->
  (forall i, (i < n)%nat -> norm (h_ sc i) <= Hm) ->
  exists e, total_energy2 ERNum (fin sc) = Ok (Some e) /\ Rabs e <= Jm + (Hm + drive_amp (vars sc)).
Proof.
  intros W Hn Hd U HJ0 HJ HH. eexists. split; [apply (total_energy2_value n s sc W Hn Hd)|].
  apply ring_energy_bound; auto.
  - intros i Hi. apply unit3_norm, unit_at; [assumption|]. rewrite (wf_spins _ _ _ W). assumption.
  - intros i Hi. unfold B_. specialize (HH i Hi). pose proof (amp_nonneg (vars sc)).
    destruct (i <? s)%nat; [|lra].
    eapply Rle_trans; [apply norm_triangle|]. pose proof (drive_amp_ok (vars sc) (t sc)). lra.
Qed.

Lemma h_ext_xyplane_unit c x : drive c = Dxyplane -> tau c <> 0 ->
  exists v, h_ext ERNum (config_map Some c) (Some x) = Ok (fin3 v) /\ unit3 v.
Proof.
  intros Hd Ht. exists (drive_field c x). split; [apply h_ext_fin; unfold drive_ok; rewrite Hd; assumption|].
  apply xyplane_unit; assumption.
Qed.

Lemma h_ext_none_static c x :
  (drive c = Dnone -> h_ext ERNum (config_map Some c) (Some x) = Ok (fin3 vzero)) /\
  (drive c = Dstaticfield -> (3 <= length (hs c))%nat ->
     h_ext ERNum (config_map Some c) (Some x) = Ok (fin3 (hvec (hs c)))).
Proof.
  split; intros; rewrite h_ext_fin; try (unfold drive_ok; rewrite H; auto); unfold drive_field; rewrite H; reflexivity.
Qed.
