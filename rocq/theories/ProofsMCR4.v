(** Samplers and energy functions. *)
From Coq Require Import Reals Lra Lia List ZArith Arith Bool.
From Verif Require Import Num Monad NumR Spin Config Chain Langevin SpecVec SpecChain SpecMC Samples
  ProofsSpin ProofsChain ProofsEnergy ProofsDyn ProofsDynR ProofsDyn2 ProofsMC ProofsMCR ProofsMCR2 ProofsMCR3.
Import ListNotations.
Local Open Scope R_scope.

Lemma draw_pure_args d u1 u2 u : unit_draw u2 ->
  d_idx (draw d u1 u2 u) = d /\ propose ERNum (d_u1 (draw d u1 u2 u)) (d_u2 (draw d u1 u2 u)) = fin3 (uniform_dir u1 u2)
  /\ d_u3 (draw d u1 u2 u) = Some u.
Proof. intro H. split; [reflexivity|]. split; [apply propose_ER; exact H|reflexivity]. Qed.

Section Steps.
Context (n s : nat) (sc : chain R) (W : wf n s sc).
Let W' : @wf (num ERNum) n s (fin sc) := proj2 (wf_fin n s sc) W.

Ltac evalP lem := intros; etransitivity; [apply (lem ERNum n s (fin sc) W'); lia|];
  cbn [d_idx d_u1 d_u2 d_u3 draw]; rewrite propose_ER by assumption; reflexivity.

Lemma plain_ER d u1 u2 u : unit_draw u2 -> (1 <= n)%nat ->
  metropolis_update ERNum (draw d u1 u2 u) (fin sc) =
  Ok (acceptP ERNum (fin sc) (d mod n) (fin3 (uniform_dir u1 u2)) (dP ERNum n (fin sc) (d mod n) (fin3 (uniform_dir u1 u2))) (Some u)).
Proof. evalP plain_pure. Qed.
Lemma maglab_ER d u1 u2 u : unit_draw u2 -> (1 <= n)%nat ->
  metropolis_update_maglab ERNum (draw d u1 u2 u) (fin sc) =
  Ok (acceptP ERNum (fin sc) (d mod n) (fin3 (uniform_dir u1 u2)) (dML ERNum n (fin sc) (d mod n) (fin3 (uniform_dir u1 u2))) (Some u)).
Proof. evalP maglab_pure. Qed.
Lemma rot_ER d u1 u2 u : unit_draw u2 -> (2 <= n)%nat ->
  metropolis_update_rot_magnus ERNum (draw d u1 u2 u) (fin sc) =
  Ok (acceptP ERNum (fin sc) (d mod n) (fin3 (uniform_dir u1 u2)) (dR ERNum n s (fin sc) (d mod n) (fin3 (uniform_dir u1 u2))) (Some u)).
Proof. evalP rot_pure. Qed.
Lemma magnus_ER d u1 u2 u : unit_draw u2 -> (2 <= n)%nat ->
  metropolis_update_magnus ERNum (draw d u1 u2 u) (fin sc) =
  Ok (acceptP ERNum (fin sc) (d mod n) (fin3 (uniform_dir u1 u2)) (dMG ERNum n s (fin sc) (d mod n) (fin3 (uniform_dir u1 u2))) (Some u)).
Proof. evalP magnus_pure. Qed.
Lemma magfull_ER d u1 u2 u : unit_draw u2 -> (2 <= n)%nat ->
  metropolis_update_mag_full ERNum (draw d u1 u2 u) (fin sc) =
  Ok (acceptP ERNum (fin sc) (d mod n) (fin3 (uniform_dir u1 u2)) (dMF ERNum n s (fin sc) (d mod n) (fin3 (uniform_dir u1 u2))) (Some u)).
Proof. evalP magfull_pure. Qed.

Lemma plain_step : (2 <= n)%nat -> metropolis_for n (fun c => ring_energy n (S_ c) (J_ c) (h_ c)) (metropolis_update ERNum) sc.
Proof.
  intros Hn d u1 u2 u D1 D2 D3. assert (Hi : (d mod n < n)%nat) by (apply Nat.mod_upper_bound; lia).
  eapply (step_of n s); [exact W|lia| |reflexivity].
  etransitivity; [apply plain_ER; [exact D2|lia]|]. f_equal. f_equal. cbv beta.
  apply (dP_value n s); assumption.
Qed.
Lemma maglab_step : (2 <= n)%nat -> tau (vars sc) <> 0 ->
  metropolis_for n (fun c => lab_energy n (omega sc) (S_ c) (J_ c)) (metropolis_update_maglab ERNum) sc.
Proof.
  intros Hn Ht d u1 u2 u D1 D2 D3. assert (Hi : (d mod n < n)%nat) by (apply Nat.mod_upper_bound; lia).
  eapply (step_of n s); [exact W|lia| |reflexivity].
  etransitivity; [apply maglab_ER; [exact D2|lia]|]. f_equal. f_equal. cbv beta.
  apply (dML_value n s); assumption.
Qed.
Lemma rot_step : (3 <= n)%nat -> tau (vars sc) <> 0 ->
  metropolis_for n (fun c => rot_energy 1 1 n s (omega sc) (S_ c) (J_ c)) (metropolis_update_rot_magnus ERNum) sc.
Proof.
  intros Hn Ht d u1 u2 u D1 D2 D3. assert (Hi : (d mod n < n)%nat) by (apply Nat.mod_upper_bound; lia).
  eapply (step_of n s); [exact W|lia| |reflexivity].
  etransitivity; [apply rot_ER; [exact D2|lia]|]. f_equal. f_equal. cbv beta.
  apply (dR_value n s); assumption.
Qed.
End Steps.

(** A Metropolis sampler of E is one of any function with the same changes *)
Lemma metropolis_for_ext n E1 E2 f sc :
  (forall d u1 u2, unit_draw u1 -> unit_draw u2 ->
     E1 (moved sc (d mod n) (uniform_dir u1 u2)) - E1 sc = E2 (moved sc (d mod n) (uniform_dir u1 u2)) - E2 sc) ->
  metropolis_for n E1 f sc -> metropolis_for n E2 f sc.
Proof.
  intros H M d u1 u2 u D1 D2 D3. specialize (M d u1 u2 u D1 D2 D3). unfold metropolis_step in *. cbv zeta in *.
  rewrite <- (H d u1 u2 D1 D2). exact M.
Qed.

Lemma INR_nz n : (1 <= n)%nat -> INR n <> 0.
Proof. intro. apply not_0_INR. lia. Qed.

Lemma plain_step_mc n s sc : wf n s sc -> (2 <= n)%nat ->
  metropolis_for n (fun c => INR n * val (mc_total_energy ERNum (fin c))) (metropolis_update ERNum) sc.
Proof.
  intros W Hn. eapply metropolis_for_ext; [|apply (plain_step n s); assumption]. cbv beta.
  intros d u1 u2 _ _.
  rewrite (mc_total_value n s _ (moved_wf n s sc _ _ W)) by lia.
  rewrite (mc_total_value n s _ W) by lia. cbn [val].
  set (A := ring_energy n (S_ (moved _ _ _)) _ _). set (B := ring_energy n (S_ sc) _ _).
  field. apply INR_nz. lia.
Qed.

(** ** Detailed balance *)
Lemma balance b e e' : 0 <= b ->
  accept_prob b (e' - e) * exp (- (b * e)) = accept_prob b (e - e') * exp (- (b * e')).
Proof.
  intro Hb.
  assert (A : forall e e', e <= e' -> accept_prob b (e' - e) * exp (- (b * e)) = accept_prob b (e - e') * exp (- (b * e'))).
  { clear e e'. intros e e' He. unfold accept_prob.
    rewrite Rmin_right, Rmin_left.
    - rewrite <- exp_plus. rewrite Rmult_1_l. f_equal. ring.
    - rewrite <- exp_0. destruct (Req_dec b 0) as [->|]; [right; f_equal; ring|].
      destruct (Req_dec e e') as [->|]; [right; f_equal; ring|]. left. apply exp_increasing. nra.
    - rewrite <- exp_0. destruct (Req_dec b 0) as [->|]; [right; f_equal; ring|].
      destruct (Req_dec e e') as [->|]; [right; f_equal; ring|]. left. apply exp_increasing. nra. }
  destruct (Rle_dec e e'); [apply A; assumption|]. symmetry. apply A. lra.
Qed.
Lemma accepts_prob b d u : 0 <= b -> unit_draw u -> (accepts b d u <-> u < accept_prob b d).
Proof.
  intros Hb [H0 H1]. unfold accepts, accept_prob. split.
  - intros [H|H].
    + apply Rmin_glb_lt; [exact H1|]. assert (1 <= exp (- (b * d))); [|lra].
      rewrite <- exp_0. destruct (Req_dec b 0) as [->|]; [right; f_equal; ring|].
      left. apply exp_increasing. nra.
    + apply Rmin_glb_lt; assumption.
  - intro H. right. eapply Rlt_le_trans; [exact H|apply Rmin_r].
Qed.
Lemma accept_prob_range b d : 0 < accept_prob b d <= 1.
Proof.
  unfold accept_prob. split; [apply Rmin_glb_lt; [lra|apply exp_pos]|apply Rmin_l].
Qed.

(** ** Every direction but the south pole is proposed *)
Lemma angle_exists c sn : c * c + sn * sn = 1 -> exists u, unit_draw u /\ cos (2 * PI * u) = c /\ sin (2 * PI * u) = sn.
Proof.
  intro H. pose proof PI_RGT_0 as HP.
  assert (Hc : -1 <= c <= 1) by nra.
  pose proof (acos_bound c) as Hb.
  assert (Hs : sqrt (1 - c²) = Rabs sn).
  { replace (1 - c²) with (sn²) by (unfold Rsqr; lra). apply sqrt_Rsqr_abs. }
  destruct (Rle_dec 0 sn) as [p|p].
  - exists (acos c / (2 * PI)). replace (2 * PI * (acos c / (2 * PI))) with (acos c) by (field; lra).
    rewrite cos_acos, sin_acos by lra. rewrite Hs, Rabs_right by lra. repeat split; auto.
    + apply Rmult_le_pos; [lra|left; apply Rinv_0_lt_compat; lra].
    + apply (Rmult_lt_reg_r (2 * PI)); [lra|]. unfold Rdiv. rewrite Rmult_assoc, Rinv_l by lra. lra.
  - exists (1 - acos c / (2 * PI)). replace (2 * PI * (1 - acos c / (2 * PI))) with (- acos c + 2 * PI) by (field; lra).
    rewrite cos_plus, sin_plus, cos_2PI, sin_2PI, cos_neg, sin_neg.
    rewrite cos_acos, sin_acos by lra. rewrite Hs, Rabs_left by lra.
    assert (0 < acos c).
    { destruct (Req_dec (acos c) 0) as [Z|]; [|lra]. exfalso.
      pose proof (sin_acos c Hc) as Q. rewrite Z, sin_0, Hs, Rabs_left in Q; lra. }
    assert (0 < acos c / (2 * PI)) by (apply Rmult_lt_0_compat; [lra|apply Rinv_0_lt_compat; lra]).
    assert (acos c / (2 * PI) <= 1).
    { apply (Rmult_le_reg_r (2 * PI)); [lra|]. unfold Rdiv. rewrite Rmult_assoc, Rinv_l by lra. lra. }
    repeat split; lra.
Qed.
Lemma reachable v : unit3 v -> vz v <> -1 -> exists u1 u2, unit_draw u1 /\ unit_draw u2 /\ uniform_dir u1 u2 = v.
Proof.
  intros U Hz. destruct v as [x y z]. unfold unit3, dot in U. cbn in U, Hz.
  assert (Hz1 : -1 < z <= 1) by nra.
  set (q := sqrt (1 - z * z)).
  assert (Hq : q * q = 1 - z * z) by (apply sqrt_sqrt; nra).
  assert (Hq0 : 0 <= q) by apply sqrt_pos.
  assert (Hx : x * x + y * y = q * q) by lra.
  destruct (Req_dec q 0) as [Q|Q].
  - assert (x = 0) by nra. assert (y = 0) by nra. subst x y.
    exists 0, ((1 - z) / 2). repeat split; try lra.
    unfold uniform_dir. cbv zeta. replace (1 - 2 * ((1 - z) / 2)) with z by field.
    fold q. rewrite Q. f_equal; ring.
  - destruct (angle_exists (x / q) (y / q)) as [u1 [D [C Sn]]].
    { replace (x / q * (x / q) + y / q * (y / q)) with ((x * x + y * y) / (q * q)) by (field; exact Q).
      rewrite Hx. field. exact Q. }
    exists u1, ((1 - z) / 2). split; [exact D|]. split; [split; lra|].
    unfold uniform_dir. cbv zeta. replace (1 - 2 * ((1 - z) / 2)) with z by field.
    fold q. rewrite C, Sn. f_equal; field; exact Q.
Qed.
Lemma south_unreachable u1 u2 : unit_draw u2 -> vz (uniform_dir u1 u2) <> -1.
Proof. intros [A B]. cbn. lra. Qed.

(** ** Proposals cover equal areas: the map (u1,u2) -> direction has constant surface element *)
Lemma uniform_dir_area u1 u2 : 0 < u2 < 1 ->
  exists a b, has_velocity (fun x => uniform_dir x u2) u1 a /\ has_velocity (fun x => uniform_dir u1 x) u2 b /\
    cross a b = vscale (- (4 * PI)) (uniform_dir u1 u2) /\ norm (cross a b) = 4 * PI.
Proof.
  intro H. pose proof PI_RGT_0 as HP.
  set (q := sqrt (1 - (1 - 2 * u2) * (1 - 2 * u2))).
  assert (Hq : q * q = 1 - (1 - 2 * u2) * (1 - 2 * u2)) by (apply sqrt_sqrt; nra).
  assert (Hq0 : 0 < q) by (apply sqrt_lt_R0; nra).
  set (c := cos (2 * PI * u1)). set (sn := sin (2 * PI * u1)).
  set (q' := 2 * (1 - 2 * u2) / q).
  assert (Dq : derivable_pt_lim (fun x => sqrt (1 - (1 - 2 * x) * (1 - 2 * x))) u2 q').
  { assert (D : derivable_pt_lim (fun x => 1 - (1 - 2 * x) * (1 - 2 * x)) u2 (4 * (1 - 2 * u2))).
    { replace (4 * (1 - 2 * u2)) with (0 - ((0 - 2 * 1) * (1 - 2 * u2) + (1 - 2 * u2) * (0 - 2 * 1))) by ring.
      apply (derivable_pt_lim_minus (fct_cte 1) (fun x => (1 - 2 * x) * (1 - 2 * x))); [apply derivable_pt_lim_const|].
      apply (derivable_pt_lim_mult (fun x => 1 - 2 * x) (fun x => 1 - 2 * x));
      apply (derivable_pt_lim_minus (fct_cte 1) (fun x => 2 * x));
        first [apply derivable_pt_lim_const | apply (derivable_pt_lim_scal id 2), derivable_pt_lim_id]. }
    replace q' with (/ (2 * q) * (4 * (1 - 2 * u2))) by (unfold q'; field; lra).
    apply (derivable_pt_lim_comp (fun x => 1 - (1 - 2 * x) * (1 - 2 * x)) sqrt); [exact D|].
    apply derivable_pt_lim_sqrt. nra. }
  assert (Dl : derivable_pt_lim (fun x => 2 * PI * x) u1 (2 * PI)).
  { pose proof (derivable_pt_lim_scal id (2 * PI) u1 1 (derivable_pt_lim_id u1)) as Q.
    rewrite Rmult_1_r in Q. exact Q. }
  assert (Dc : derivable_pt_lim (fun x => cos (2 * PI * x)) u1 (- sn * (2 * PI))).
  { apply (derivable_pt_lim_comp (fun x => 2 * PI * x) cos); [exact Dl|apply derivable_pt_lim_cos]. }
  assert (Ds : derivable_pt_lim (fun x => sin (2 * PI * x)) u1 (c * (2 * PI))).
  { apply (derivable_pt_lim_comp (fun x => 2 * PI * x) sin); [exact Dl|apply derivable_pt_lim_sin]. }
  assert (K : cross (mk3 (q * (- sn * (2 * PI))) (q * (c * (2 * PI))) 0) (mk3 (q' * c) (q' * sn) (-2))
              = vscale (- (4 * PI)) (uniform_dir u1 u2)).
  { unfold cross, vscale, uniform_dir. cbv zeta. cbn [vx vy vz]. fold q c sn.
    assert (E : sn * sn + c * c = 1) by (pose proof (sin2_cos2 (2 * PI * u1)) as E; unfold Rsqr in E; exact E).
    assert (E2 : q * q' = 2 * (1 - 2 * u2)) by (unfold q'; field; lra).
    f_equal; try ring.
    replace (q * (- sn * (2 * PI)) * (q' * sn) - q * (c * (2 * PI)) * (q' * c))
      with (- (2 * PI) * (q * q') * (sn * sn + c * c)) by ring.
    rewrite E, E2. ring. }
  exists (mk3 (q * (- sn * (2 * PI))) (q * (c * (2 * PI))) 0), (mk3 (q' * c) (q' * sn) (-2)).
  split; [|split; [|split]].
  - unfold has_velocity, uniform_dir. cbv zeta. cbn [vx vy vz]. fold q. split; [|split].
    + apply (derivable_pt_lim_scal (fun x => cos (2 * PI * x)) q). exact Dc.
    + apply (derivable_pt_lim_scal (fun x => sin (2 * PI * x)) q). exact Ds.
    + apply derivable_pt_lim_const.
  - unfold has_velocity, uniform_dir. cbv zeta. cbn [vx vy vz]. fold c sn. split; [|split].
    + replace (q' * c) with (q' * c + q * 0) by ring.
      apply (derivable_pt_lim_mult (fun x => sqrt (1 - (1 - 2 * x) * (1 - 2 * x))) (fct_cte c)); [exact Dq|apply derivable_pt_lim_const].
    + replace (q' * sn) with (q' * sn + q * 0) by ring.
      apply (derivable_pt_lim_mult (fun x => sqrt (1 - (1 - 2 * x) * (1 - 2 * x))) (fct_cte sn)); [exact Dq|apply derivable_pt_lim_const].
    + replace (-2) with (0 - 2 * 1) by ring.
      apply (derivable_pt_lim_minus (fct_cte 1) (fun x => 2 * x));
        [apply derivable_pt_lim_const | apply (derivable_pt_lim_scal id 2), derivable_pt_lim_id].
  - exact K.
  - rewrite K. assert (U : unit3 (uniform_dir u1 u2)) by (apply uniform_dir_unit; split; lra).
    unfold norm, unit3 in *. replace (dot (vscale (- (4 * PI)) (uniform_dir u1 u2)) (vscale (- (4 * PI)) (uniform_dir u1 u2)))
      with ((4 * PI) * (4 * PI)).
    + apply sqrt_square. lra.
    + replace (dot (vscale _ _) _) with ((4 * PI) * (4 * PI) * dot (uniform_dir u1 u2) (uniform_dir u1 u2))
        by (unfold dot, vscale; cbn [vx vy vz]; ring). rewrite U. ring.
Qed.
