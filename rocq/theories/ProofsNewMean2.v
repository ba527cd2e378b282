(** Means over the draws of SpinChain::new: the walk of directions. *)
From Coq Require Import Reals Lra Lia List ZArith Arith FunctionalExtensionality.
From Verif Require Import Num Monad NumR Spin Config Chain SpecVec SpecChain SpecMC SpecMean SpecNewMean ProofsSpin ProofsNew ProofsEnergy ProofsMean ProofsMean2 ProofsMean3 ProofsNewMean.
Import ListNotations.
Local Open Scope R_scope.

Definition rd (a : R * R) : vec := dirn (2 * PI * fst a) (acos (1 - 2 * snd a)).
Definition deg (s r : vec) : bool := if Req_EM_T (dot (cross s r) (cross s r)) 0 then true else false.
Definition side (s r : vec) : vec := if deg s r then vzero else cross (nrm (gs_sub s r)) s.
Definition walk (b : R) (s : vec) (a : R * R * R) : vec := vadd (vscale (cz b (snd a)) s) (vscale (sin (acos (cz b (snd a)))) (side s (rd (fst a)))).
Definition flat (v : vec) : bool := if Req_EM_T (vx v) 0 then true else false.
Definition good (b : R) (s : vec) (a : R * R * R) : bool := negb (deg s (rd (fst a))) && negb (flat (walk b s a)).

Lemma deg_true s r : deg s r = true <-> cross s r = vzero.
Proof.
  unfold deg. destruct (Req_EM_T _ 0) as [E|E]; split; intros H; auto; try discriminate.
  - apply dot_zero. exact E.
  - exfalso. apply E. rewrite H. unfold dot. cbn. ring.
Qed.
Lemma deg_false s r : deg s r = false <-> cross s r <> vzero.
Proof. rewrite <- deg_true. destruct (deg s r); split; congruence. Qed.
Lemma flat_true v : flat v = true <-> vx v = 0.
Proof. unfold flat. destruct (Req_EM_T _ 0); split; congruence. Qed.
Lemma walk_rodr b s a : unit3 s -> deg s (rd (fst a)) = false -> 0 <= snd a <= 1 -> b <> 0 ->
  walk b s a = rodr s (nrm (gs_sub s (rd (fst a)))) (- acos (cz b (snd a))).
Proof.
  intros Us D Hu Hb. unfold walk, side. rewrite D. pose proof (unit3_nonzero _ Us) as Z. set (p := gs_sub s (rd (fst a))).
  assert (O : dot s (nrm p) = 0). { rewrite dot_nrm. replace (dot s p) with 0 by (rewrite dot_comm; symmetry; apply gs_sub_orth; exact Z). unfold Rdiv. ring. }
  unfold rodr. rewrite O, cos_neg, sin_neg, cos_acos by (apply cz_range; assumption). apply v3_ext; cbn; ring.
Qed.
Lemma walk_unit b s a : unit3 s -> deg s (rd (fst a)) = false -> 0 <= snd a <= 1 -> b <> 0 -> unit3 (walk b s a).
Proof.
  intros Us D Hu Hb. rewrite walk_rodr by assumption. apply rodr_unit; [|exact Us]. apply nrm_unit. apply gs_sub_nonzero; [apply unit3_nonzero; exact Us|apply deg_false; exact D].
Qed.
Lemma side_opp s r : side s (vscale (-1) r) = vscale (-1) (side s r).
Proof.
  unfold side. assert (E : deg s (vscale (-1) r) = deg s r).
  { unfold deg. replace (dot (cross s (vscale (-1) r)) (cross s (vscale (-1) r))) with (dot (cross s r) (cross s r)) by (unfold dot, cross, vscale; cbn; ring). reflexivity. }
  rewrite E. destruct (deg s r); [apply v3_ext; cbn; ring|].
  assert (G : gs_sub s (vscale (-1) r) = vscale (-1) (gs_sub s r)) by (unfold gs_sub; apply v3_ext; unfold dot; cbn; unfold Rdiv; ring).
  assert (Nn : forall v, norm (vscale (-1) v) = norm v) by (intros v; unfold norm; f_equal; unfold dot; cbn; ring).
  rewrite G. unfold nrm. rewrite Nn. apply v3_ext; cbn; unfold Rdiv; ring.
Qed.
Lemma rd_half u1 u2 : rd (u1 + 1 / 2, 1 - u2) = vscale (-1) (rd (u1, u2)).
Proof.
  unfold rd, dirn. cbn [fst snd]. replace (1 - 2 * (1 - u2)) with (- (1 - 2 * u2)) by ring. rewrite acos_opp.
  replace (2 * PI * (u1 + 1 / 2)) with (2 * PI * u1 + PI) by field. rewrite neg_cos, neg_sin.
  replace (sin (PI - acos (1 - 2 * u2))) with (sin (acos (1 - 2 * u2))) by (rewrite <- sin_PI_x; reflexivity).
  replace (cos (PI - acos (1 - 2 * u2))) with (- cos (acos (1 - 2 * u2))).
  2: { replace (PI - acos (1 - 2 * u2)) with (- acos (1 - 2 * u2) + PI) by ring. rewrite neg_cos, cos_neg. reflexivity. }
  apply v3_ext; cbn; ring.
Qed.
Lemma side_mean m s w : (1 <= m)%nat -> lmean (grid2 (2 * m)) (fun a => dot (side s (rd a)) w) = 0.
Proof.
  intros Hm. unfold grid2. rewrite lmean_prod by (apply grid_not_nil; lia).
  apply (grid_half m (fun u1 => lmean (grid (2 * m)) (fun u2 => dot (side s (rd (u1, u2))) w)) Hm). intros u1.
  rewrite grid_flip. replace (- lmean (grid (2 * m)) (fun u2 => dot (side s (rd (u1, u2))) w)) with (-1 * lmean (grid (2 * m)) (fun u2 => dot (side s (rd (u1, u2))) w)) by ring.
  rewrite <- lmean_scale. apply lmean_ext. intros u2 _. rewrite rd_half, side_opp. unfold dot. cbn. ring.
Qed.
Lemma grid3_mean N F : (1 <= N)%nat -> lmean (grid3 N) F = lmean (grid2 N) (fun a => lmean (grid N) (fun u => F (a, u))).
Proof. intros HN. unfold grid3. rewrite lmean_prod by (apply grid_not_nil; lia). reflexivity. Qed.
Lemma walk_mean b m s w : (1 <= m)%nat -> lmean (grid3 (2 * m)) (fun a => dot (walk b s a) w) = lmean (grid (2 * m)) (cz b) * dot s w.
Proof.
  intros Hm. rewrite grid3_mean by lia.
  rewrite (lmean_ext _ _ (fun a => lmean (grid (2 * m)) (cz b) * dot s w + lmean (grid (2 * m)) (fun u => sin (acos (cz b u))) * dot (side s (rd a)) w)).
  - rewrite lmean_plus. rewrite (lmean_scale (grid2 (2 * m)) _ (fun a => dot (side s (rd a)) w)), side_mean by exact Hm. rewrite lmean_const by (apply grid2_not_nil; lia). ring.
  - intros a _. rewrite (Rmult_comm (lmean _ (cz b))), (Rmult_comm (lmean _ (fun u => sin (acos (cz b u))))), <- !lmean_scale, <- lmean_plus. apply lmean_ext. intros u _.
    unfold walk. cbn [fst snd]. unfold dot. cbn. ring.
Qed.

(** ** Draws for which the next direction is not defined *)
Lemma cross_parallel s r : unit3 s -> unit3 r -> cross s r = vzero -> vz r = vz s \/ vz r = - vz s.
Proof.
  unfold unit3, dot, cross, vzero. destruct s as [a b c], r as [x y z]; cbn. intros Us Ur E. injection E; intros E3 E2 E1.
  assert (Q : (z - c) * (z + c) = 0).
  { assert (K : z * z * (a * a + b * b + c * c) = c * c * (x * x + y * y + z * z)).
    { assert (A : a * z = c * x) by lra. assert (B : b * z = c * y) by lra. replace (z * z * (a * a + b * b + c * c)) with ((a * z) * (a * z) + (b * z) * (b * z) + c * c * z * z) by ring. rewrite A, B. ring. }
    rewrite Us, Ur in K. lra. }
  apply Rmult_integral in Q. destruct Q; [left|right]; lra.
Qed.
Lemma rd_unit a : unit3 (rd a). Proof. apply dirn_unit. Qed.
Lemma rd_z a : unit_draw (snd a) -> vz (rd a) = 1 - 2 * snd a.
Proof. intros H. unfold unit_draw in H. unfold rd, dirn. cbn [vz]. apply cos_acos. lra. Qed.
Lemma deg_few N s : (1 <= N)%nat -> unit3 s -> lmean (grid2 N) (fun a => ind (deg s (rd a))) <= 2 * / INR N.
Proof.
  intros HN Us. unfold grid2. rewrite lmean_prod by (apply grid_not_nil; lia). rewrite <- (lmean_const (grid N) (2 * / INR N)) by (apply grid_not_nil; lia).
  apply lmean_le. intros u1 I1. cbn [fst snd].
  set (P := fun c u2 => if Req_EM_T (1 - 2 * u2) c then true else false).
  assert (One : forall c, lmean (grid N) (fun u => ind (P c u)) <= / INR N).
  { intros c. apply grid_one; [exact HN|]. intros u v _ _ Pu Pv. unfold P in *. destruct (Req_EM_T (1 - 2 * u) c), (Req_EM_T (1 - 2 * v) c); try discriminate. lra. }
  apply Rle_trans with (lmean (grid N) (fun u => ind (P (vz s) u)) + lmean (grid N) (fun u => ind (P (- vz s) u))).
  - rewrite <- lmean_plus. apply lmean_le. intros u2 I2. apply grid_unit in I2. pose proof (rd_z (u1, u2) ltac:(unfold unit_draw; cbn; lra)) as Ez. cbn [snd] in Ez.
    destruct (deg s (rd (u1, u2))) eqn:D; [|unfold ind; destruct (P (vz s) u2), (P (- vz s) u2); lra].
    apply deg_true in D. destruct (cross_parallel s (rd (u1, u2)) Us (rd_unit _) D) as [E|E]; rewrite Ez in E; unfold P, ind.
    + destruct (Req_EM_T (1 - 2 * u2) (vz s)); [|contradiction]. destruct (if Req_EM_T (1 - 2 * u2) (- vz s) then true else false); lra.
    + destruct (Req_EM_T (1 - 2 * u2) (- vz s)); [|contradiction]. destruct (if Req_EM_T (1 - 2 * u2) (vz s) then true else false); lra.
  - pose proof (One (vz s)). pose proof (One (- vz s)). lra.
Qed.
Lemma flat_few b N s a : (1 <= N)%nat -> b <> 0 -> vx s <> 0 -> lmean (grid N) (fun u => ind (flat (walk b s (a, u)))) <= / INR N.
Proof.
  intros HN Hb Hx. apply grid_one; [exact HN|]. intros u v Iu Iv Fu Fv. apply flat_true in Fu, Fv. apply grid_unit in Iu, Iv.
  pose proof (cz_range b u Hb ltac:(lra)) as Ru. pose proof (cz_range b v Hb ltac:(lra)) as Rv.
  unfold walk in Fu, Fv. cbn [fst snd vadd vscale vx] in Fu, Fv. set (q := vx (side s (rd a))) in *.
  set (A := acos (cz b u)) in *. set (B := acos (cz b v)) in *.
  assert (CA : cos A = cz b u) by (apply cos_acos; lra). assert (CB : cos B = cz b v) by (apply cos_acos; lra). rewrite <- CA in Fu. rewrite <- CB in Fv.
  pose proof (acos_bound (cz b u)) as BA. pose proof (acos_bound (cz b v)) as BB. fold A in BA. fold B in BB.
  assert (Sn : sin (B - A) = 0).
  { rewrite sin_minus. apply Rmult_eq_reg_l with (vx s); [|exact Hx]. rewrite Rmult_0_r.
    replace (vx s * (sin B * cos A - cos B * sin A)) with (sin B * (cos A * vx s + sin A * q) - sin A * (cos B * vx s + sin B * q)) by ring. rewrite Fu, Fv. ring. }
  assert (AB : A = B).
  { destruct (Req_dec A B) as [E|E]; [exact E|exfalso]. pose proof PI_RGT_0.
    destruct (Rtotal_order A B) as [L|[L|L]]; [|contradiction|].
    - destruct (Rlt_dec (B - A) PI) as [Q|Q]; [pose proof (sin_gt_0 (B - A) ltac:(lra) Q); lra|].
      assert (A0 : A = 0) by lra. rewrite A0, sin_0, cos_0 in Fu. lra.
    - assert (Sn' : sin (A - B) = 0) by (replace (A - B) with (- (B - A)) by ring; rewrite sin_neg, Sn; ring).
      destruct (Rlt_dec (A - B) PI) as [Q|Q]; [pose proof (sin_gt_0 (A - B) ltac:(lra) Q); lra|].
      assert (B0 : B = 0) by lra. rewrite B0, sin_0, cos_0 in Fv. lra. }
  apply (cz_inj b u v Hb); [lra|lra|]. rewrite <- CA, <- CB, AB. reflexivity.
Qed.
Lemma bad_few b N s : (1 <= N)%nat -> b <> 0 -> unit3 s -> vx s <> 0 -> lmean (grid3 N) (fun a => ind (negb (good b s a))) <= 3 / INR N.
Proof.
  intros HN Hb Us Hx. rewrite grid3_mean by exact HN.
  apply Rle_trans with (lmean (grid2 N) (fun a => ind (deg s (rd a)) + lmean (grid N) (fun u => ind (flat (walk b s (a, u)))))).
  - apply lmean_le. intros a _. rewrite <- (lmean_const (grid N) (ind (deg s (rd a)))) by (apply grid_not_nil; exact HN). rewrite <- lmean_plus. apply lmean_le. intros u _.
    unfold good. cbn [fst]. destruct (deg s (rd a)), (flat (walk b s (a, u))); cbn; unfold ind; lra.
  - rewrite lmean_plus. pose proof (deg_few N s HN Us).
    assert (lmean (grid2 N) (fun a => lmean (grid N) (fun u => ind (flat (walk b s (a, u))))) <= / INR N).
    { rewrite <- (lmean_const (grid2 N) (/ INR N)) by (apply grid2_not_nil; exact HN). apply lmean_le. intros a _. apply flat_few; assumption. }
    unfold Rdiv. lra.
Qed.
