(** Means over the draws of SpinChain::new: one step of the construction. *)
From Coq Require Import Reals Lra Lia List ZArith Arith FunctionalExtensionality.
From Verif Require Import Num Monad NumR Spin Config Chain SpecVec SpecChain SpecMC SpecMean SpecNewMean ProofsSpin ProofsNew ProofsEnergy ProofsFFT ProofsMean ProofsMean2 ProofsMean3.
Import ListNotations.
Local Open Scope R_scope.

(** ** Integrals over [0,1] *)
Lemma grid_integral1 f F : (forall x, 0 <= x <= 1 -> continuity_pt f x) -> (forall x, 0 <= x <= 1 -> derivable_pt_lim F x (f x)) ->
  Un_cv (fun N => lmean (grid (S N)) f) (F 1 - F 0).
Proof.
  intros Hc Hd eps He. destruct (@Heine_cor2 f 0 1 Hc (mkposreal (eps / 2) ltac:(lra))) as (d & D). cbn in D.
  destruct (archimed_cor1 d (cond_pos d)) as (N0 & H0 & H1). exists N0. intros N HN. unfold R_dist.
  set (a := INR (S N)). assert (a1 : 1 <= a) by (unfold a; change 1 with (INR 1); apply le_INR; lia).
  assert (ad : / a < d) by (eapply Rle_lt_trans; [|exact H0]; apply Rinv_le_contravar; [apply lt_0_INR; lia|apply le_INR; lia]).
  assert (Ia : 0 < / a) by (apply Rinv_0_lt_compat; lra).
  assert (T : Rabs (fold_right (fun u s => f u + s) 0 (map (fun k => (INR k + 1 / 2) / a) (seq 0 (S N))) - (a * F (INR (S N) / a) - a * F (INR 0 / a))) <= INR (S N) * (eps / 2)).
  { apply (fold_telescope f (fun k => a * F (INR k / a)) a (eps / 2) (S N)). intros k Hk.
    assert (lt : INR k / a < INR (S k) / a) by (unfold Rdiv; apply Rmult_lt_compat_r; [exact Ia|rewrite S_INR; lra]).
    assert (k1 : INR k + 1 <= a) by (rewrite <- S_INR; unfold a; apply le_INR; lia). pose proof (pos_INR k).
    assert (U : (INR k + 1) * / a <= 1) by (apply Rmult_le_reg_r with a; [lra|]; rewrite Rmult_assoc, Rinv_l by lra; lra).
    assert (V : 0 <= INR k * / a) by (apply Rmult_le_pos; lra).
    assert (I : forall x, INR k / a <= x <= INR (S k) / a -> 0 <= x <= 1) by (intros x; rewrite S_INR; unfold Rdiv; lra).
    destruct (MVT_cor2 F f (INR k / a) (INR (S k) / a) lt (fun x Hx => Hd x (I x Hx))) as (xi & E & X1 & X2). rewrite <- Rmult_minus_distr_l, E, S_INR.
    replace (a * (f xi * ((INR k + 1) / a - INR k / a))) with (f xi) by (field; lra).
    rewrite S_INR in X2. unfold Rdiv in X1, X2 |- *.
    left. apply D; [split; nra|split; lra|]. apply Rabs_def1; nra. }
  unfold lmean. rewrite grid_length. unfold grid. fold a. replace (INR (S N) / a) with 1 in T by (unfold a; field; fold a; lra). replace (INR 0 / a) with 0 in T by (cbn [INR]; unfold Rdiv; ring). fold a in T.
  set (X := fold_right _ _ _) in *. replace (X / a - (F 1 - F 0)) with ((X - (a * F 1 - a * F 0)) * / a) by (field; lra). rewrite Rabs_mult, (Rabs_pos_eq (/ a)) by lra.
  apply Rle_lt_trans with (a * (eps / 2) * / a); [apply Rmult_le_compat_r; [lra|exact T]|]. replace (a * (eps / 2) * / a) with (eps / 2) by (field; lra). lra.
Qed.

(** ** The drawn cosine *)
Definition zz (b u : R) : R := exp b - u * (exp b - exp (- b)).
Definition cz (b u : R) : R := ln (zz b u) / b.
Lemma zz_pos b u : 0 <= u <= 1 -> 0 < zz b u.
Proof. intros H. exact (proj1 (boltz_arg b u H)). Qed.
Lemma cz_range b u : b <> 0 -> 0 <= u <= 1 -> -1 <= cz b u <= 1.
Proof. intros Hb H. exact (proj2 (boltz_arg b u H) Hb). Qed.
Lemma span b : b <> 0 -> exp b - exp (- b) <> 0.
Proof. intros Hb Z. assert (E : exp b = exp (- b)) by lra. apply exp_inv in E. lra. Qed.
Lemma cz_inj b u v : b <> 0 -> 0 <= u <= 1 -> 0 <= v <= 1 -> cz b u = cz b v -> u = v.
Proof.
  intros Hb Hu Hv E. unfold cz in E. assert (L : ln (zz b u) = ln (zz b v)) by (apply Rmult_eq_reg_r with (/ b); [exact E|apply Rinv_neq_0_compat; exact Hb]).
  apply ln_inv in L; [|apply zz_pos; assumption..]. unfold zz in L. pose proof (span b Hb). nra.
Qed.
Lemma cz_mean b : b <> 0 -> Un_cv (fun N => lmean (grid (S N)) (cz b)) (langevin b).
Proof.
  intros Hb. pose proof (span b Hb) as Sp. set (D := exp b - exp (- b)) in *.
  set (F := fun u => - (zz b u * (ln (zz b u) - 1)) / (D * b)).
  replace (langevin b) with (F 1 - F 0).
  2: { unfold F, zz, langevin. replace (exp b - 1 * (exp b - exp (- b))) with (exp (- b)) by ring. replace (exp b - 0 * (exp b - exp (- b))) with (exp b) by ring. rewrite !ln_exp. fold D.
       unfold D. field. split; [exact Hb|exact Sp]. }
  assert (Dz : forall x, derivable_pt_lim (zz b) x (- D)).
  { intros x. unfold zz. fold D. replace (- D) with (0 - (1 * D + x * 0)) by ring.
    apply (derivable_pt_lim_minus (fun _ => exp b) (fun u => u * D) x 0 (1 * D + x * 0)); [apply derivable_pt_lim_const|]. apply (derivable_pt_lim_mult id (fun _ => D)); [apply derivable_pt_lim_id|apply derivable_pt_lim_const]. }
  assert (Dl : forall x, 0 <= x <= 1 -> derivable_pt_lim (fun u => ln (zz b u)) x (/ zz b x * - D)).
  { intros x Hx. apply (derivable_pt_lim_comp (zz b) ln); [apply Dz|]. apply derivable_pt_lim_ln. apply zz_pos. exact Hx. }
  apply grid_integral1.
  - intros x Hx. apply derivable_continuous_pt. exists (/ zz b x * - D * / b + ln (zz b x) * 0).
    apply (derivable_pt_lim_mult (fun u => ln (zz b u)) (fun _ => / b)); [apply Dl; exact Hx|apply derivable_pt_lim_const].
  - intros x Hx. unfold F. pose proof (zz_pos b x Hx) as Pz.
    replace (cz b x) with (- (- D * (ln (zz b x) - 1) + zz b x * (/ zz b x * - D - 0)) * / (D * b) + - (zz b x * (ln (zz b x) - 1)) * 0).
    2: { unfold cz. field. repeat split; try assumption; lra. }
    apply (derivable_pt_lim_mult (fun u => - (zz b u * (ln (zz b u) - 1))) (fun _ => / (D * b))); [|apply derivable_pt_lim_const].
    apply (derivable_pt_lim_opp (fun u => zz b u * (ln (zz b u) - 1))).
    apply (derivable_pt_lim_mult (zz b) (fun u => ln (zz b u) - 1)); [apply Dz|].
    apply (derivable_pt_lim_minus (fun u => ln (zz b u)) (fun _ => 1)); [apply Dl; exact Hx|apply derivable_pt_lim_const].
Qed.

(** ** The grids *)
Lemma Rsum_rev : forall n f, Rsum n f = Rsum n (fun i => f (n - 1 - i)%nat).
Proof.
  induction n as [|n IH]; intros f; [reflexivity|]. rewrite (Rsum_first n (fun i => f (S n - 1 - i)%nat)). cbn [Rsum]. rewrite (IH f), Rplus_comm. f_equal; [f_equal; lia|]. apply Rsum_ext. intros i Hi. f_equal. lia.
Qed.
Lemma lmean_grid N f : lmean (grid N) f = Rsum N (fun k => f ((INR k + 1 / 2) / INR N)) / INR N.
Proof.
  unfold lmean. rewrite grid_length. f_equal. rewrite Rsum_list. unfold grid. generalize (seq 0 N) as l. induction l as [|k l IH]; [reflexivity|]. cbn [map fold_right]. rewrite IH. reflexivity.
Qed.
Lemma grid_flip N f : lmean (grid N) f = lmean (grid N) (fun u => f (1 - u)).
Proof.
  destruct N as [|N]; [reflexivity|]. rewrite !lmean_grid. f_equal. rewrite Rsum_rev. apply Rsum_ext. intros i Hi. f_equal.
  replace (S N - 1 - i)%nat with (N - i)%nat by lia. rewrite minus_INR, S_INR by lia. pose proof (pos_INR N). field. lra.
Qed.
(** half a turn on an even grid *)
Lemma grid_half m f : (1 <= m)%nat -> (forall u, f (u + 1 / 2) = - f u) -> lmean (grid (2 * m)) f = 0.
Proof.
  intros Hm Hf. rewrite lmean_grid. replace (2 * m)%nat with (m + m)%nat by lia. rewrite Rsum_split.
  rewrite (Rsum_ext m (fun i => f ((INR (m + i) + 1 / 2) / INR (m + m))) (fun i => - f ((INR i + 1 / 2) / INR (m + m)))).
  - rewrite Rsum_opp. unfold Rdiv. ring.
  - intros i Hi. rewrite <- Hf. f_equal. rewrite !plus_INR. assert (0 < INR m) by (apply lt_0_INR; lia). field. lra.
Qed.
(** points of the grid picked out by one number *)
Definition ind (P : bool) : R := if P then 1 else 0.
Lemma grid_one N (P : R -> bool) : (1 <= N)%nat -> (forall u v, In u (grid N) -> In v (grid N) -> P u = true -> P v = true -> u = v) -> lmean (grid N) (fun u => ind (P u)) <= / INR N.
Proof.
  intros HN H. assert (H0 : 0 < INR N) by (apply lt_0_INR; lia). unfold lmean. rewrite grid_length.
  assert (K : fold_right (fun a s => ind (P a) + s) 0 (grid N) <= 1).
  { assert (ND : NoDup (grid N)).
    { unfold grid. apply FinFun.Injective_map_NoDup; [|apply seq_NoDup]. intros i j E. apply INR_eq.
      apply Rmult_eq_reg_r with (/ INR N); [|apply Rinv_neq_0_compat; lra]. unfold Rdiv in E. lra. }
    revert H ND. generalize (grid N) as l. induction l as [|a l IH]; intros H ND; cbn [fold_right]; [lra|]. inversion ND as [|? ? Na Nl]; subst.
    destruct (P a) eqn:Pa; unfold ind at 1.
    - assert (Z : fold_right (fun a s => ind (P a) + s) 0 l = 0).
      { assert (Q : forall v, In v l -> P v = false). { intros v Iv. destruct (P v) eqn:Pv; [|reflexivity]. exfalso. apply Na. rewrite (H a v); auto; [left; reflexivity|right; exact Iv]. }
        clear - Q. induction l as [|v l IH]; [reflexivity|]. cbn [fold_right]. rewrite (Q v) by (left; reflexivity). rewrite IH by (intros w Iw; apply Q; right; exact Iw). unfold ind. ring. }
      rewrite Z. lra.
    - specialize (IH (fun u v Iu Iv => H u v (or_intror Iu) (or_intror Iv)) Nl). lra. }
  unfold Rdiv. rewrite <- (Rmult_1_l (/ INR N)) at 2. apply Rmult_le_compat_r; [left; apply Rinv_0_lt_compat; exact H0|exact K].
Qed.
