(** The mean energy and the inverse temperature, in the limit of fine grids (C83). *)
From Coq Require Import Reals List ZArith Lra Lia Arith Psatz.
From Verif Require Import Num Monad NumR Config Chain Fit SpecVec SpecChain SpecMC SpecFit SpecSampling SpecMean ProofsMean ProofsMean2 ProofsMean3 ProofsFalls.
Import ListNotations.
Local Open Scope R_scope.

Lemma cv_le (u w : nat -> R) a b : (forall N, u N <= w N) -> Un_cv u a -> Un_cv w b -> a <= b.
Proof.
  intros L Hu Hw. apply Rnot_lt_le. intros C. set (e := (a - b) / 3). assert (0 < e) by (unfold e; lra).
  destruct (Hu e ltac:(lra)) as [N1 H1]. destruct (Hw e ltac:(lra)) as [N2 H2]. specialize (H1 (max N1 N2) ltac:(lia)). specialize (H2 (max N1 N2) ltac:(lia)).
  unfold R_dist in *. apply Rabs_def2 in H1. apply Rabs_def2 in H2. specialize (L (max N1 N2)). unfold e in *. lra.
Qed.
Lemma cv_le_from (u w : nat -> R) a b N0 : (forall N, (N0 <= N)%nat -> u N <= w N) -> Un_cv u a -> Un_cv w b -> a <= b.
Proof.
  intros L Hu Hw. apply Rnot_lt_le. intros C. set (e := (a - b) / 3). assert (0 < e) by (unfold e; lra).
  destruct (Hu e ltac:(lra)) as [N1 H1]. destruct (Hw e ltac:(lra)) as [N2 H2]. specialize (H1 (max N0 (max N1 N2)) ltac:(lia)). specialize (H2 (max N0 (max N1 N2)) ltac:(lia)).
  unfold R_dist in *. apply Rabs_def2 in H1. apply Rabs_def2 in H2. specialize (L (max N0 (max N1 N2)) ltac:(lia)). unfold e in *. lra.
Qed.
Lemma cv_const k : Un_cv (fun _ => k) k.
Proof. intros e He. exists 0%nat. intros. unfold R_dist. rewrite Rminus_diag_eq, Rabs_R0 by reflexivity. exact He. Qed.
Lemma cv_abs (u : nat -> R) a : Un_cv u a -> Un_cv (fun N => Rabs (u N)) (Rabs a).
Proof. intros H e He. destruct (H e He) as [N0 H0]. exists N0. intros N HN. unfold R_dist in *. eapply Rle_lt_trans; [apply Rabs_triang_inv2|]. apply H0, HN. Qed.

Section Chain.
Context (n : nat) (H : chain R -> R) (c : chain R).
Notation at_ x := (at_dirs c n x).
Notation bound g M := (forall x, in_cube x -> Rabs (g (at_ x)) <= M).
Lemma on_grid N (g : chain R -> R) M : bound g M -> forall x, (forall i, (i < n)%nat -> In (x i) (grid2 N)) -> Rabs (g (at_ x)) <= M.
Proof. intros B x Hx. rewrite <- cube_dirs. apply B. eapply cube_in. exact Hx. Qed.
Lemma is_av b g v : is_boltzmann_avg n b H c (fun _ => g) v <-> Un_cv (fun N => av (0, 0) (grid2 (S N)) n (fun x => H (at_ x)) b (fun x => g (at_ x))) v.
Proof. reflexivity. Qed.

Lemma avg_falls b1 b2 v1 v2 : b1 <= b2 -> is_boltzmann_avg n b1 H c (fun _ => H) v1 -> is_boltzmann_avg n b2 H c (fun _ => H) v2 -> v2 <= v1.
Proof. intros Hb H1 H2. eapply cv_le; [|exact H2|exact H1]. intros N. apply (av_falls (0, 0) (grid2 (S N)) n (grid2_not_nil _ (le_n_S _ _ (Nat.le_0_l N)))). exact Hb. Qed.
Lemma avg_slope g M B b1 b2 v1 v2 : bound H M -> bound g B -> is_boltzmann_avg n b1 H c (fun _ => g) v1 -> is_boltzmann_avg n b2 H c (fun _ => g) v2 ->
  Rabs (v1 - v2) <= 4 * M * B * Rabs (b1 - b2).
Proof.
  intros HM HB H1 H2. eapply cv_le; [|exact (cv_abs _ _ (CV_minus _ _ _ _ H1 H2))|apply cv_const]. intros N. cbv beta.
  rewrite (Rabs_minus_sym b1). apply (av_slope (0, 0) (grid2 (S N)) n (grid2_not_nil _ (le_n_S _ _ (Nat.le_0_l N))) (fun x => H (at_ x)) (fun x => g (at_ x))); apply on_grid; assumption.
Qed.
Lemma avg_steep M b1 b2 v1 v2 u q : bound H M -> 0 <= b1 -> b1 <= b2 ->
  is_boltzmann_avg n b1 H c (fun _ => H) v1 -> is_boltzmann_avg n b2 H c (fun _ => H) v2 ->
  is_boltzmann_avg n 0 H c (fun _ => H) u -> is_boltzmann_avg n 0 H c (fun _ x => H x * H x) q ->
  (b2 - b1) * exp (- (4 * b2 * M)) * (q - u * u) <= v1 - v2.
Proof.
  intros HM B1 B2 H1 H2 Hu Hq. eapply cv_le; [|apply (CV_mult _ _ _ _ (cv_const ((b2 - b1) * exp (- (4 * b2 * M)))) (CV_minus _ _ _ _ Hq (CV_mult _ _ _ _ Hu Hu)))|exact (CV_minus _ _ _ _ H1 H2)].
  intros N. apply (av_steep (0, 0) (grid2 (S N)) n (grid2_not_nil _ (le_n_S _ _ (Nat.le_0_l N))) (fun x => H (at_ x))); try assumption. apply on_grid. exact HM.
Qed.
End Chain.

(** * An energy with two different values has a positive variance *)
Definition near (d a u : R) : R := if Rle_dec (Rabs (u - a)) d then 1 else 0.
Lemma near_01 d a u : 0 <= near d a u <= 1. Proof. unfold near. destruct (Rle_dec _ _); lra. Qed.
Lemma grid_near N d a : (1 <= N)%nat -> 0 < d <= 1 / 2 -> 0 <= a <= 1 -> d - 1 / INR N <= lmean (grid N) (near d a).
Proof.
  intros HN Hd Ha. assert (P : 1 <= INR N) by (change 1 with (INR 1); apply le_INR; exact HN).
  assert (Q : forall p, 0 <= p -> p + d <= 1 -> a - d <= p <= a -> d - 1 / INR N <= lmean (grid N) (near d a)).
  { intros p P0 P1 P2. pose proof (grid_below N p HN ltac:(lra)) as G1. pose proof (grid_below N (p + d) HN ltac:(lra)) as G2.
    assert (L : lmean (grid N) (fun u => below (p + d) u - below p u) <= lmean (grid N) (near d a)).
    { apply lmean_le. intros u _. unfold below, near. destruct (Rlt_dec u (p + d)), (Rlt_dec u p), (Rle_dec (Rabs (u - a)) d) as [K|K]; try lra. exfalso. apply K. apply Rabs_le. lra. }
    assert (E : lmean (grid N) (fun u => below (p + d) u - below p u) = lmean (grid N) (below (p + d)) - lmean (grid N) (below p)).
    { rewrite <- (Rplus_0_r (lmean _ (below (p + d)) - _)). replace (lmean (grid N) (fun u => below (p + d) u - below p u)) with (lmean (grid N) (fun u => below (p + d) u + (-1) * below p u)) by (apply lmean_ext; intros; ring). rewrite lmean_plus, lmean_scale. ring. }
    replace (1 / (2 * INR N)) with (1 / INR N / 2) in * by (field; lra). unfold Rabs in G1, G2. destruct (Rcase_abs _), (Rcase_abs _); lra. }
  destruct (Rle_dec (a + d) 1) as [C|C]; [apply (Q a); lra|apply (Q (a - d)); lra].
Qed.
Fixpoint box (n : nat) (d : R) (y x : nat -> R * R) : R :=
  match n with O => 1 | S n => near d (fst (y O)) (fst (x O)) * near d (snd (y O)) (snd (x O)) * box n d (fun i => y (S i)) (fun i => x (S i)) end.
Lemma box_01 n : forall d y x, 0 <= box n d y x <= 1.
Proof.
  induction n as [|n IH]; intros d y x; cbn [box]; [lra|]. specialize (IH d (fun i => y (S i)) (fun i => x (S i))). pose proof (near_01 d (fst (y O)) (fst (x O))). pose proof (near_01 d (snd (y O)) (snd (x O))).
  set (p := near _ _ _) in *. set (q := near d (snd _) _) in *. set (r := box _ _ _ _) in *. assert (0 <= p * q <= 1) by nra. nra.
Qed.
Lemma box_in n : forall d y x, box n d y x = 0 \/ (box n d y x = 1 /\ forall i, (i < n)%nat -> Rabs (fst (x i) - fst (y i)) <= d /\ Rabs (snd (x i) - snd (y i)) <= d).
Proof.
  induction n as [|n IH]; intros d y x; cbn [box]; [right; split; [reflexivity|lia]|]. unfold near.
  destruct (Rle_dec (Rabs (fst (x O) - fst (y O))) d) as [A|A]; [|left; ring]. destruct (Rle_dec (Rabs (snd (x O) - snd (y O))) d) as [B|B]; [|left; ring].
  destruct (IH d (fun i => y (S i)) (fun i => x (S i))) as [->|[-> K]]; [left; ring|]. right. split; [ring|]. intros [|i] Hi; [auto|apply (K i); lia].
Qed.
Lemma lmean_mult_r {A} (l : list A) f k : lmean l (fun a => f a * k) = lmean l f * k.
Proof. replace (lmean l (fun a => f a * k)) with (lmean l (fun a => k * f a)) by (apply lmean_ext; intros; ring). rewrite lmean_scale. ring. Qed.
Lemma box_mean N d n : (1 <= N)%nat -> 0 < d <= 1 / 2 -> 2 / d <= INR N -> forall y, in_cube y -> ((d / 2) ^ 2) ^ n <= gmean (0, 0) (grid2 N) n (box n d y).
Proof.
  intros HN Hd Hl. assert (P : 1 <= INR N) by (change 1 with (INR 1); apply le_INR; exact HN).
  assert (D : 1 / INR N <= d / 2). { apply Rmult_le_reg_r with (INR N); [lra|]. unfold Rdiv at 1. rewrite Rmult_assoc, Rinv_l, Rmult_1_r by lra. apply Rmult_le_compat_r with (r := d / 2) in Hl; [|lra]. replace (2 / d * (d / 2)) with 1 in Hl by (field; lra). lra. }
  induction n as [|n IH]; intros y Hy; cbn [gmean box]; [cbn; lra|].
  assert (E : lmean (grid2 N) (fun a => gmean (0, 0) (grid2 N) n (fun x => near d (fst (y 0%nat)) (fst (scons a x 0)) * near d (snd (y 0%nat)) (snd (scons a x 0)) * box n d (fun i => y (S i)) (fun i => scons a x (S i)))) =
    lmean (grid N) (near d (fst (y O))) * lmean (grid N) (near d (snd (y O))) * gmean (0, 0) (grid2 N) n (box n d (fun i => y (S i)))).
  { transitivity (lmean (grid2 N) (fun a => near d (fst (y O)) (fst a) * near d (snd (y O)) (snd a) * gmean (0, 0) (grid2 N) n (box n d (fun i => y (S i))))).
    - apply lmean_ext. intros a _. cbn [scons]. apply gmean_scale.
    - rewrite lmean_mult_r. f_equal. unfold grid2. rewrite lmean_prod by (apply grid_not_nil, HN). cbn [fst snd].
      rewrite <- lmean_mult_r. apply lmean_ext. intros a _. apply lmean_scale. }
  rewrite E. pose proof (grid_near N d (fst (y O)) HN Hd (proj1 (Hy O))) as G1. pose proof (grid_near N d (snd (y O)) HN Hd (proj2 (Hy O))) as G2.
  specialize (IH (fun i => y (S i)) (fun i => Hy (S i))). cbn [pow]. rewrite Rmult_1_r.
  assert (0 <= (d / 2 * (d / 2)) ^ n) by (apply pow_le; nra). replace ((d / 2) ^ 2) with (d / 2 * (d / 2)) in IH by ring.
  apply Rmult_le_compat; [nra|assumption| |exact IH]. apply Rmult_le_compat; lra.
Qed.
Lemma variance_pos k n s w c u q : 
  is_boltzmann_avg n 0 (ens_energy k n s w) c (fun _ => ens_energy k n s w) u -> is_boltzmann_avg n 0 (ens_energy k n s w) c (fun _ x => ens_energy k n s w x * ens_energy k n s w x) q ->
  (exists x y, in_cube x /\ in_cube y /\ ens_energy k n s w (at_dirs c n x) <> ens_energy k n s w (at_dirs c n y)) -> 0 < q - u * u.
Proof.
  set (H := ens_energy k n s w). intros Hu Hq (x0 & y0 & X0 & Y0 & Hne).
  destruct (reg_energy k n s w c) as [_ Rg]. fold H in Rg.
  set (D := Rabs (H (at_dirs c n x0) - H (at_dirs c n y0))). assert (D0 : 0 < D) by (apply Rabs_pos_lt; lra).
  destruct (Rg (D / 3) ltac:(lra)) as (d0 & Hd0 & K). set (d := Rmin d0 (1 / 2)). assert (Hd : 0 < d <= 1 / 2) by (unfold d; split; [apply Rmin_glb_lt; lra|apply Rmin_r]).
  assert (dd : d <= d0) by apply Rmin_l.
  set (p := ((d / 2) ^ 2) ^ n). assert (Pp : 0 < p) by (apply pow_lt, pow_lt; lra).
  apply Rlt_le_trans with (/ 2 * (D / 3 * (D / 3)) * (p * p)); [repeat apply Rmult_lt_0_compat; lra|].
  set (N0 := Z.to_nat (up (2 / d))).
  eapply (cv_le_from _ _ _ _ N0); [|apply cv_const|exact (CV_minus _ _ _ _ Hq (CV_mult _ _ _ _ Hu Hu))]. intros N HN. cbv beta.
  assert (BN : 2 / d <= INR (S N)).
  { destruct (archimed (2 / d)) as [A _]. assert (0 < 2 / d) by (apply Rdiv_lt_0_compat; lra). assert (0 < up (2 / d))%Z by (apply lt_IZR; lra).
    apply Rle_trans with (INR N0); [|apply le_INR; lia]. unfold N0. rewrite INR_IZR_INZ, Z2Nat.id by lia. lra. }
  assert (HN1 : (1 <= S N)%nat) by lia. set (l := grid2 (S N)). assert (Hl : l <> []) by (apply grid2_not_nil; lia).
  assert (W0 : forall g, boltzmann_avg (S N) n 0 H c g = gmean (0, 0) l n (fun x => g (at_dirs c n x))).
  { intros g. unfold boltzmann_avg. fold l. replace (gmean (0, 0) l n (fun x => exp (- (0 * H (at_dirs c n x))))) with 1.
    - replace (gmean (0, 0) l n (fun x => exp (- (0 * H (at_dirs c n x))) * g (at_dirs c n x))) with (gmean (0, 0) l n (fun x => g (at_dirs c n x))); [field|].
      apply gmean_ext. intros x _. rewrite Rmult_0_l, Ropp_0, exp_0. ring.
    - rewrite <- (gmean_const (0, 0) l n 1 Hl). apply gmean_ext. intros x _. rewrite Rmult_0_l, Ropp_0, exp_0. reflexivity. }
  rewrite !W0. set (h := fun x => H (at_dirs c n x)).
  assert (V : gmean (0, 0) l n (fun x => gmean (0, 0) l n (fun y => (h x - h y) * (h x - h y))) = 2 * (gmean (0, 0) l n (fun x => h x * h x) - gmean (0, 0) l n h * gmean (0, 0) l n h)).
  { transitivity (gmean (0, 0) l n (fun x => gmean (0, 0) l n (fun y => h x * h x)) - 2 * gmean (0, 0) l n (fun x => gmean (0, 0) l n (fun y => h x * h y)) + gmean (0, 0) l n (fun x => gmean (0, 0) l n (fun y => h y * h y))).
    - rewrite <- gmean_scale, <- mean_minus, <- gmean_plus. apply gmean_ext. intros x _. rewrite <- gmean_scale, <- mean_minus, <- gmean_plus. apply gmean_ext. intros y _. ring.
    - rewrite mean_pair. assert (Q : gmean (0, 0) l n (fun x => gmean (0, 0) l n (fun _ => h x * h x)) = gmean (0, 0) l n (fun x => h x * h x)) by (apply gmean_ext; intros x _; apply gmean_const, Hl).
      rewrite Q, gmean_const by exact Hl. ring. }
  change (/ 2 * (D / 3 * (D / 3)) * (p * p) <= gmean (0, 0) l n (fun x => h x * h x) - gmean (0, 0) l n h * gmean (0, 0) l n h).
  assert (L : D / 3 * (D / 3) * (gmean (0, 0) l n (box n d x0) * gmean (0, 0) l n (box n d y0)) <= gmean (0, 0) l n (fun x => gmean (0, 0) l n (fun y => (h x - h y) * (h x - h y)))).
  { rewrite <- mean_pair, <- gmean_scale. apply gmean_le. intros x Hx. rewrite <- gmean_scale. apply gmean_le. intros y Hy.
    destruct (box_in n d x0 x) as [->|[-> Bx]]; [rewrite Rmult_0_l, Rmult_0_r; apply Rle_0_sqr|]. destruct (box_in n d y0 y) as [->|[-> By]]; [rewrite !Rmult_0_r; apply Rle_0_sqr|].
    assert (Cl : forall x0 x, in_cube x0 -> (forall i, (i < n)%nat -> In (x i) l) -> (forall i, (i < n)%nat -> Rabs (fst (x i) - fst (x0 i)) <= d /\ Rabs (snd (x i) - snd (x0 i)) <= d) -> Rabs (h x - H (at_dirs c n x0)) <= D / 3).
    { intros a b Ha Hb Hab. unfold h. rewrite <- (cube_dirs c n b), <- (cube_dirs c n a). apply K; [apply (cube_in n (S N)), Hb|apply cube_inside; intros i _; apply Ha|].
      intros i. unfold cube_of. destruct (Nat.ltb_spec i n) as [Li|Li]; [destruct (Hab i Li); lra|]. rewrite !Rminus_diag_eq, Rabs_R0 by reflexivity. lra. }
    pose proof (Cl x0 x X0 Hx Bx) as Q1. pose proof (Cl y0 y Y0 Hy By) as Q2.
    assert (DD : D / 3 <= Rabs (h x - h y)).
    { unfold D in *. set (a := H (at_dirs c n x0)) in *. set (b := H (at_dirs c n y0)) in *.
      assert (T : Rabs (a - b) <= Rabs (h x - a) + Rabs (h x - h y) + Rabs (h y - b)).
      { replace (a - b) with (- (h x - a) + (h x - h y) + (h y - b)) by ring. eapply Rle_trans; [apply Rabs_triang|]. apply Rplus_le_compat_r. eapply Rle_trans; [apply Rabs_triang|]. rewrite Rabs_Ropp. lra. }
      lra. }
    replace ((h x - h y) * (h x - h y)) with (Rabs (h x - h y) * Rabs (h x - h y)) by (rewrite <- Rabs_mult; apply Rabs_pos_eq, Rle_0_sqr). nra. }
  pose proof (box_mean (S N) d n HN1 Hd BN x0 X0) as B1. pose proof (box_mean (S N) d n HN1 Hd BN y0 Y0) as B2. fold l in B1, B2. fold p in B1, B2.
  assert (BB : p * p <= gmean (0, 0) l n (box n d x0) * gmean (0, 0) l n (box n d y0)) by (apply Rmult_le_compat; lra).
  assert (D / 3 * (D / 3) * (p * p) <= D / 3 * (D / 3) * (gmean (0, 0) l n (box n d x0) * gmean (0, 0) l n (box n d y0))) by (apply Rmult_le_compat_l; [apply Rle_0_sqr|exact BB]).
  lra.
Qed.
