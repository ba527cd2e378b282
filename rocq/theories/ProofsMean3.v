(** The samplers leave the Boltzmann averages unchanged; grid means and integrals; free spins. *)
From Coq Require Import Reals Lra Lia List ZArith Arith FunctionalExtensionality.
From Verif Require Import Num Monad NumR Spin Config Chain SpecVec SpecChain SpecMC SpecSampling SpecMean
  ProofsSpin ProofsChain ProofsMC ProofsMCR ProofsMCR2 ProofsMCR3 ProofsMCR4 ProofsSampling ProofsMean ProofsMean2.
Import ListNotations.
Local Open Scope R_scope.

Lemma ens_metropolis k n s c x : wf n s c -> (2 <= n)%nat -> ens_ok k n (vars c) ->
  metropolis_for n (ens_energy k n s (omega c)) (ens_sampler k ERNum) (at_dirs c n x).
Proof.
  intros W Hn Ho. pose proof (dirs_wf n s c x W) as Wx. change (omega c) with (omega (at_dirs c n x)). change (vars c) with (vars (at_dirs c n x)) in Ho.
  destruct k; cbn [ens_sampler].
  - exact (plain_step n s _ Wx Hn).
  - apply (maglab_step n s _ Wx Hn). exact Ho.
  - apply (rot_step n s _ Wx); [exact (proj2 Ho)|exact (proj1 Ho)].
Qed.

Definition cube_of n (x : nat -> R * R) : nat -> R * R := fun i => if (i <? n)%nat then x i else (0, 0).
Lemma cube_dirs c n x : at_dirs c n (cube_of n x) = at_dirs c n x.
Proof. unfold at_dirs. f_equal. apply map_ext_in. intros i Hi. apply in_seq in Hi. unfold cube_of. replace (i <? n)%nat with true by (symmetry; apply Nat.ltb_lt; lia). reflexivity. Qed.
Lemma cube_inside n x : inside n x -> in_cube (cube_of n x).
Proof. intros Hx i. unfold cube_of. destruct (Nat.ltb_spec i n) as [L|L]; [apply Hx, L|cbn; lra]. Qed.
Lemma cube_in n N x : (forall i, (i < n)%nat -> In (x i) (grid2 N)) -> in_cube (cube_of n x).
Proof.
  intros Hx i. unfold cube_of. destruct (Nat.ltb_spec i n) as [L|L]; [|cbn; lra].
  destruct (grid2_unit N _ (Hx i L)) as [[A B] [C D]]. lra.
Qed.

Lemma stationary_rate k n s c (g : chain (num ERNum) -> R) B N j : wf n s c -> (2 <= n)%nat -> ens_ok k n (vars c) -> 0 <= beta (vars c) -> (1 <= N)%nat ->
  (forall x, in_cube x -> Rabs (g (fin (at_dirs c n x))) <= B) ->
  Rabs (boltzmann_avg N n (beta (vars c)) (ens_energy k n s (omega c)) c (fun x => expected N n (ens_sampler k ERNum) j g (fin x))
        - boltzmann_avg N n (beta (vars c)) (ens_energy k n s (omega c)) c (fun x => g (fin x))) <= INR j * B / INR N.
Proof.
  intros W Hn Ho Hb HN HB. apply (boltzmann_near n s); auto; [|lia|].
  - intros x. apply ens_metropolis; assumption.
  - intros x Hx. rewrite <- cube_dirs. apply HB, cube_inside, Hx.
Qed.

Lemma weight_low n k s c w b : exists m, 0 < m /\ forall N, (1 <= N)%nat -> m <= gmean (0, 0) (grid2 N) n (fun x => exp (- (b * ens_energy k n s w (at_dirs c n x)))).
Proof.
  destruct (reg_energy k n s w c) as [[B HB] _]. exists (exp (- (Rabs b * B))). split; [apply exp_pos|]. intros N HN.
  rewrite <- (gmean_const (0, 0) (grid2 N) n (exp (- (Rabs b * B)))) by (apply grid2_not_nil, HN). apply gmean_le. intros x Hx.
  pose proof (HB _ (cube_in n N x Hx)) as Q. rewrite cube_dirs in Q. set (e := ens_energy k n s w (at_dirs c n x)) in *.
  assert (P : - (Rabs b * B) <= - (b * e)).
  { assert (b * e <= Rabs b * B); [|lra]. eapply Rle_trans; [apply Rle_abs|]. rewrite Rabs_mult. apply Rmult_le_compat_l; [apply Rabs_pos|exact Q]. }
  destruct P as [P|P]; [left; apply exp_increasing, P|rewrite P; lra].
Qed.
Lemma cv_inv (u : nat -> R) z : Un_cv u z -> z <> 0 -> Un_cv (fun N => / u N) (/ z).
Proof.
  intros Hz Pz.
  intros eps He. destruct (Hz (Rmin (Rabs z / 2) (eps * Rabs z * Rabs z / 4))) as [N0 H0].
  { apply Rmin_glb_lt; [|]; assert (0 < Rabs z) by (apply Rabs_pos_lt, Pz); [lra|]. apply Rdiv_lt_0_compat; [|lra]. repeat apply Rmult_lt_0_compat; assumption. }
  exists N0. intros N HN. specialize (H0 N HN). unfold R_dist in *. set (q := u N) in *. assert (Az : 0 < Rabs z) by (apply Rabs_pos_lt, Pz).
  assert (H1 : Rabs (q - z) < Rabs z / 2) by (eapply Rlt_le_trans; [exact H0|apply Rmin_l]). assert (H2 : Rabs (q - z) < eps * Rabs z * Rabs z / 4) by (eapply Rlt_le_trans; [exact H0|apply Rmin_r]).
  assert (Aq : Rabs z / 2 <= Rabs q). { pose proof (Rabs_triang_inv z (z - q)) as T. replace (z - (z - q)) with q in T by ring. rewrite (Rabs_minus_sym z q) in T. lra. }
  assert (Qn : q <> 0) by (intros E; rewrite E, Rabs_R0 in Aq; lra).
  replace (/ q - / z) with (- (q - z) * / q * / z) by (field; split; assumption). rewrite !Rabs_mult, Rabs_Ropp, !Rabs_inv.
  apply Rmult_lt_reg_r with (Rabs q * Rabs z); [nra|]. replace (Rabs (q - z) * / Rabs q * / Rabs z * (Rabs q * Rabs z)) with (Rabs (q - z)) by (field; lra).
  eapply Rlt_le_trans; [exact H2|]. assert (eps * (Rabs z * (Rabs z / 2)) <= eps * (Rabs q * Rabs z)); [|nra]. apply Rmult_le_compat_l; [lra|]. rewrite (Rmult_comm (Rabs q)). apply Rmult_le_compat_l; lra.
Qed.
Lemma average_exists k n s c w b (g : chain R -> R) : regular (fun x => g (at_dirs c n x)) ->
  exists v, is_boltzmann_avg n b (ens_energy k n s w) c (fun _ x => g x) v.
Proof.
  intros Hg. assert (Rw : regular (fun x => exp (- (b * ens_energy k n s w (at_dirs c n x))))).
  { apply (reg_comp exp); [apply derivable_continuous, derivable_exp|]. apply reg_opp, reg_mult; [apply reg_const|apply reg_energy]. }
  destruct (regular_mean n _ Rw) as [z Hz]. destruct (regular_mean n _ (reg_mult _ _ Rw Hg)) as [u Hu].
  destruct (weight_low n k s c w b) as (m & Hm & Hl). exists (u / z). unfold is_boltzmann_avg, boltzmann_avg, Rdiv.
  assert (Pz : z <> 0).
  { intros E. destruct (Hz m Hm) as [N0 H0]. specialize (H0 N0 (le_n _)). unfold R_dist in H0. rewrite E, Rminus_0_r in H0. pose proof (Hl (S N0) ltac:(lia)) as L. pose proof (Rle_abs (gmean (0, 0) (grid2 (S N0)) n (fun x => exp (- (b * ens_energy k n s w (at_dirs c n x)))))). lra. }
  apply CV_mult; [exact Hu|]. apply cv_inv; assumption.
Qed.
Lemma stationary k n s c (g : chain (num ERNum) -> R) : wf n s c -> (2 <= n)%nat -> ens_ok k n (vars c) -> 0 <= beta (vars c) ->
  regular (fun x => g (fin (at_dirs c n x))) ->
  exists v, is_boltzmann_avg n (beta (vars c)) (ens_energy k n s (omega c)) c (fun _ x => g (fin x)) v /\
    forall j, is_boltzmann_avg n (beta (vars c)) (ens_energy k n s (omega c)) c (fun N x => expected N n (ens_sampler k ERNum) j g (fin x)) v.
Proof.
  intros W Hn Ho Hb Hg. destruct (average_exists k n s c (omega c) (beta (vars c)) (fun x => g (fin x)) Hg) as [v Hv]. exists v. split; [exact Hv|].
  intros j. destruct Hg as [[B HB] _]. intros eps He. destruct (Hv (eps / 2) ltac:(lra)) as [N1 H1].
  assert (B0 : 0 <= B) by (eapply Rle_trans; [apply Rabs_pos|apply (HB (fun _ => (0, 0))); intros i; cbn; lra]).
  assert (P : 0 < INR j * B + 1) by (pose proof (Rmult_le_pos _ _ (pos_INR j) B0); lra).
  destruct (archimed_cor1 (eps / 2 / (INR j * B + 1))) as (N2 & H2 & H3); [apply Rdiv_lt_0_compat; lra|].
  exists (N1 + N2)%nat. intros N HN. specialize (H1 N ltac:(lia)). unfold R_dist in *.
  pose proof (stationary_rate k n s c g B (S N) j W Hn Ho Hb ltac:(lia) HB) as Q.
  set (X := boltzmann_avg _ _ _ _ _ (fun x => expected _ _ _ _ _ _)) in *. set (Y := boltzmann_avg _ _ _ _ _ (fun x => g (fin x))) in *.
  assert (L : INR j * B / INR (S N) < eps / 2).
  { assert (S2 : / INR (S N) <= / INR N2) by (apply Rinv_le_contravar; [apply lt_0_INR; lia|apply le_INR; lia]).
    assert (S3 : 0 < / INR (S N)) by (apply Rinv_0_lt_compat, lt_0_INR; lia).
    apply Rle_lt_trans with ((INR j * B + 1) * / INR N2); [unfold Rdiv; nra|]. 
    replace (eps / 2) with ((INR j * B + 1) * (eps / 2 / (INR j * B + 1))) by (field; lra). apply Rmult_lt_compat_l; assumption. }
  replace (X - v) with ((X - Y) + (Y - v)) by ring. eapply Rle_lt_trans; [apply Rabs_triang|]. lra.
Qed.

(** ** Grid means and integrals *)
Lemma fold_telescope (f : R -> R) (G : nat -> R) (a e : R) N : (forall k, (k < N)%nat -> Rabs (f ((INR k + 1 / 2) / a) - (G (S k) - G k)) <= e) ->
  Rabs (fold_right (fun u s => f u + s) 0 (map (fun k => (INR k + 1 / 2) / a) (seq 0 N)) - (G N - G 0%nat)) <= INR N * e.
Proof.
  assert (K : forall N k0, (forall k, (k0 <= k < k0 + N)%nat -> Rabs (f ((INR k + 1 / 2) / a) - (G (S k) - G k)) <= e) ->
    Rabs (fold_right (fun u s => f u + s) 0 (map (fun k => (INR k + 1 / 2) / a) (seq k0 N)) - (G (k0 + N)%nat - G k0)) <= INR N * e).
  { clear N. induction N as [|N IH]; intros k0 Hk.
    - cbn [seq map fold_right]. rewrite Nat.add_0_r. replace (0 - (G k0 - G k0)) with 0 by ring. rewrite Rabs_R0. cbn. lra.
    - cbn [seq map fold_right]. rewrite S_INR. pose proof (Hk k0 ltac:(lia)) as A. specialize (IH (S k0) (fun k Q => Hk k ltac:(lia))).
      replace (k0 + S N)%nat with (S k0 + N)%nat by lia. set (X := fold_right _ _ _) in *.
      replace (f ((INR k0 + 1 / 2) / a) + X - (G (S k0 + N)%nat - G k0)) with ((f ((INR k0 + 1 / 2) / a) - (G (S k0) - G k0)) + (X - (G (S k0 + N)%nat - G (S k0)))) by ring.
      eapply Rle_trans; [apply Rabs_triang|]. lra. }
  intros H. apply (K N 0%nat). intros k Q. apply H. lia.
Qed.
Lemma grid_integral f F : continuity f -> (forall x, derivable_pt_lim F x (f x)) -> Un_cv (fun N => lmean (grid (S N)) f) (F 1 - F 0).
Proof.
  intros Hc Hd eps He. destruct (@Heine_cor2 f 0 1 (fun x _ => Hc x) (mkposreal (eps / 2) ltac:(lra))) as (d & D). cbn in D.
  destruct (archimed_cor1 d (cond_pos d)) as (N0 & H0 & H1). exists N0. intros N HN. unfold R_dist.
  set (a := INR (S N)). assert (a1 : 1 <= a) by (unfold a; change 1 with (INR 1); apply le_INR; lia).
  assert (ad : / a < d) by (eapply Rle_lt_trans; [|exact H0]; apply Rinv_le_contravar; [apply lt_0_INR; lia|apply le_INR; lia]).
  assert (T : Rabs (fold_right (fun u s => f u + s) 0 (map (fun k => (INR k + 1 / 2) / a) (seq 0 (S N))) - (a * F (INR (S N) / a) - a * F (INR 0 / a))) <= INR (S N) * (eps / 2)).
  { apply (fold_telescope f (fun k => a * F (INR k / a)) a (eps / 2) (S N)). intros k Hk.
    assert (lt : INR k / a < INR (S k) / a) by (unfold Rdiv; apply Rmult_lt_compat_r; [apply Rinv_0_lt_compat; lra|rewrite S_INR; lra]).
    destruct (MVT_cor2 F f (INR k / a) (INR (S k) / a) lt (fun x _ => Hd x)) as (xi & E & X1 & X2). rewrite <- Rmult_minus_distr_l, E, S_INR.
    replace (a * (f xi * ((INR k + 1) / a - INR k / a))) with (f xi) by (field; lra).
    assert (k1 : INR k + 1 <= a) by (rewrite <- S_INR; unfold a; apply le_INR; lia). pose proof (pos_INR k).
    assert (Ia : 0 < / a) by (apply Rinv_0_lt_compat; lra). rewrite S_INR in X2. unfold Rdiv in X1, X2 |- *.
    assert (U : (INR k + 1) * / a <= 1) by (apply Rmult_le_reg_r with a; [lra|]; rewrite Rmult_assoc, Rinv_l by lra; lra).
    assert (V : 0 <= INR k * / a) by (apply Rmult_le_pos; lra).
    left. apply D; [split; nra|split; lra|]. apply Rabs_def1; nra. }
  unfold lmean. rewrite grid_length. unfold grid. fold a. replace (INR (S N) / a) with 1 in T by (unfold a; field; fold a; lra). replace (INR 0 / a) with 0 in T by (cbn [INR]; unfold Rdiv; ring). fold a in T.
  set (X := fold_right _ _ _) in *. replace (X / a - (F 1 - F 0)) with ((X - (a * F 1 - a * F 0)) * / a) by (field; lra). rewrite Rabs_mult, (Rabs_pos_eq (/ a)) by (left; apply Rinv_0_lt_compat; lra).
  apply Rle_lt_trans with (a * (eps / 2) * / a); [apply Rmult_le_compat_r; [left; apply Rinv_0_lt_compat; lra|exact T]|]. replace (a * (eps / 2) * / a) with (eps / 2) by (field; lra). lra.
Qed.
