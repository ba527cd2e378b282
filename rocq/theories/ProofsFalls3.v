(** What the temperature searches find (C83). *)
From Coq Require Import Reals List ZArith Lra Lia Arith Psatz FunctionalExtensionality.
From Verif Require Import Num Monad NumR Spin Config Chain Fit SpecVec SpecChain SpecMC SpecTotal SpecFit SpecSampling SpecMean
  ProofsFit ProofsTotal ProofsFitR ProofsMean ProofsMean2 ProofsMean3 ProofsMean7 ProofsFalls ProofsFalls2.
Import ListNotations.
Local Open Scope R_scope.

Section Found.
Context (est : nat -> ER -> res ER) (t low eta L : R) (v : R -> R).
Context (Lip : forall a b, low <= a <= 5 -> low <= b <= 5 -> Rabs (v a - v b) <= L * Rabs (a - b)).
Context (Hest : forall k lo hi e, bracket est (Some t) low k lo hi -> est k (Some ((lo + hi) / 2)) = Ok e -> exists x, e = Some x /\ Rabs (x - v ((lo + hi) / 2)) <= eta).

Lemma loop_end lo hi : low <= lo -> lo < hi -> hi <= 5 -> t - eta <= v lo -> v hi <= t + eta -> hi - lo <= 1 / 1000 ->
  Rabs (v ((lo + hi) / 2) - t) <= eta + L / 2000.
Proof.
  intros H1 H2 H3 V1 V2 D. pose proof (Lip lo ((lo + hi) / 2) ltac:(lra) ltac:(lra)) as A. pose proof (Lip hi ((lo + hi) / 2) ltac:(lra) ltac:(lra)) as B.
  replace (lo - (lo + hi) / 2) with (- ((hi - lo) / 2)) in A by lra. replace (hi - (lo + hi) / 2) with ((hi - lo) / 2) in B by lra.
  rewrite Rabs_Ropp in A. rewrite (Rabs_pos_eq ((hi - lo) / 2)) in A, B by lra.
  assert (L0 : 0 <= L). { apply Rmult_le_reg_r with ((hi - lo) / 2); [lra|]. rewrite Rmult_0_l. eapply Rle_trans; [apply Rabs_pos|exact A]. }
  assert (L * ((hi - lo) / 2) <= L / 2000) by (replace (L / 2000) with (L * (1 / 2000)) by lra; apply Rmult_le_compat_l; lra).
  apply Rabs_le. pose proof (Rle_abs (v lo - v ((lo + hi) / 2))). pose proof (Rle_abs (- (v hi - v ((lo + hi) / 2)))) as Q. rewrite Rabs_Ropp in Q. lra.
Qed.
Lemma loop_found fuel : forall k lo hi x r, low <= lo -> lo < hi -> hi <= 5 -> t - eta <= v lo -> v hi <= t + eta -> Rabs (x - v ((lo + hi) / 2)) <= eta ->
  bracket est (Some t) low k lo hi -> est k (Some ((lo + hi) / 2)) = Ok (Some x) ->
  bisect_loop ERNum est (Some t) fuel (Nat.max 3 (S k)) (Some lo) (Some hi) (Some ((lo + hi) / 2)) (Some x) = Ok r ->
  exists b, r = Some b /\ low < b < 5 /\ Rabs (v b - t) <= eta + L / 2000.
Proof.
  induction fuel as [|fuel IH]; intros k lo hi x r H1 H2 H3 V1 V2 D Br Ex H; cbn [bisect_loop] in H;
    change (nltb ERNum (nlit ERNum 1 3) (nsub ERNum (Some hi) (Some lo))) with (Rltb (1 / 1000) (hi - lo)) in H; destruct (Rltb _ _) eqn:E.
  - discriminate.
  - apply Rltb_inv_false in E. injection H as <-. exists ((lo + hi) / 2). split; [reflexivity|]. split; [lra|]. apply loop_end; assumption.
  - change (nltb ERNum (Some t) (Some x)) with (Rltb t x) in H. cbv zeta in H. pose proof (Rle_abs (x - v ((lo + hi) / 2))) as D1. pose proof (Rle_abs (- (x - v ((lo + hi) / 2)))) as D2. rewrite Rabs_Ropp in D2.
    apply Rltb_inv in E. destruct (bracket_in est (Some t) low k lo hi ltac:(lra) Br) as (K1 & _ & _ & _ & K3). assert (N := next_index k K1 K3).
    destruct (Rltb t x) eqn:C.
    + rewrite half_mid in H. destruct (est (Nat.max 3 (S k)) _) as [e'|p|] eqn:Ee; cbn [bind] in H; try discriminate.
      pose proof (upper_half est (Some t) low k lo hi (Some x) Br E Ex C) as B'. apply Rltb_inv in C.
      destruct (Hest _ _ _ _ B' Ee) as (y & -> & Dy). rewrite <- N in H. apply (IH (Nat.max 3 (S k))) in H; auto; lra.
    + rewrite half_mid in H. destruct (est (Nat.max 3 (S k)) _) as [e'|p|] eqn:Ee; cbn [bind] in H; try discriminate.
      pose proof (lower_half est (Some t) low k lo hi (Some x) Br E Ex C) as B'. apply Rltb_inv_false in C.
      destruct (Hest _ _ _ _ B' Ee) as (y & -> & Dy). rewrite <- N in H. apply (IH (Nat.max 3 (S k))) in H; auto; lra.
  - apply Rltb_inv_false in E. injection H as <-. exists ((lo + hi) / 2). split; [reflexivity|]. split; [lra|]. apply loop_end; assumption.
Qed.
Lemma bisect_found fuel r : low < 5 -> v 5 - eta <= t <= v low + eta -> bisect ERNum est (Some t) (Some low) fuel = Ok r -> exists b, r = Some b /\ low < b < 5 /\ Rabs (v b - t) <= eta + L / 2000.
Proof.
  intros Hl Ht H. unfold bisect in H. cbv zeta in H. change (nofZ ERNum 5) with (Some 5) in H. rewrite half_mid in H.
  destruct (est 0%nat _) as [e0|p|]; cbn [bind] in H; try discriminate.
  destruct (est 1%nat _) as [e1|p|] eqn:E1; cbn [bind] in H; try discriminate.
  destruct (est 2%nat _) as [e2|p|]; cbn [bind] in H; try discriminate.
  pose proof (first_bracket est (Some t) low) as B1. destruct (Hest _ _ _ _ B1 E1) as (x & -> & Dx). apply (loop_found fuel 1) in H; auto; lra.
Qed.
End Found.

Lemma low_lit q : nlit ERNum 1 (low_dec q) = Some (low_end q).
Proof. destruct q; cbn; f_equal; lra. Qed.
Lemma low_range q : 0 < low_end q < 5. Proof. destruct q; cbn; lra. Qed.
Lemma find_found q n s (conf : config R) fuel rng c v M B eta r c' : let w := 2 * PI / tau conf in
  (forall x, in_cube x -> Rabs (ens_energy (fit_ensemble q) n s w (at_dirs c n x)) <= M) ->
  (forall x, in_cube x -> Rabs (fit_density q n s w (at_dirs c n x)) <= B) ->
  (forall b, low_end q <= b <= 5 -> is_boltzmann_avg n b (ens_energy (fit_ensemble q) n s w) c (fun _ => fit_density q n s w) (v b)) ->
  (forall k b e, asked q (config_map Some conf) rng k b -> energy_at ERNum q (config_map Some conf) (Some b) (rng k) = Ok e -> exists x, e = Some x /\ Rabs (x - v b) <= eta) ->
  v 5 - eta <= ednsty conf <= v (low_end q) + eta ->
  find_of ERNum q fuel rng (config_map Some conf) = Ok (r, c') ->
  exists b, r = Some b /\ low_end q < b < 5 /\ Rabs (v b - ednsty conf) <= eta + M * B / 500.
Proof.
  intros w HM HB Hv He Ht H. rewrite find_of_eq, low_lit in H. destruct (bisect _ _ _ _ _) as [b|p|] eqn:Eb; cbn [bind] in H; try discriminate. injection H as -> <-.
  change (ednsty (config_map Some conf)) with (Some (ednsty conf)) in Eb.
  apply (bisect_found _ (ednsty conf) (low_end q) eta (4 * M * B) v) in Eb; [|intros a a' Ha Ha'; apply (avg_slope n (ens_energy (fit_ensemble q) n s w) c (fit_density q n s w)); auto|intros k lo hi e B' Ee; apply (He k); [exists lo, hi; auto|exact Ee]|apply low_range|exact Ht].
  destruct Eb as (b & E & Hb & Q). exists b. split; [exact E|]. split; [exact Hb|]. lra.
Qed.

(** The searches whose density is the energy per site *)
Lemma avg_scale n b H c k g v : is_boltzmann_avg n b H c (fun _ => g) v -> is_boltzmann_avg n b H c (fun _ x => k * g x) (k * v).
Proof.
  intros Hv. unfold is_boltzmann_avg in *. replace (fun N => boltzmann_avg (S N) n b H c (fun x => k * g x)) with (fun N => k * boltzmann_avg (S N) n b H c g).
  - apply CV_mult; [apply cv_const|exact Hv].
  - apply functional_extensionality. intros N. unfold boltzmann_avg, Rdiv. rewrite <- Rmult_assoc. f_equal. rewrite <- gmean_scale. apply gmean_ext. intros. ring.
Qed.
Lemma avg_same n b H c g g' v : (forall x, g x = g' x) -> is_boltzmann_avg n b H c (fun _ => g) v -> is_boltzmann_avg n b H c (fun _ => g') v.
Proof. intros E. replace g' with g; [auto|]. apply functional_extensionality, E. Qed.
Definition plain (q : search) : Prop := q = Sbeta2 \/ q = Sbetah.
Lemma find_near q n s (conf : config R) fuel rng c v M u Q eta bstar r c' : plain q -> (1 <= n)%nat -> let w := 2 * PI / tau conf in let H := ens_energy (fit_ensemble q) n s w in
  (forall x, in_cube x -> Rabs (H (at_dirs c n x)) <= M) ->
  is_boltzmann_avg n 0 H c (fun _ => H) u -> is_boltzmann_avg n 0 H c (fun _ x => H x * H x) Q ->
  (exists x y, in_cube x /\ in_cube y /\ H (at_dirs c n x) <> H (at_dirs c n y)) ->
  (forall b, low_end q <= b <= 5 -> is_boltzmann_avg n b H c (fun _ => fit_density q n s w) (v b)) ->
  (forall k b e, asked q (config_map Some conf) rng k b -> energy_at ERNum q (config_map Some conf) (Some b) (rng k) = Ok e -> exists x, e = Some x /\ Rabs (x - v b) <= eta) ->
  low_end q <= bstar <= 5 -> v bstar = ednsty conf ->
  find_of ERNum q fuel rng (config_map Some conf) = Ok (r, c') ->
  exists b, r = Some b /\ Rabs (b - bstar) <= 1 / 2000 + eta * INR n / (exp (- (20 * M)) * (Q - u * u)).
Proof.
  intros Hq Hn w H HM Hu HQ Hne Hv He Hb Hs Hf.
  assert (E0 : fit_ensemble q = Estatic) by (destruct Hq as [->| ->]; reflexivity).
  assert (Vp : 0 < Q - u * u) by (exact (variance_pos (fit_ensemble q) n s w c u Q Hu HQ Hne)).
  pose proof (lt_0_INR n ltac:(lia)) as np.
  assert (Hd : forall x, INR n * fit_density q n s w x = H x) by (intros x; unfold H; rewrite E0; destruct Hq as [->| ->]; cbn [fit_density ens_energy]; field; lra).
  assert (Hv' : forall b, low_end q <= b <= 5 -> is_boltzmann_avg n b H c (fun _ => H) (INR n * v b)).
  { intros b Hbb. apply (avg_same n b H c (fun x => INR n * fit_density q n s w x)); [exact Hd|]. apply avg_scale, Hv, Hbb. }
  pose proof (low_range q) as Lq. set (K := exp (- (20 * M)) * (Q - u * u)). assert (Kp : 0 < K) by (apply Rmult_lt_0_compat; [apply exp_pos|exact Vp]).
  assert (C0 : in_cube (fun _ => (0, 0))) by (intros i; cbn; lra).
  assert (M0 : 0 <= M) by (eapply Rle_trans; [apply Rabs_pos|apply (HM _ C0)]).
  assert (St : forall a b, low_end q <= a -> a <= b -> b <= 5 -> (b - a) * K <= INR n * (v a - v b)).
  { intros a b A1 A2 A3. pose proof (avg_steep n H c M a b _ _ u Q HM ltac:(lra) A2 (Hv' a ltac:(lra)) (Hv' b ltac:(lra)) Hu HQ) as S.
    assert (exp (- (20 * M)) <= exp (- (4 * b * M))) by (apply exp_le; nra).
    apply Rle_trans with ((b - a) * exp (- (4 * b * M)) * (Q - u * u)); [|lra]. unfold K. rewrite <- Rmult_assoc. apply Rmult_le_compat_r; [lra|]. apply Rmult_le_compat_l; lra. }
  set (d := eta * INR n / K). assert (dK : d * K = eta * INR n) by (unfold d; field; lra).
  assert (e0 : 0 <= eta -> 0 <= d) by (intros; unfold d; apply Rmult_le_pos; [apply Rmult_le_pos; lra|left; apply Rinv_0_lt_compat, Kp]).
  assert (Hdec : forall k b e, asked q (config_map Some conf) rng k b -> energy_at ERNum q (config_map Some conf) (Some b) (rng k) = Ok e ->
     (er_ltb (ednsty (config_map Some conf)) e = true -> b <= bstar + d) /\ (er_ltb (ednsty (config_map Some conf)) e = false -> bstar - d <= b)).
  { intros k b e Hbb Ee. destruct (He k b e Hbb Ee) as (x & -> & Dx). apply asked_in in Hbb. change (ednsty (config_map Some conf)) with (Some (ednsty conf)). cbn [er_ltb].
    assert (D0 : 0 <= d) by (apply e0; eapply Rle_trans; [apply Rabs_pos|exact Dx]).
    pose proof (Rle_abs (x - v b)) as D1. pose proof (Rle_abs (- (x - v b))) as D2. rewrite Rabs_Ropp in D2.
    split; intros C.
    - apply Rltb_inv in C. destruct (Rle_dec b bstar) as [L|L]; [lra|]. pose proof (St bstar b ltac:(lra) ltac:(lra) ltac:(lra)) as S. rewrite Hs in S.
      assert (INR n * (ednsty conf - v b) <= INR n * eta) by (apply Rmult_le_compat_l; lra). assert ((b - bstar) * K <= d * K) by lra. apply Rmult_le_reg_r in H1; lra.
    - apply Rltb_inv_false in C. destruct (Rle_dec bstar b) as [L|L]; [lra|]. pose proof (St b bstar ltac:(lra) ltac:(lra) ltac:(lra)) as S. rewrite Hs in S.
      assert (INR n * (v b - ednsty conf) <= INR n * eta) by (apply Rmult_le_compat_l; lra). assert ((bstar - b) * K <= d * K) by lra. apply Rmult_le_reg_r in H1; lra. }
  destruct (Rle_dec 0 eta) as [Pe|Pe].
  - exact (find_acc q fuel rng (config_map Some conf) bstar d r c' Hdec ltac:(pose proof (e0 Pe); lra) ltac:(pose proof (e0 Pe); lra) Hf).
  - exfalso. rewrite find_of_eq, low_lit in Hf. unfold bisect in Hf. cbv zeta in Hf. change (nofZ ERNum 5) with (Some 5) in Hf. rewrite half_mid in Hf.
    destruct (energy_at _ _ _ _ (rng 0%nat)) as [a0|p|]; cbn [bind] in Hf; try discriminate.
    destruct (energy_at _ _ _ _ (rng 1%nat)) as [a1|p|] eqn:E1; cbn [bind] in Hf; try discriminate.
    apply He in E1; [|exists (low_end q), 5; split; [apply first_bracket|reflexivity]]. destruct E1 as (x & _ & Dx). pose proof (Rabs_pos (x - v ((low_end q + 5) / 2))). lra.
Qed.
