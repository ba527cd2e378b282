(** Mean-square error of the means over sampled states. *)
From Coq Require Import Reals Lra Lia List ZArith Arith FunctionalExtensionality.
From Verif Require Import Num Monad NumR Spin Config Chain SpecVec SpecChain SpecMC SpecSampling SpecMean
  ProofsSpin ProofsChain ProofsEnergy ProofsMC ProofsMCR ProofsMCR2 ProofsMCR3 ProofsMCR4 ProofsSampling ProofsMean ProofsMean2 ProofsMean3 ProofsMean4 ProofsMean5.
Import ListNotations.
Local Open Scope R_scope.

(** ** Sums of powers *)
Lemma geometric r k : 0 <= r < 1 -> Rsum k (fun i => r ^ i) <= / (1 - r).
Proof.
  intros Hr. assert (E : Rsum k (fun i => r ^ i) * (1 - r) = 1 - r ^ k) by (induction k as [|k IH]; cbn [Rsum pow]; [ring|]; rewrite Rmult_plus_distr_r, IH; ring).
  apply Rmult_le_reg_r with (1 - r); [lra|]. rewrite E, Rinv_l by lra. assert (0 <= r ^ k) by (apply pow_le; lra). lra.
Qed.
Lemma block_powers r n : (1 <= n)%nat -> forall k, Rsum (n * k) (fun t => r ^ (t / n)) = INR n * Rsum k (fun i => r ^ i).
Proof.
  intros Hn. induction k as [|k IH]; [rewrite Nat.mul_0_r; cbn; ring|]. replace (n * S k)%nat with (n * k + n)%nat by lia. rewrite Rsum_split, IH. cbn [Rsum].
  rewrite (Rsum_ext n _ (fun _ => r ^ k)).
  - assert (C : forall m, Rsum m (fun _ => r ^ k) = INR m * r ^ k) by (induction m as [|m IM]; [cbn; ring|]; cbn [Rsum]; rewrite IM, S_INR; ring). rewrite C. ring.
  - intros i Hi. f_equal. rewrite Nat.mul_comm, Nat.div_add_l by lia. rewrite Nat.div_small by exact Hi. lia.
Qed.
Lemma Rsum_le n f g : (forall i, (i < n)%nat -> f i <= g i) -> Rsum n f <= Rsum n g.
Proof. induction n as [|n IH]; intros H; cbn [Rsum]; [lra|]. pose proof (IH (fun i Q => H i ltac:(lia))). pose proof (H n ltac:(lia)). lra. Qed.
Lemma Rsum_mono m k f : (m <= k)%nat -> (forall i, 0 <= f i) -> Rsum m f <= Rsum k f.
Proof. intros H Hf. induction H as [|k H IH]; [lra|]. cbn [Rsum]. pose proof (Hf k). lra. Qed.
Lemma pow_anti r a b : 0 <= r <= 1 -> (a <= b)%nat -> r ^ b <= r ^ a.
Proof. intros Hr H. induction H as [|b H IH]; [lra|]. cbn [pow]. assert (0 <= r ^ b) by (apply pow_le; lra). nra. Qed.
Lemma spread_powers r n q m : 0 <= r < 1 -> (1 <= n)%nat -> (1 <= q)%nat -> Rsum m (fun t => r ^ (q * S t / n)) <= INR n / (1 - r).
Proof.
  intros Hr Hn Hq. apply Rle_trans with (Rsum m (fun t => r ^ (t / n))).
  - apply Rsum_le. intros t _. apply pow_anti; [lra|]. apply Nat.div_le_mono; [lia|]. nia.
  - apply Rle_trans with (Rsum (n * m) (fun t => r ^ (t / n))); [apply Rsum_mono; [nia|intros; apply pow_le; lra]|]. rewrite block_powers by exact Hn. unfold Rdiv. apply Rmult_le_compat_l; [apply pos_INR|]. apply geometric, Hr.
Qed.

Lemma lasting_any n q b E : (1 <= n)%nat -> (1 <= q)%nat -> 0 <= b -> 0 <= E -> lasting n q b E (INR n / rate n b E).
Proof.
  intros Hn Hq Hb HE j. destruct (rate_unit n b E Hn Hb HE) as [R1 R2]. pose proof (spread_powers (1 - rate n b E) n q j ltac:(lra) Hn Hq) as Sp. replace (1 - (1 - rate n b E)) with (rate n b E) in Sp by ring. exact Sp.
Qed.
Lemma lasting_far n q b E : (1 <= n <= q)%nat -> 0 <= b -> 0 <= E -> let p := (1 - rate n b E) ^ (q / n) in 0 <= p < 1 /\ lasting n q b E (p / (1 - p)).
Proof.
  intros [Hn Hq] Hb HE p. destruct (rate_unit n b E Hn Hb HE) as [R1 R2]. set (d := 1 - rate n b E) in *. assert (Hd : 0 <= d < 1) by (unfold d; lra).
  assert (K : (1 <= q / n)%nat) by (apply Nat.div_le_lower_bound; lia).
  assert (P : 0 <= p < 1). { split; [apply pow_le; lra|]. apply Rle_lt_trans with (d ^ 1); [apply pow_anti; [lra|exact K]|lra]. }
  split; [exact P|]. intros j. fold d. apply Rle_trans with (Rsum j (fun t => p * p ^ t)).
  - apply Rsum_le. intros t _. unfold p. rewrite <- pow_mult, <- pow_add. apply pow_anti; [lra|]. apply Nat.div_le_lower_bound; [lia|]. pose proof (Nat.mul_div_le q n ltac:(lia)). nia.
  - rewrite Rsum_scal. unfold Rdiv. apply Rmult_le_compat_l; [lra|]. apply geometric, P.
Qed.

(** ** Expectations on the chains reached *)
Section L.
Variables (n s : nat) (c : chain R) (H : chain R -> R) (f : mcdraw ERNum -> chain (num ERNum) -> res (chain (num ERNum))).
Hypothesis M : forall x, metropolis_for n H f (at_dirs c n x).
Hypothesis n1 : (1 <= n)%nat.
Variables (N : nat) (HN : (1 <= N)%nat).
Notation at_ := (at_dirs c n).
Notation E_ := (expected N n f).
Lemma seq_nil : seq 0 n <> [].
Proof. destruct n; [lia|discriminate]. Qed.
Lemma e_le k g h : (forall x, inside n x -> g (fin (at_ x)) <= h (fin (at_ x))) -> forall x, inside n x -> E_ k g (fin (at_ x)) <= E_ k h (fin (at_ x)).
Proof.
  intros Hg. induction k as [|k IH]; intros x Hx; cbn [expected]; [apply Hg, Hx|]. apply lmean_le. intros d Hd. apply in_seq in Hd. apply lmean_le. intros a Ha. apply lmean_le. intros u Hu.
  destruct (step_where n c H f M n1 N d x a u ltac:(lia) Ha Hu Hx) as (y & Hy & E). rewrite E. cbn [on]. apply IH, Hy.
Qed.
Lemma e_ext k g h : (forall x, inside n x -> g (fin (at_ x)) = h (fin (at_ x))) -> forall x, inside n x -> E_ k g (fin (at_ x)) = E_ k h (fin (at_ x)).
Proof. intros Hg x Hx. apply Rle_antisym; apply e_le; try exact Hx; intros y Hy; rewrite (Hg y Hy); lra. Qed.
Lemma e_const k q : forall x, inside n x -> E_ k (fun _ => q) (fin (at_ x)) = q.
Proof.
  induction k as [|k IH]; intros x Hx; cbn [expected]; [reflexivity|]. transitivity (lmean (seq 0 n) (fun _ => q)); [|apply lmean_const, seq_nil]. apply lmean_ext. intros d Hd. apply in_seq in Hd.
  transitivity (lmean (grid2 N) (fun _ => q)); [|apply lmean_const, (grid2_not_nil N HN)]. apply lmean_ext. intros a Ha. transitivity (lmean (grid N) (fun _ => q)); [|apply lmean_const, (grid_not_nil N HN)]. apply lmean_ext. intros u Hu.
  destruct (step_where n c H f M n1 N d x a u ltac:(lia) Ha Hu Hx) as (y & Hy & E). rewrite E. cbn [on]. apply IH, Hy.
Qed.
Lemma e_lin k g h q : forall x, E_ k (fun y => g y + q * h y) x = E_ k g x + q * E_ k h x.
Proof.
  induction k as [|k IH]; intros x; cbn [expected]; [reflexivity|].
  rewrite <- lmean_scale, <- lmean_plus. apply lmean_ext. intros d _. rewrite <- lmean_scale, <- lmean_plus. apply lmean_ext. intros a _. rewrite <- lmean_scale, <- lmean_plus. apply lmean_ext. intros u _.
  unfold on. destruct (f _ x); [apply IH|ring|ring].
Qed.
Lemma es_le q m : forall F G, (forall l, Forall (fun y => exists x, inside n x /\ y = fin (at_ x)) l -> length l = m -> F l <= G l) ->
  forall x, inside n x -> esampled N n f q m F (fin (at_ x)) <= esampled N n f q m G (fin (at_ x)).
Proof.
  induction m as [|m IH]; intros F G HF x Hx; cbn [esampled]; [apply HF; [constructor|reflexivity]|].
  apply e_le; [|exact Hx]. intros y Hy. apply (IH (fun l => F (fin (at_ y) :: l)) (fun l => G (fin (at_ y) :: l))); [|exact Hy]. intros l Hl Ll. apply HF; [constructor; [exists y; auto|exact Hl]|cbn; rewrite Ll; reflexivity].
Qed.
Lemma es_ext q m F G : (forall l, Forall (fun y => exists x, inside n x /\ y = fin (at_ x)) l -> length l = m -> F l = G l) ->
  forall x, inside n x -> esampled N n f q m F (fin (at_ x)) = esampled N n f q m G (fin (at_ x)).
Proof. intros HF x Hx. apply Rle_antisym; apply es_le; try exact Hx; intros l Hl Ll; rewrite (HF l Hl Ll); lra. Qed.
Lemma es_lin q k m : forall F G x, esampled N n f q m (fun l => F l + k * G l) x = esampled N n f q m F x + k * esampled N n f q m G x.
Proof.
  induction m as [|m IH]; intros F G x; cbn [esampled]; [reflexivity|]. rewrite <- e_lin. f_equal. apply functional_extensionality. intros y. apply (IH (fun l => F (y :: l)) (fun l => G (y :: l))).
Qed.
Lemma es_const q k m : forall x, inside n x -> esampled N n f q m (fun _ => k) (fin (at_ x)) = k.
Proof.
  induction m as [|m IH]; intros x Hx; cbn [esampled]; [reflexivity|]. transitivity (E_ q (fun _ => k) (fin (at_ x))); [|apply e_const, Hx]. apply e_ext; [|exact Hx]. intros y Hy. apply IH, Hy.
Qed.

(** Sums over the samples *)
Definition lsum (G : chain (num ERNum) -> R) (l : list (chain (num ERNum))) : R := fold_right (fun a s => G a + s) 0 l.
Lemma es_sum G q : forall m x, inside n x -> esampled N n f q m (lsum G) (fin (at_ x)) = Rsum m (fun t => E_ (q * S t) G (fin (at_ x))).
Proof.
  induction m as [|m IH]; intros x Hx; cbn [esampled]; [reflexivity|].
  rewrite (e_ext q _ (fun y => G y + 1 * Rsum m (fun t => E_ (q * S t) G y))); [|intros y Hy|exact Hx].
  - rewrite e_lin, Rsum_first, Nat.mul_1_r, Rmult_1_l. f_equal. clear IH. 
    assert (K : forall k, E_ q (fun y => Rsum k (fun t => E_ (q * S t) G y)) (fin (at_ x)) = Rsum k (fun t => E_ (q * S (S t)) G (fin (at_ x)))).
    { induction k as [|k IK]; cbn [Rsum]; [apply e_const, Hx|]. rewrite <- IK. replace (q * S (S k))%nat with (q + q * S k)%nat by lia. rewrite expected_split, <- (Rmult_1_l (E_ q (E_ (q * S k) G) (fin (at_ x)))), <- e_lin. f_equal. apply functional_extensionality. intros y. ring. }
    apply K.
  - rewrite <- (IH y Hy).  rewrite (es_ext q m (fun l => lsum G (fin (at_ y) :: l)) (fun l => G (fin (at_ y)) + 1 * lsum G l)) by (auto; intros; unfold lsum; cbn [fold_right]; ring).
    rewrite (es_lin q 1 m (fun _ => G (fin (at_ y))) (lsum G)), es_const by exact Hy. reflexivity.
Qed.
Lemma e_abs k g B : (forall x, inside n x -> Rabs (g (fin (at_ x))) <= B) -> forall x, inside n x -> Rabs (E_ k g (fin (at_ x))) <= B.
Proof.
  intros Hg x Hx. assert (A : forall y, inside n y -> - B <= g (fin (at_ y)) <= B). { intros y Hy. pose proof (Hg y Hy). pose proof (Rle_abs (g (fin (at_ y)))). pose proof (Rle_abs (- g (fin (at_ y)))) as Q. rewrite Rabs_Ropp in Q. lra. }
  apply Rabs_le. split; [rewrite <- (e_const k (- B) x Hx)|rewrite <- (e_const k B x Hx)]; apply e_le; try exact Hx; intros y Hy; apply A, Hy.
Qed.
Lemma es_square G D C q : (forall x, inside n x -> Rabs (G (fin (at_ x))) <= D) -> forall m,
  (forall j x, (j < m)%nat -> inside n x -> Rabs (Rsum j (fun t => E_ (q * S t) G (fin (at_ x)))) <= C) ->
  forall x, inside n x -> esampled N n f q m (fun l => lsum G l * lsum G l) (fin (at_ x)) <= INR m * (D * D + 2 * D * C).
Proof.
  intros HD. induction m as [|m IH]; intros HC x Hx; cbn [esampled]; [cbn; lra|].
  assert (D0 : 0 <= D) by (eapply Rle_trans; [apply Rabs_pos|apply (HD x Hx)]).
  rewrite <- (e_const q (INR (S m) * (D * D + 2 * D * C)) x Hx). apply e_le; [|exact Hx]. intros y Hy. set (gy := G (fin (at_ y))).
  rewrite (es_ext q m (fun l => lsum G (fin (at_ y) :: l) * lsum G (fin (at_ y) :: l)) (fun l => (gy * gy + (2 * gy) * lsum G l) + 1 * (lsum G l * lsum G l))) by (auto; intros; unfold lsum; cbn [fold_right]; fold gy; ring).
  rewrite (es_lin q 1 m (fun l => gy * gy + (2 * gy) * lsum G l) (fun l => lsum G l * lsum G l)), (es_lin q (2 * gy) m (fun _ => gy * gy) (lsum G)), es_const, es_sum by exact Hy.
  pose proof (IH (fun j x Hj => HC j x ltac:(lia)) y Hy) as A. pose proof (HC m y ltac:(lia) Hy) as Q. pose proof (HD y Hy) as P. fold gy in P. set (U := Rsum m _) in *. rewrite S_INR.
  assert (G2 : gy * gy <= D * D) by (rewrite <- (Rabs_pos_eq (gy * gy)) by nra; rewrite Rabs_mult; apply Rmult_le_compat; auto using Rabs_pos).
  assert (GU : gy * U <= D * C) by (eapply Rle_trans; [apply Rle_abs|]; rewrite Rabs_mult; apply Rmult_le_compat; auto using Rabs_pos). lra.
Qed.
End L.

Lemma avg_bound k n s c (g : chain (num ERNum) -> R) B N : (1 <= N)%nat -> obs_bound n c g B ->
  Rabs (boltzmann_avg N n (beta (vars c)) (ens_energy k n s (omega c)) c (fun x => g (fin x))) <= B.
Proof.
  intros HN HB. unfold boltzmann_avg. set (w := fun x => exp (- (beta (vars c) * ens_energy k n s (omega c) (at_dirs c n x)))). set (Z := gmean (0, 0) (grid2 N) n w).
  assert (Zp : 0 < Z) by (apply gmean_pos; [apply grid2_not_nil, HN|intros; apply exp_pos]). unfold Rdiv. rewrite Rabs_mult, (Rabs_pos_eq (/ Z)) by (left; apply Rinv_0_lt_compat, Zp).
  apply Rmult_le_reg_r with Z; [exact Zp|]. rewrite Rmult_assoc, Rinv_l, Rmult_1_r by lra. eapply Rle_trans; [apply gmean_abs|]. unfold Z. rewrite <- gmean_scale. apply gmean_le. intros x Hx.
  rewrite Rabs_mult, (Rabs_pos_eq (exp _)) by (left; apply exp_pos). rewrite Rmult_comm. apply Rmult_le_compat_r; [left; apply exp_pos|]. rewrite <- cube_dirs. apply HB, (cube_in n N), Hx.
Qed.
Lemma lsum_mean g (v : R) l m : length l = m -> (1 <= m)%nat -> lmean l g - v = lsum (fun y => g y + (-1) * v) l / INR m.
Proof.
  intros <- Hl. assert (P : 0 < INR (length l)) by (apply lt_0_INR; lia). assert (E : lsum (fun y => g y + (-1) * v) l = lsum g l - INR (length l) * v).
  { clear Hl P. induction l as [|a l IH]; [cbn; ring|]. change (length (a :: l)) with (S (length l)). rewrite S_INR. unfold lsum in *. cbn [fold_right]. rewrite IH. ring. }
  rewrite E. unfold lmean, lsum. field. lra.
Qed.
Lemma mean_square k n s c (g : chain (num ERNum) -> R) B E r N q m : wf n s c -> (2 <= n)%nat -> ens_ok k n (vars c) -> 0 <= beta (vars c) -> (1 <= N)%nat -> unit_spins c ->
  energy_bound k n s c E -> obs_bound n c g B -> lasting n q (beta (vars c)) E r -> (1 <= m)%nat ->
  esampled N n (ens_sampler k ERNum) q m (fun l => (lmean l g - boltzmann_avg N n (beta (vars c)) (ens_energy k n s (omega c)) c (fun x => g (fin x))) ^ 2) (fin c)
    <= 4 * B * B * (1 + 2 * r) / INR m + 4 * B * B * INR (q * m) / INR N.
Proof.
  intros W Hn Ho Hb HN U HE HB Hq Hm. destruct (all_chains n s c W U) as (x & Hx & Ex). replace (fin c) with (fin (at_dirs c n x)) by (rewrite Ex; reflexivity).
  assert (Ix : inside n x) by (intros i _; apply Hx).
  set (v := boltzmann_avg N n _ _ c _). pose proof (avg_bound k n s c g B N HN HB) as Vb. fold v in Vb.
  assert (M : forall y, metropolis_for n (ens_energy k n s (omega c)) (ens_sampler k ERNum) (at_dirs c n y)) by (intros y; apply ens_metropolis; assumption).
  assert (n1 : (1 <= n)%nat) by lia. assert (E0 : 0 <= E) by (eapply Rle_trans; [apply Rabs_pos|apply (HE x Hx)]). assert (B0 : 0 <= B) by (eapply Rle_trans; [apply Rabs_pos|exact Vb]).
  destruct (rate_unit n _ E n1 Hb E0) as [R1 R2]. set (del := rate n (beta (vars c)) E) in *. set (f := ens_sampler k ERNum) in *.
  assert (Np : 1 <= INR N) by (change 1 with (INR 1); apply le_INR; exact HN). assert (mp : 1 <= INR m) by (change 1 with (INR 1); apply le_INR; exact Hm).
  set (G := fun y => g y + (-1) * v). set (C := 2 * B * r + INR m * (INR (q * m) * B / INR N)).
  assert (HB' : forall y, inside n y -> Rabs (g (fin (at_dirs c n y))) <= B) by (intros y Hy; rewrite <- cube_dirs; apply HB, cube_inside, Hy).
  assert (GD : forall y, inside n y -> Rabs (G (fin (at_dirs c n y))) <= 2 * B).
  { intros y Hy. unfold G. eapply Rle_trans; [apply Rabs_triang|]. pose proof (HB' y Hy). replace (-1 * v) with (- v) by ring. rewrite Rabs_Ropp. lra. }
  assert (GC : forall j y, (j < m)%nat -> inside n y -> Rabs (Rsum j (fun t => expected N n f (q * S t) G (fin (at_dirs c n y)))) <= C).
  { intros j y Hj Hy. 
    assert (T : forall t, (t < j)%nat -> Rabs (expected N n f (q * S t) G (fin (at_dirs c n y))) <= 2 * B * (1 - del) ^ (q * S t / n) + INR (q * m) * B / INR N).
    { intros t Ht. unfold G. rewrite (e_lin n f N (q * S t) g (fun _ => v) (-1)). rewrite (e_const n c _ f M n1 N HN (q * S t) v y Hy).
      pose proof (ens_converges_at k n s c g B E N (q * S t) y W Hn Ho Hb HN Hy HE HB) as Q. fold f v del in Q. replace (expected N n f (q * S t) g (fin (at_dirs c n y)) + -1 * v) with (expected N n f (q * S t) g (fin (at_dirs c n y)) - v) by ring.
      eapply Rle_trans; [exact Q|]. apply Rplus_le_compat_l. unfold Rdiv. apply Rmult_le_compat_r; [left; apply Rinv_0_lt_compat; lra|]. apply Rmult_le_compat_r; [exact B0|]. apply le_INR. nia. }
    assert (A : forall j, (forall t, (t < j)%nat -> Rabs (expected N n f (q * S t) G (fin (at_dirs c n y))) <= 2 * B * (1 - del) ^ (q * S t / n) + INR (q * m) * B / INR N) ->
      Rabs (Rsum j (fun t => expected N n f (q * S t) G (fin (at_dirs c n y)))) <= Rsum j (fun t => 2 * B * (1 - del) ^ (q * S t / n) + INR (q * m) * B / INR N)).
    { clear. induction j as [|j IH]; intros T; cbn [Rsum]; [rewrite Rabs_R0; lra|]. eapply Rle_trans; [apply Rabs_triang|]. pose proof (T j ltac:(lia)). pose proof (IH (fun t Q => T t ltac:(lia))). lra. }
    eapply Rle_trans; [apply A, T|]. rewrite Rsum_plus, Rsum_scal. unfold C. apply Rplus_le_compat.
    - apply Rmult_le_compat_l; [lra|]. apply Hq.
    - assert (K : forall j z, Rsum j (fun _ => z) = INR j * z) by (clear; induction j as [|j IH]; intros z; [cbn; ring|]; cbn [Rsum]; rewrite IH, S_INR; ring). rewrite K. apply Rmult_le_compat_r; [|apply le_INR; lia].
      apply Rmult_le_pos; [apply Rmult_le_pos; [apply pos_INR|exact B0]|left; apply Rinv_0_lt_compat; lra]. }
  pose proof (es_square n c _ f M n1 N HN G (2 * B) C q GD m GC x Ix) as Sq.
  rewrite (es_ext n c _ f M n1 N HN q m _ (fun l => 0 + / (INR m * INR m) * (lsum G l * lsum G l))).
  - rewrite (es_lin n f N q (/ (INR m * INR m)) m (fun _ => 0) (fun l => lsum G l * lsum G l)), (es_const n c _ f M n1 N HN q 0 m x Ix), Rplus_0_l.
    apply Rle_trans with (/ (INR m * INR m) * (INR m * (2 * B * (2 * B) + 2 * (2 * B) * C))); [apply Rmult_le_compat_l; [left; apply Rinv_0_lt_compat; nra|exact Sq]|].
    apply Req_le. unfold C. field. lra.
  - intros l Hl Ll. rewrite (lsum_mean g v l m Ll Hm). fold G. field. lra.
  - exact Ix.
Qed.
(** in the limit of fine grids, for the Boltzmann average itself *)
Lemma mean_square_limit k n s c (g : chain (num ERNum) -> R) B E r q m v : wf n s c -> (2 <= n)%nat -> ens_ok k n (vars c) -> 0 <= beta (vars c) -> unit_spins c ->
  energy_bound k n s c E -> obs_bound n c g B -> lasting n q (beta (vars c)) E r -> (1 <= m)%nat ->
  is_boltzmann_avg n (beta (vars c)) (ens_energy k n s (omega c)) c (fun _ x => g (fin x)) v ->
  forall eps, 0 < eps -> exists N0, forall N, (N0 <= N)%nat ->
    esampled (S N) n (ens_sampler k ERNum) q m (fun l => (lmean l g - v) ^ 2) (fin c) <= 4 * B * B * (1 + 2 * r) / INR m + eps.
Proof.
  intros W Hn Ho Hb U HE HB Hq Hm Hv eps He. destruct (all_chains n s c W U) as (x & Hx & Ex). assert (Ix : inside n x) by (intros i _; apply Hx).
  assert (M : forall y, metropolis_for n (ens_energy k n s (omega c)) (ens_sampler k ERNum) (at_dirs c n y)) by (intros y; apply ens_metropolis; assumption).
  assert (n1 : (1 <= n)%nat) by lia. assert (B0 : 0 <= B) by (eapply Rle_trans; [apply Rabs_pos|apply (HB x Hx)]).
  set (e0 := Rmin 1 (eps / 2 / (4 * B + 1))). assert (e0p : 0 < e0) by (apply Rmin_glb_lt; [lra|apply Rdiv_lt_0_compat; lra]).
  destruct (Hv e0 e0p) as [N1 H1]. set (K := 4 * B * B * INR (q * m)). assert (K0 : 0 <= K) by (unfold K; pose proof (pos_INR (q * m)); apply Rmult_le_pos; nra).
  destruct (archimed_cor1 (eps / 2 / (K + 1))) as (N2 & H2 & H3); [apply Rdiv_lt_0_compat; lra|].
  exists (N1 + N2)%nat. intros N HN. specialize (H1 N ltac:(lia)). unfold R_dist in H1.
  pose proof (mean_square k n s c g B E r (S N) q m W Hn Ho Hb ltac:(lia) U HE HB Hq Hm) as Q.
  set (f := ens_sampler k ERNum) in *. set (vN := boltzmann_avg (S N) n _ _ c _) in *. set (T := 4 * B * B * (1 + _) / INR m) in *.
  assert (L : K / INR (S N) <= eps / 2).
  { assert (S2 : / INR (S N) <= / INR N2) by (apply Rinv_le_contravar; [apply lt_0_INR; lia|apply le_INR; lia]).
    assert (S3 : 0 < / INR (S N)) by (apply Rinv_0_lt_compat, lt_0_INR; lia). left.
    apply Rle_lt_trans with ((K + 1) * / INR N2); [unfold Rdiv; nra|]. replace (eps / 2) with ((K + 1) * (eps / 2 / (K + 1))) by (field; lra). apply Rmult_lt_compat_l; lra. }
  fold K in Q. replace (fin c) with (fin (at_dirs c n x)) in Q by (rewrite Ex; reflexivity). replace (fin c) with (fin (at_dirs c n x)) by (rewrite Ex; reflexivity).
  assert (S1 : esampled (S N) n f q m (fun l => (lmean l g - v) ^ 2) (fin (at_dirs c n x)) <= esampled (S N) n f q m (fun l => (4 * B + 1) * e0 + 1 * (lmean l g - vN) ^ 2) (fin (at_dirs c n x))).
  { apply (es_le n c _ f M n1 (S N) ltac:(lia) q m); [|exact Ix]. intros l Hl Ll. cbv beta.
    assert (F : forall a, Rabs a <= B -> (a - v) ^ 2 <= (4 * B + 1) * e0 + 1 * (a - vN) ^ 2).
    { intros a A. pose proof (avg_bound k n s c g B (S N) ltac:(lia) HB) as V. fold vN in V.
      assert (D : Rabs ((a - vN) * (vN - v)) <= 2 * B * e0).
      { rewrite Rabs_mult. apply Rmult_le_compat; try apply Rabs_pos; [|lra]. unfold Rminus. eapply Rle_trans; [apply Rabs_triang|]. rewrite Rabs_Ropp. lra. }
      assert (D2 : (vN - v) * (vN - v) <= 1 * e0).
      { rewrite <- (Rabs_pos_eq ((vN - v) * (vN - v))) by apply Rle_0_sqr. rewrite Rabs_mult. assert (e0 <= 1) by apply Rmin_l. apply Rmult_le_compat; try apply Rabs_pos; lra. }
      pose proof (Rle_abs ((a - vN) * (vN - v))). replace ((a - v) ^ 2) with ((a - vN) ^ 2 + 2 * ((a - vN) * (vN - v)) + (vN - v) * (vN - v)) by ring. lra. }
    apply F. eapply Rle_trans; [apply lmean_abs|]. rewrite <- (lmean_const l B) by (destruct l; [cbn in Ll; lia|discriminate]). apply lmean_le. intros y Iy. rewrite Forall_forall in Hl. destruct (Hl y Iy) as (z & Hz & ->). rewrite <- cube_dirs. apply HB, cube_inside, Hz. }
  rewrite (es_lin n f (S N) q 1 m (fun _ => (4 * B + 1) * e0) (fun l => (lmean l g - vN) ^ 2)), (es_const n c _ f M n1 (S N) ltac:(lia) q _ m x Ix), Rmult_1_l in S1.
  assert (E1 : (4 * B + 1) * e0 <= eps / 2). { replace (eps / 2) with ((4 * B + 1) * (eps / 2 / (4 * B + 1))) by (field; lra). apply Rmult_le_compat_l; [lra|apply Rmin_r]. }
  lra.
Qed.
(** Chebyshev *)
Lemma seldom_off k n s c (g : chain (num ERNum) -> R) B E r q m v eta : wf n s c -> (2 <= n)%nat -> ens_ok k n (vars c) -> 0 <= beta (vars c) -> unit_spins c ->
  energy_bound k n s c E -> obs_bound n c g B -> lasting n q (beta (vars c)) E r -> (1 <= m)%nat -> 0 < eta ->
  is_boltzmann_avg n (beta (vars c)) (ens_energy k n s (omega c)) c (fun _ x => g (fin x)) v ->
  forall eps, 0 < eps -> exists N0, forall N, (N0 <= N)%nat ->
    esampled (S N) n (ens_sampler k ERNum) q m (fun l => off v eta (lmean l g)) (fin c) <= 4 * B * B * (1 + 2 * r) / (INR m * eta ^ 2) + eps.
Proof.
  intros W Hn Ho Hb U HE HB Hq Hm Heta Hv eps He. assert (e2 : 0 < eta ^ 2) by (apply pow_lt, Heta). assert (mp : 0 < INR m) by (apply lt_0_INR; lia).
  destruct (mean_square_limit k n s c g B E r q m v W Hn Ho Hb U HE HB Hq Hm Hv (eps * eta ^ 2) ltac:(nra)) as [N0 H0]. exists N0. intros N HN. specialize (H0 N HN).
  destruct (all_chains n s c W U) as (x & Hx & Ex). assert (Ix : inside n x) by (intros i _; apply Hx).
  assert (M : forall y, metropolis_for n (ens_energy k n s (omega c)) (ens_sampler k ERNum) (at_dirs c n y)) by (intros y; apply ens_metropolis; assumption).
  set (T := 4 * B * B * (1 + _)) in *. set (f := ens_sampler k ERNum) in *. replace (fin c) with (fin (at_dirs c n x)) in H0 by (rewrite Ex; reflexivity). replace (fin c) with (fin (at_dirs c n x)) by (rewrite Ex; reflexivity).
  apply Rle_trans with (esampled (S N) n f q m (fun l => 0 + / eta ^ 2 * (lmean l g - v) ^ 2) (fin (at_dirs c n x))).
  - apply (es_le n c _ f M ltac:(lia) (S N) ltac:(lia) q m); [|exact Ix]. intros l _ _. cbv beta.
    assert (F : forall a, off v eta a <= 0 + / eta ^ 2 * (a - v) ^ 2); [|apply F].
    intros a. unfold off. assert (I2 : 0 < / eta ^ 2) by (apply Rinv_0_lt_compat, e2). pose proof (pow2_ge_0 (a - v)) as P2.
    destruct (Rlt_dec eta (Rabs (a - v))) as [Q|Q]; [|pose proof (Rmult_le_pos _ _ (Rlt_le _ _ I2) P2); lra]. assert (eta ^ 2 <= (a - v) ^ 2) by (rewrite <- (pow2_abs (a - v)); apply pow_incr; lra).
    rewrite <- (Rinv_l (eta ^ 2)) by lra. rewrite Rplus_0_l. apply Rmult_le_compat_l; lra.
  - rewrite (es_lin n f (S N) q (/ eta ^ 2) m (fun _ => 0) (fun l => (lmean l g - v) ^ 2)), (es_const n c _ f M ltac:(lia) (S N) ltac:(lia) q _ m x Ix), Rplus_0_l.
    replace (T / (INR m * eta ^ 2) + eps) with (/ eta ^ 2 * (T / INR m + eps * eta ^ 2)) by (field; lra). apply Rmult_le_compat_l; [left; apply Rinv_0_lt_compat, e2|exact H0].
Qed.
