(** The averages of every sampler from every chain of unit spins; free spins. *)
From Coq Require Import Reals Lra Lia List ZArith Arith FunctionalExtensionality.
From Verif Require Import Num Monad NumR Spin Config Chain SpecVec SpecChain SpecMC SpecSampling SpecMean
  ProofsSpin ProofsChain ProofsEnergy ProofsMC ProofsMCR ProofsMCR2 ProofsMCR3 ProofsMCR4 ProofsSampling ProofsMean ProofsMean2 ProofsMean3 ProofsMean4.
Import ListNotations.
Local Open Scope R_scope.

(** ** Every unit vector is a drawn direction *)
Lemma circle x y : x * x + y * y = 1 -> exists u, 0 <= u <= 1 /\ cos (2 * PI * u) = x /\ sin (2 * PI * u) = y.
Proof.
  intros E. pose proof PI_RGT_0 as P. assert (X : -1 <= x <= 1) by nra. pose proof (acos_bound x) as A.
  assert (S : sqrt (1 - x²) = Rabs y) by (rewrite <- sqrt_Rsqr_abs; f_equal; unfold Rsqr; lra).
  destruct (Rle_dec 0 y) as [Y|Y].
  - exists (acos x / (2 * PI)). split; [|replace (2 * PI * (acos x / (2 * PI))) with (acos x) by (field; lra)].
    + split; [apply Rmult_le_pos; [lra|left; apply Rinv_0_lt_compat; lra]|]. apply Rmult_le_reg_r with (2 * PI); [lra|]. unfold Rdiv. rewrite Rmult_assoc, Rinv_l by lra. lra.
    + rewrite cos_acos, sin_acos, S by exact X. rewrite Rabs_pos_eq by exact Y. auto.
  - exists (1 - acos x / (2 * PI)). split; [|replace (2 * PI * (1 - acos x / (2 * PI))) with (- acos x + 2 * INR 1 * PI) by (cbn [INR]; field; lra)].
    + assert (0 <= acos x / (2 * PI) <= 1); [|lra]. split; [apply Rmult_le_pos; [lra|left; apply Rinv_0_lt_compat; lra]|]. apply Rmult_le_reg_r with (2 * PI); [lra|]. unfold Rdiv. rewrite Rmult_assoc, Rinv_l by lra. lra.
    + rewrite cos_period, sin_period, cos_neg, sin_neg, cos_acos, sin_acos, S by exact X. rewrite Rabs_left by lra. split; [reflexivity|lra].
Qed.
Lemma all_directions v : unit3 v -> exists a, (0 <= fst a <= 1 /\ 0 <= snd a <= 1) /\ uniform_dir (fst a) (snd a) = v.
Proof.
  destruct v as [x y z]. unfold unit3, dot. cbn [vx vy vz]. intros E. assert (Z : -1 <= z <= 1) by nra.
  destruct (Req_dec (x * x + y * y) 0) as [Q|Q].
  - exists (0, (1 - z) / 2). cbn [fst snd]. split; [lra|]. unfold uniform_dir. replace (1 - 2 * ((1 - z) / 2)) with z by field. replace (1 - z * z) with 0 by lra. rewrite sqrt_0. f_equal; nra.
  - set (r := sqrt (1 - z * z)). assert (R2 : r * r = 1 - z * z) by (apply sqrt_sqrt; nra). assert (Rp : 0 < r) by (apply sqrt_lt_R0; nra).
    destruct (circle (x / r) (y / r)) as (u & Hu & C & S). { replace (x / r * (x / r) + y / r * (y / r)) with ((x * x + y * y) / (r * r)) by (field; lra). rewrite R2. replace (x * x + y * y) with (1 - z * z) by lra. field. nra. }
    exists (u, (1 - z) / 2). cbn [fst snd]. split; [lra|]. unfold uniform_dir. replace (1 - 2 * ((1 - z) / 2)) with z by field. fold r. rewrite C, S. f_equal; field; lra.
Qed.
Lemma all_chains n s c : wf n s c -> unit_spins c -> exists x, in_cube x /\ at_dirs c n x = c.
Proof.
  intros [_ _ _ _ L _ _] U. assert (K : forall l : list vec, Forall unit3 l -> exists x, in_cube x /\ map (fun i => uniform_dir (fst (x i)) (snd (x i))) (seq 0 (length l)) = l).
  { induction l as [|v l IH]; intros F; [exists (fun _ => (0, 0)); split; [intros i; cbn; lra|reflexivity]|]. inversion F as [|? ? F1 F2]. subst. destruct (IH F2) as (x & Hx & E). destruct (all_directions v F1) as (a & Ha & Ea).
    exists (scons a x). split; [intros [|i]; cbn [scons]; auto|]. cbn [length seq map scons]. rewrite Ea. f_equal. rewrite <- E at 2. rewrite <- seq_shift, map_map. reflexivity. }
  destruct (K (spins c) U) as (x & Hx & E). exists x. split; [exact Hx|]. transitivity (set_spins c (spins c)); [|destruct c; reflexivity]. unfold at_dirs. f_equal. rewrite <- L. exact E.
Qed.

(** ** The rate *)
Lemma rate_unit n b E : (1 <= n)%nat -> 0 <= b -> 0 <= E -> 0 < rate n b E <= 1.
Proof.
  intros Hn Hb HE. assert (P : 1 <= INR n) by (change 1 with (INR 1); apply le_INR; exact Hn). assert (0 < exp (- (2 * b * E)) <= 1).
  { split; [apply exp_pos|]. rewrite <- exp_0. destruct (Req_dec (b * E) 0) as [Q|Q]; [replace (2 * b * E) with (2 * (b * E)) by ring; rewrite Q, Rmult_0_r, Ropp_0; lra|]. left. apply exp_increasing. assert (0 < b * E) by (pose proof (Rmult_le_pos _ _ Hb HE); lra). lra. }
  unfold rate. split; [apply pow_lt, Rdiv_lt_0_compat; lra|]. rewrite <- (pow1 n). apply pow_incr. split; [left; apply Rdiv_lt_0_compat; lra|]. apply Rmult_le_reg_r with (INR n); [lra|]. unfold Rdiv. rewrite Rmult_assoc, Rinv_l by lra. lra.
Qed.
Lemma low_prob b E d : 0 <= b -> d <= 2 * E -> 0 <= E -> exp (- (2 * b * E)) <= accept_prob b d.
Proof.
  intros Hb Hd HE. unfold accept_prob. apply Rmin_glb.
  - rewrite <- exp_0. assert (Q : 0 <= 2 * b * E) by (pose proof (Rmult_le_pos _ _ Hb HE); lra). destruct Q as [Q|Q]; [left; apply exp_increasing; lra|rewrite <- Q, Ropp_0; lra].
  - assert (Q : b * d <= 2 * b * E) by (replace (2 * b * E) with (b * (2 * E)) by ring; apply Rmult_le_compat_l; assumption). destruct Q as [Q|Q]; [left; apply exp_increasing; lra|rewrite Q; lra].
Qed.
Lemma expected_split N n f a b g : forall x, expected N n f (a + b) g x = expected N n f a (expected N n f b g) x.
Proof.
  induction a as [|a IH]; intros x; [reflexivity|]. cbn [plus expected]. apply lmean_ext. intros d _. apply lmean_ext. intros u _. apply lmean_ext. intros v _. unfold on. destruct (f _ x); auto.
Qed.
Lemma ens_converges_at k n s c (g : chain (num ERNum) -> R) B E N j x : wf n s c -> (2 <= n)%nat -> ens_ok k n (vars c) -> 0 <= beta (vars c) -> (1 <= N)%nat -> inside n x ->
  (forall x, in_cube x -> Rabs (ens_energy k n s (omega c) (at_dirs c n x)) <= E) ->
  (forall x, in_cube x -> Rabs (g (fin (at_dirs c n x))) <= B) ->
  Rabs (expected N n (ens_sampler k ERNum) j g (fin (at_dirs c n x)) - boltzmann_avg N n (beta (vars c)) (ens_energy k n s (omega c)) c (fun x => g (fin x)))
    <= 2 * B * (1 - rate n (beta (vars c)) E) ^ (j / n) + INR j * B / INR N.
Proof.
  intros W Hn Ho Hb HN Hx HE HB.
  assert (HE' : forall y, inside n y -> Rabs (ens_energy k n s (omega c) (at_dirs c n y)) <= E) by (intros y Hy; rewrite <- cube_dirs; apply HE, cube_inside, Hy).
  assert (HB' : forall y, inside n y -> Rabs (g (fin (at_dirs c n y))) <= B) by (intros y Hy; rewrite <- cube_dirs; apply HB, cube_inside, Hy).
  assert (E0 : 0 <= E) by (eapply Rle_trans; [apply Rabs_pos|apply (HE' x Hx)]).
  assert (M : forall y, metropolis_for n (ens_energy k n s (omega c)) (ens_sampler k ERNum) (at_dirs c n y)) by (intros y; apply ens_metropolis; assumption).
  set (f := ens_sampler k ERNum) in *. set (H := ens_energy k n s (omega c)) in *.
  set (q := (j / n)%nat). set (r := (j mod n)%nat). assert (Ej : j = (q * n + r)%nat) by (unfold q, r; rewrite Nat.mul_comm; apply Nat.div_mod; lia).
  pose proof (converges n s c H f W Hb M ltac:(lia) N HN (exp (- (2 * beta (vars c) * E))) ltac:(left; apply exp_pos)) as Cv.
  specialize (Cv ltac:(intros i y a Hi Hy Ha; apply low_prob; [exact Hb| |exact E0]; pose proof (HE' _ (inside_put n N y i a Ha Hy)) as A1; pose proof (HE' _ Hy) as A2; fold H in A1, A2; pose proof (Rle_abs (H (at_dirs c n (put y i a)))); pose proof (Rle_abs (- H (at_dirs c n y))) as A4; rewrite Rabs_Ropp in A4; lra)).
  specialize (Cv (expected N n f r g) B q x (expected_bound n s c H f W M ltac:(lia) N g B HN HB' r) Hx).
  fold (rate n (beta (vars c)) E) in Cv.
  pose proof (stationary_rate k n s c g B N r W Hn Ho Hb HN HB) as Q. fold f H in Q.
  rewrite Ej at 1. rewrite expected_split. set (X := expected N n f (q * n) _ _) in *. set (Y := boltzmann_avg _ _ _ _ _ (fun x => expected N n f r g (fin x))) in *. set (V := boltzmann_avg _ _ _ _ _ (fun x => g (fin x))) in *.
  assert (J : INR j = INR (q * n) + INR r) by (rewrite Ej at 1; apply plus_INR). rewrite J.
  replace (X - V) with ((X - Y) + (Y - V)) by ring. eapply Rle_trans; [apply Rabs_triang|]. replace ((INR (q * n) + INR r) * B / INR N) with (INR (q * n) * B / INR N + INR r * B / INR N) by (unfold Rdiv; ring). lra.
Qed.
Lemma ens_converges k n s c (g : chain (num ERNum) -> R) B E N j : wf n s c -> (2 <= n)%nat -> ens_ok k n (vars c) -> 0 <= beta (vars c) -> (1 <= N)%nat -> unit_spins c ->
  (forall x, in_cube x -> Rabs (ens_energy k n s (omega c) (at_dirs c n x)) <= E) ->
  (forall x, in_cube x -> Rabs (g (fin (at_dirs c n x))) <= B) ->
  Rabs (expected N n (ens_sampler k ERNum) j g (fin c) - boltzmann_avg N n (beta (vars c)) (ens_energy k n s (omega c)) c (fun x => g (fin x)))
    <= 2 * B * (1 - rate n (beta (vars c)) E) ^ (j / n) + INR j * B / INR N.
Proof.
  intros W Hn Ho Hb HN U HE HB. destruct (all_chains n s c W U) as (x & Hx & Ex).
  pose proof (ens_converges_at k n s c g B E N j x W Hn Ho Hb HN (fun i _ => Hx i) HE HB) as Q. rewrite Ex in Q. exact Q.
Qed.
(** in the limit of fine grids *)
Lemma ens_limit k n s c (g : chain (num ERNum) -> R) B E v j : wf n s c -> (2 <= n)%nat -> ens_ok k n (vars c) -> 0 <= beta (vars c) -> unit_spins c ->
  (forall x, in_cube x -> Rabs (ens_energy k n s (omega c) (at_dirs c n x)) <= E) ->
  (forall x, in_cube x -> Rabs (g (fin (at_dirs c n x))) <= B) ->
  is_boltzmann_avg n (beta (vars c)) (ens_energy k n s (omega c)) c (fun _ x => g (fin x)) v ->
  forall eps, 0 < eps -> exists N0, forall N, (N0 <= N)%nat ->
    Rabs (expected (S N) n (ens_sampler k ERNum) j g (fin c) - v) <= 2 * B * (1 - rate n (beta (vars c)) E) ^ (j / n) + eps.
Proof.
  intros W Hn Ho Hb U HE HB Hv eps He. destruct (Hv (eps / 2) ltac:(lra)) as [N1 H1].
  assert (B0 : 0 <= B) by (eapply Rle_trans; [apply Rabs_pos|apply (HB (fun _ => (0, 0))); intros i; cbn; lra]).
  assert (P : 0 < INR j * B + 1) by (pose proof (Rmult_le_pos _ _ (pos_INR j) B0); lra).
  destruct (archimed_cor1 (eps / 2 / (INR j * B + 1))) as (N2 & H2 & H3); [apply Rdiv_lt_0_compat; lra|].
  exists (N1 + N2)%nat. intros N HN. specialize (H1 N ltac:(lia)). unfold R_dist in H1.
  pose proof (ens_converges k n s c g B E (S N) j W Hn Ho Hb ltac:(lia) U HE HB) as Q.
  set (X := expected _ _ _ _ _ _) in *. set (Y := boltzmann_avg _ _ _ _ _ _) in *.
  assert (L : INR j * B / INR (S N) < eps / 2).
  { assert (S2 : / INR (S N) <= / INR N2) by (apply Rinv_le_contravar; [apply lt_0_INR; lia|apply le_INR; lia]).
    assert (S3 : 0 < / INR (S N)) by (apply Rinv_0_lt_compat, lt_0_INR; lia).
    apply Rle_lt_trans with ((INR j * B + 1) * / INR N2); [unfold Rdiv; nra|]. 
    replace (eps / 2) with ((INR j * B + 1) * (eps / 2 / (INR j * B + 1))) by (field; lra). apply Rmult_lt_compat_l; assumption. }
  replace (X - v) with ((X - Y) + (Y - v)) by ring. eapply Rle_trans; [apply Rabs_triang|]. lra.
Qed.

(** ** Free spins in a field *)
Lemma gmean_exp {A} (z : A) (l : list A) (e : A -> R) : forall n, gmean z l n (fun x => exp (Rsum n (fun i => e (x i)))) = lmean l (fun a => exp (e a)) ^ n.
Proof.
  induction n as [|n IH]; cbn [gmean]; [cbn; apply exp_0|]. cbn [pow]. rewrite <- IH, Rmult_comm, <- lmean_scale. apply lmean_ext. intros a _. rewrite Rmult_comm, <- gmean_scale. apply gmean_ext. intros x _. rewrite Rsum_first, exp_plus. reflexivity.
Qed.
Lemma gmean_exp_at {A} (z : A) (l : list A) (e q : A -> R) : forall n j, (j < n)%nat ->
  gmean z l n (fun x => exp (Rsum n (fun i => e (x i))) * q (x j)) = lmean l (fun a => exp (e a) * q a) * lmean l (fun a => exp (e a)) ^ (n - 1).
Proof.
  induction n as [|n IH]; intros j Hj; [lia|]. cbn [gmean]. destruct j as [|j].
  - replace (S n - 1)%nat with n by lia. rewrite <- (gmean_exp z), Rmult_comm, <- lmean_scale. apply lmean_ext. intros a _. rewrite Rmult_comm, <- gmean_scale. apply gmean_ext. intros x _. rewrite Rsum_first, exp_plus. cbn [scons]. ring.
  - replace (S n - 1)%nat with (S (n - 1)) by lia. cbn [pow].
    transitivity (lmean l (fun a => exp (e a) * (lmean l (fun a => exp (e a) * q a) * lmean l (fun a => exp (e a)) ^ (n - 1)))).
    + apply lmean_ext. intros a _. rewrite <- (IH j ltac:(lia)), <- gmean_scale. apply gmean_ext. intros x _. rewrite Rsum_first, exp_plus. cbn [scons]. ring.
    + rewrite (lmean_ext l _ (fun a => (lmean l (fun a => exp (e a) * q a) * lmean l (fun a => exp (e a)) ^ (n - 1)) * exp (e a))) by (intros; ring). rewrite lmean_scale. ring.
Qed.
Lemma free_limits k : k <> 0 ->
  Un_cv (fun N => lmean (grid (S N)) (fun u => exp (- (k * (1 - 2 * u))))) ((exp k - exp (- k)) / (2 * k)) /\
  Un_cv (fun N => lmean (grid (S N)) (fun u => exp (- (k * (1 - 2 * u))) * (1 - 2 * u)))
    (exp k * (-1 / (2 * k) + 1 / (2 * k * k)) - exp (- k) * (1 / (2 * k) + 1 / (2 * k * k))).
Proof.
  intros Hk.
  assert (D0 : forall x, derivable_pt_lim (fun u => exp (- (k * (1 - 2 * u)))) x (2 * k * exp (- (k * (1 - 2 * x))))).
  { intros x. replace (2 * k * exp (- (k * (1 - 2 * x)))) with (exp (- (k * (1 - 2 * x))) * (2 * k)) by ring. apply (derivable_pt_lim_comp (fun u => - (k * (1 - 2 * u))) exp); [|apply derivable_pt_lim_exp].
    replace (2 * k) with (- (0 * (1 - 2 * x) + k * (0 - (0 * x + 2 * 1)))) by ring. apply (derivable_pt_lim_opp (fun u => k * (1 - 2 * u))). apply (derivable_pt_lim_mult (fun _ => k) (fun u => 1 - 2 * u)); [apply derivable_pt_lim_const|].
    apply (derivable_pt_lim_minus (fun _ => 1) (fun u => 2 * u)); [apply derivable_pt_lim_const|]. apply (derivable_pt_lim_mult (fun _ => 2) (fun u => u)); [apply derivable_pt_lim_const|apply derivable_pt_lim_id]. }
  assert (D1 : forall x, derivable_pt_lim (fun u => 1 - 2 * u) x (-2)).
  { intros x. replace (-2) with (0 - (0 * x + 2 * 1)) by ring. apply (derivable_pt_lim_minus (fun _ => 1) (fun u => 2 * u)); [apply derivable_pt_lim_const|]. apply (derivable_pt_lim_mult (fun _ => 2) (fun u => u)); [apply derivable_pt_lim_const|apply derivable_pt_lim_id]. }
  assert (C0 : continuity (fun u => exp (- (k * (1 - 2 * u))))) by (intros x; apply derivable_continuous_pt; eexists; apply D0).
  assert (C1 : continuity (fun u => 1 - 2 * u)) by (intros x; apply derivable_continuous_pt; eexists; apply D1).
  split.
  - replace ((exp k - exp (- k)) / (2 * k)) with (/ (2 * k) * exp (- (k * (1 - 2 * 1))) - / (2 * k) * exp (- (k * (1 - 2 * 0)))).
    2: { replace (- (k * (1 - 2 * 1))) with k by ring. replace (- (k * (1 - 2 * 0))) with (- k) by ring. field. exact Hk. }
    apply (grid_integral _ (fun u => / (2 * k) * exp (- (k * (1 - 2 * u)))) C0). intros x.
    replace (exp (- (k * (1 - 2 * x)))) with (0 * exp (- (k * (1 - 2 * x))) + / (2 * k) * (2 * k * exp (- (k * (1 - 2 * x))))) by (field; exact Hk).
    apply (derivable_pt_lim_mult (fun _ => / (2 * k)) (fun u => exp (- (k * (1 - 2 * u))))); [apply derivable_pt_lim_const|apply D0].
  - set (G := fun u => exp (- (k * (1 - 2 * u))) * (/ (2 * k) * (1 - 2 * u) + 1 / (2 * k * k))).
    replace (exp k * (-1 / (2 * k) + 1 / (2 * k * k)) - exp (- k) * (1 / (2 * k) + 1 / (2 * k * k))) with (G 1 - G 0).
    2: { unfold G. replace (- (k * (1 - 2 * 1))) with k by ring. replace (- (k * (1 - 2 * 0))) with (- k) by ring. field. exact Hk. }
    apply (grid_integral _ G).
    + intros x. apply (continuity_pt_mult (fun u => exp (- (k * (1 - 2 * u)))) (fun u => 1 - 2 * u)); [apply C0|apply C1].
    + intros x. unfold G.
      replace (exp (- (k * (1 - 2 * x))) * (1 - 2 * x)) with (2 * k * exp (- (k * (1 - 2 * x))) * (/ (2 * k) * (1 - 2 * x) + 1 / (2 * k * k)) + exp (- (k * (1 - 2 * x))) * ((0 * (1 - 2 * x) + / (2 * k) * -2) + 0)) by (field; exact Hk).
      apply (derivable_pt_lim_mult (fun u => exp (- (k * (1 - 2 * u)))) (fun u => / (2 * k) * (1 - 2 * u) + 1 / (2 * k * k))); [apply D0|].
      apply (derivable_pt_lim_plus (fun u => / (2 * k) * (1 - 2 * u)) (fun _ => 1 / (2 * k * k))); [|apply derivable_pt_lim_const].
      apply (derivable_pt_lim_mult (fun _ => / (2 * k)) (fun u => 1 - 2 * u)); [apply derivable_pt_lim_const|apply D1].
Qed.

Lemma free_avg n s w c b h j : (j < n)%nat -> (forall i, (i < n)%nat -> J_ c i = vzero) -> (forall i, (i < n)%nat -> h_ c i = mk3 0 0 h) -> b * h <> 0 ->
  is_boltzmann_avg n b (ens_energy Estatic n s w) c (fun _ x => vz (S_ x j)) (/ (b * h) - (exp (b * h) + exp (- (b * h))) / (exp (b * h) - exp (- (b * h)))).
Proof.
  intros Hj HJ Hh Hk. set (k := b * h) in *.
  assert (Ew : forall x, - (b * ens_energy Estatic n s w (at_dirs c n x)) = Rsum n (fun i => - (k * (1 - 2 * snd (x i))))).
  { intros x. cbn [ens_energy]. unfold ring_energy. rewrite Ropp_mult_distr_r, <- Rsum_opp, <- Rsum_scal. apply Rsum_ext. intros i Hi.
    change (J_ (at_dirs c n x)) with (J_ c). change (h_ (at_dirs c n x)) with (h_ c). unfold bond. rewrite (HJ i Hi), (Hh i Hi), !dirs_spin. replace (i <? n)%nat with true by (symmetry; apply Nat.ltb_lt; exact Hi).
    unfold dot, vhad, vzero, uniform_dir. cbn [vx vy vz]. unfold k. ring. }
  assert (Es : forall x, vz (S_ (at_dirs c n x) j) = 1 - 2 * snd (x j)) by (intros x; rewrite dirs_spin; replace (j <? n)%nat with true by (symmetry; apply Nat.ltb_lt; exact Hj); reflexivity).
  set (e := fun a : R * R => - (k * (1 - 2 * snd a))). set (q := fun a : R * R => 1 - 2 * snd a).
  assert (L1 : forall N, (1 <= N)%nat -> lmean (grid2 N) (fun a => exp (e a)) = lmean (grid N) (fun u => exp (- (k * (1 - 2 * u))))).
  { intros N HN. unfold grid2. rewrite lmean_prod by (apply grid_not_nil, HN). unfold e. cbn [snd]. apply lmean_const, grid_not_nil, HN. }
  assert (L2 : forall N, (1 <= N)%nat -> lmean (grid2 N) (fun a => exp (e a) * q a) = lmean (grid N) (fun u => exp (- (k * (1 - 2 * u))) * (1 - 2 * u))).
  { intros N HN. unfold grid2. rewrite lmean_prod by (apply grid_not_nil, HN). unfold e, q. cbn [snd]. apply lmean_const, grid_not_nil, HN. }
  assert (Ea : forall N, boltzmann_avg (S N) n b (ens_energy Estatic n s w) c (fun x => vz (S_ x j)) =
    lmean (grid (S N)) (fun u => exp (- (k * (1 - 2 * u))) * (1 - 2 * u)) * / lmean (grid (S N)) (fun u => exp (- (k * (1 - 2 * u))))).
  { intros N. unfold boltzmann_avg. rewrite (gmean_ext (0, 0) _ n _ (fun x => exp (Rsum n (fun i => e (x i))) * q (x j))) by (intros x _; rewrite Ew, Es; reflexivity).
    rewrite (gmean_ext (0, 0) _ n (fun x => exp (- _)) (fun x => exp (Rsum n (fun i => e (x i))))) by (intros x _; rewrite Ew; reflexivity).
    rewrite gmean_exp, gmean_exp_at by exact Hj. rewrite L1, L2 by lia. assert (P : 0 < lmean (grid (S N)) (fun u => exp (- (k * (1 - 2 * u))))) by (apply lmean_pos; [apply grid_not_nil; lia|intros; apply exp_pos]).
    destruct n as [|m]; [lia|]. replace (S m - 1)%nat with m by lia. cbn [pow]. field. split; [lra|apply pow_nonzero; lra]. }
  unfold is_boltzmann_avg. intros eps He. destruct (free_limits k Hk) as [A1 A2].
  assert (Sh : exp k - exp (- k) <> 0). { intros Q. destruct (Rtotal_order k 0) as [X|[X|X]]; [|contradiction|]; [assert (Y := exp_increasing k (- k) ltac:(lra))|assert (Y := exp_increasing (- k) k ltac:(lra))]; lra. }
  destruct (CV_mult _ _ _ _ A2 (cv_inv _ _ A1 ltac:(unfold Rdiv; apply Rmult_integral_contrapositive_currified; [exact Sh|apply Rinv_neq_0_compat; lra])) eps He) as [N0 H0].
  exists N0. intros N HN. specialize (H0 N HN). rewrite Ea.
  replace (/ k - (exp k + exp (- k)) / (exp k - exp (- k))) with ((exp k * (-1 / (2 * k) + 1 / (2 * k * k)) - exp (- k) * (1 / (2 * k) + 1 / (2 * k * k))) * / ((exp k - exp (- k)) / (2 * k))); [exact H0|]. field. tauto.
Qed.
