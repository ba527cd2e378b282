(** The expected values as means over the paths of all draws, and the numbers reported with the fits. *)
From Coq Require Import Reals Lra Lia List ZArith Arith FunctionalExtensionality.
From Verif Require Import Num Monad NumR Spin Config Chain Fit SpecVec SpecChain SpecMC SpecFit SpecSampling SpecMean
  ProofsSpin ProofsChain ProofsNew ProofsEnergy ProofsFFT ProofsMC ProofsMCR ProofsMCR2 ProofsMCR3 ProofsMCR4 ProofsSampling ProofsMean ProofsMean2 ProofsMean3 ProofsMean4 ProofsMean5 ProofsMean6 ProofsMean7.
Import ListNotations.
Local Open Scope R_scope.

(** ** Sequences *)
Section G.
Context {A : Type} (z : A) (l : list A).
Definition full (n : nat) (x : nat -> A) : Prop := (forall i, (i < n)%nat -> In (x i) l) /\ forall i, (n <= i)%nat -> x i = z.
Lemma gmean_le_full n : forall F G, (forall x, full n x -> F x <= G x) -> gmean z l n F <= gmean z l n G.
Proof.
  induction n as [|n IH]; intros F G H; cbn [gmean]; [apply H; split; [lia|auto]|]. apply lmean_le. intros a Ha. apply IH. intros x [X1 X2]. apply H. split; intros [|i] Hi; cbn [scons]; auto; [apply X1; lia|lia|apply X2; lia].
Qed.
Lemma gmean_ext_full n F G : (forall x, full n x -> F x = G x) -> gmean z l n F = gmean z l n G.
Proof. intros H. apply Rle_antisym; apply gmean_le_full; intros x Hx; rewrite (H x Hx); lra. Qed.
Definition join (a : nat) (x y : nat -> A) : nat -> A := fun i => if (i <? a)%nat then x i else y (i - a)%nat.
Lemma gmean_add b : forall a F, gmean z l (a + b) F = gmean z l a (fun x => gmean z l b (fun y => F (join a x y))).
Proof.
  induction a as [|a IH]; intros F; cbn [gmean plus].
  - f_equal. apply functional_extensionality. intros y. f_equal. apply functional_extensionality. intros i. unfold join. cbn. rewrite Nat.sub_0_r. reflexivity.
  - apply lmean_ext. intros q _. rewrite IH. f_equal. apply functional_extensionality. intros x. f_equal. apply functional_extensionality. intros y. f_equal. apply functional_extensionality. intros [|i]; [reflexivity|]. reflexivity.
Qed.
End G.

Lemma moves_nil N n : (1 <= N)%nat -> (1 <= n)%nat -> all_moves N n <> [].
Proof.
  intros HN Hn. unfold all_moves. destruct (not_nil_in (grid2 N) (grid2_not_nil N HN)) as [a Ha]. destruct (not_nil_in (grid N) (grid_not_nil N HN)) as [u Hu].
  intros E. assert (I : In (0%nat, (a, u)) (list_prod (seq 0 n) (list_prod (grid2 N) (grid N)))) by (apply in_prod; [apply in_seq; lia|apply in_prod; assumption]).
  apply (in_map (fun p => mkMove (fst p) (fst (fst (snd p))) (snd (fst (snd p))) (snd (snd p)))) in I. rewrite E in I. destruct I.
Qed.
Lemma moves_fair N n m : In m (all_moves N n) -> fair m /\ (mv_site m < n)%nat.
Proof.
  intros I. apply in_map_iff in I. destruct I as ([d [a u]] & <- & I). apply in_prod_iff in I. destruct I as [Id I]. apply in_prod_iff in I. destruct I as [Ia Iu]. cbn [fst snd].
  apply in_seq in Id. destruct (grid2_unit N a Ia) as [U1 U2]. apply grid_unit in Iu. unfold fair, unit_draw in *. cbn [mv_1 mv_2 mv_u mv_site]. repeat split; lra || lia.
Qed.
Lemma moves_mean N n F : (1 <= N)%nat -> lmean (all_moves N n) F = lmean (seq 0 n) (fun d => lmean (grid2 N) (fun a => lmean (grid N) (fun u => F (mkMove d (fst a) (snd a) u)))).
Proof.
  intros HN. unfold all_moves. rewrite lmean_map. pose proof (grid2_not_nil N HN) as G2. pose proof (grid_not_nil N HN) as G1.
  rewrite lmean_prod. 2: { destruct (not_nil_in _ G2) as [a Ha]. destruct (not_nil_in _ G1) as [u Hu]. intros E. pose proof (in_prod _ _ a u Ha Hu) as I. rewrite E in I. destruct I. }
  apply lmean_ext. intros d _. rewrite lmean_prod by exact G1. reflexivity.
Qed.

Section P.
Variables (k : ensemble) (n s : nat) (c : chain R).
Hypothesis W : wf n s c.
Hypothesis Hn : (2 <= n)%nat.
Hypothesis Ho : ens_ok k n (vars c).
Let b := beta (vars c).
Let H := ens_energy k n s (omega c).
Let f := ens_sampler k ERNum.
Variables (N : nat) (HN : (1 <= N)%nat).
Let path := mpath n H b.
Lemma path_ext mv mv' c0 : forall j, (forall i, (i < j)%nat -> mv i = mv' i) -> path mv c0 j = path mv' c0 j.
Proof. induction j as [|j IH]; intros E; [reflexivity|]. unfold path in *. cbn [mpath]. rewrite IH, (E j) by auto. reflexivity. Qed.
Lemma path_join a mv mv' c0 : forall j, path (join a mv mv') c0 (a + j) = path mv' (path mv c0 a) j.
Proof.
  induction j as [|j IH].
  - rewrite Nat.add_0_r. change (path (join a mv mv') c0 a = path mv c0 a). apply path_ext. intros i Hi. unfold join. replace (i <? a)%nat with true by (symmetry; apply Nat.ltb_lt; exact Hi). reflexivity.
  - rewrite Nat.add_succ_r. unfold path in *. cbn [mpath]. rewrite IH. f_equal. unfold join. replace (a + j <? a)%nat with false by (symmetry; apply Nat.ltb_ge; lia). f_equal. lia.
Qed.
Definition like (c0 : chain R) : Prop := wf n s c0 /\ vars c0 = vars c.
Lemma path_like mv c0 j : like c0 -> like (path mv c0 j).
Proof. intros [W0 V0]. destruct (mpath_frame n s H b mv c0 W0 j) as (A & B & _). split; [exact A|]. unfold path. rewrite B. exact V0. Qed.
Lemma step1 m c0 : like c0 -> fair m -> f (as_draw m) (fin c0) = Ok (fin (mstep n H b m c0)).
Proof.
  intros [W0 V0] Fm. assert (O0 : omega c0 = omega c) by (unfold omega; rewrite V0; reflexivity).
  pose proof (path_steps k n s (omega c) c0 (fun _ => m) W0 Hn ltac:(rewrite V0; exact Ho) (eq_sym O0) (fun _ => Fm) 0) as Q.
  cbn [mpath] in Q. rewrite V0 in Q. exact Q.
Qed.
Lemma expected_paths g c0 : like c0 -> forall j, expected N n f j g (fin c0) = gmean still (all_moves N n) j (fun mv => g (fin (path mv c0 j))).
Proof.
  intros L0 j. revert g. induction j as [|j IH]; intros g; [reflexivity|].
  replace (S j) with (j + 1)%nat by lia. rewrite expected_split, IH, gmean_add. apply gmean_ext. intros mv Hmv. cbn [gmean expected]. rewrite (moves_mean N n _ HN).
  pose proof (path_like mv c0 j L0) as Lj.
  apply lmean_ext. intros d Hd. apply lmean_ext. intros a Ha. apply lmean_ext. intros u Hu.
  assert (Fm : fair (mkMove d (fst a) (snd a) u)). { destruct (grid2_unit N a Ha) as [U1 U2]. apply grid_unit in Hu. unfold fair, unit_draw in *. cbn. lra. }
  change (draw d (fst a) (snd a) u) with (as_draw (mkMove d (fst a) (snd a) u)). rewrite (step1 _ _ Lj Fm). cbn [on]. rewrite path_join. reflexivity.
Qed.
Lemma sampled_paths q : forall m F c0, like c0 -> esampled N n f q m F (fin c0) =
  gmean still (all_moves N n) (m * q) (fun mv => F (map (fun i => fin (path mv c0 (q * S i))) (seq 0 m))).
Proof.
  induction m as [|m IH]; intros F c0 L0; [reflexivity|]. cbn [esampled Nat.mul]. rewrite (expected_paths _ c0 L0), gmean_add. apply gmean_ext. intros mv _. cbv beta.
  refine (eq_trans (IH (fun l => F (fin (path mv c0 q) :: l)) _ (path_like mv c0 q L0)) _). f_equal. apply functional_extensionality. intros mv'. f_equal. cbn [seq map]. f_equal.
  - f_equal. replace (q * 1)%nat with (q + 0)%nat by lia. rewrite path_join. reflexivity.
  - rewrite <- seq_shift, map_map. apply map_ext. intros i. f_equal. replace (q * S (S i))%nat with (q + q * S i)%nat by lia. rewrite path_join. reflexivity.
Qed.
Lemma mean_paths q m h mv c0 : (1 <= m)%nat -> lmean (map (fun i => fin (path mv c0 (q * S i))) (seq 0 m)) (over h) = path_mean m q h (path mv c0).
Proof.
  intros Hm. rewrite lmean_map. unfold lmean, path_mean. rewrite seq_length. f_equal.
  rewrite Rsum_list. generalize (seq 0 m) as l. induction l as [|i l IHl]; [reflexivity|]. cbn [fold_right map]. rewrite IHl. f_equal. unfold over. rewrite real_fin. reflexivity.
Qed.
End P.

Lemma path_unique n H b mv st : metropolis_path n H b mv st -> forall j, st j = mpath n H b mv (st 0%nat) j.
Proof.
  intros P. induction j as [|j IH]; [reflexivity|]. cbn [mpath]. rewrite <- IH. destruct (P j) as [P1 P2].
  destruct (accepts_dec b (H (moved (st j) (mv_site (mv j) mod n) (uniform_dir (mv_1 (mv j)) (mv_2 (mv j)))) - H (st j)) (mv_u (mv j))) as [Y|Y].
  - rewrite (mstep_yes n H b (mv j) (st j) Y). exact (P1 Y).
  - rewrite (mstep_no n H b (mv j) (st j) Y). exact (P2 Y).
Qed.
Lemma still_fair : fair still. Proof. unfold fair, unit_draw. cbn. lra. Qed.
Lemma full_fair N n j mv : full still (all_moves N n) j mv -> forall i, fair (mv i).
Proof. intros [A B] i. destruct (le_lt_dec j i) as [L|L]; [rewrite (B i L); exact still_fair|exact (proj1 (moves_fair N n _ (A i L)))]. Qed.
Lemma obs_seldom o i n (conf : config R) d sc0 :
  chain_new ERNum (config_map Some (set_ssize conf (hsize conf))) d = Ok (fin sc0) -> vars sc0 = set_ssize conf (hsize conf) ->
  wf n n sc0 -> unit_spins sc0 -> (2 <= n)%nat -> ens_ok (obs_ensemble o) n conf -> (o = Omain -> tau conf <> 0) -> 0 <= beta conf -> (i < 4)%nat ->
  let w := 2 * PI / tau conf in let h := obs_observable o n w i in
  forall B E, energy_bound (obs_ensemble o) n n sc0 E -> (forall x, in_cube x -> Rabs (h (at_dirs sc0 n x)) <= B) ->
  forall v, is_boltzmann_avg n (beta conf) (ens_energy (obs_ensemble o) n n w) sc0 (fun _ => h) v ->
  forall r eta eps, lasting n (Z.to_nat (gap (obs_ensemble o))) (beta conf) E r -> 0 < eta -> 0 < eps -> exists N0, forall N, (N0 <= N)%nat ->
    gmean still (all_moves (S N) n) (Z.to_nat 8000 * Z.to_nat (gap (obs_ensemble o))) (fun mv =>
      off v eta (obs_number i (obs_of ERNum o (with_moves d mv) (config_map Some conf))))
    <= 4 * B * B * (1 + 2 * r) / (8000 * eta ^ 2) + eps.
Proof.
  intros Cn V W U Hn Ho Ht Hb Hi w h B E HE HB v Hv r eta eps Hr He Hp.
  assert (Om : omega sc0 = w) by (unfold omega; rewrite V; reflexivity).
  assert (Bt : beta (vars sc0) = beta conf) by (rewrite V; reflexivity).
  assert (Ho' : ens_ok (obs_ensemble o) n (vars sc0)) by (rewrite V; destruct o; exact Ho).
  assert (G8 : (1 <= Z.to_nat 8000)%nat) by (apply (Z2Nat.inj_le 1); lia).
  assert (E8 : INR (Z.to_nat 8000) = 8000) by (rewrite INR_IZR_INZ, Z2Nat.id by lia; reflexivity).
  assert (O : forall mv, (forall j, fair (mv j)) -> obs_number i (obs_of ERNum o (with_moves d mv) (config_map Some conf)) =
    path_mean (Z.to_nat 8000) (Z.to_nat (gap (obs_ensemble o))) h (mpath n (ens_energy (obs_ensemble o) n n w) (beta conf) mv sc0)).
  { intros mv Fm. destruct (obs_value o n conf (with_moves d mv) sc0 mv Cn V W Hn Ho Ht Fm (fun _ => eq_refl)) as (st & S0 & Ps & Q).
    rewrite Q. assert (Pe : st = mpath n (ens_energy (obs_ensemble o) n n w) (beta conf) mv sc0) by (apply functional_extensionality; intros j; rewrite <- S0; apply path_unique; exact Ps).
    rewrite <- Pe. destruct i as [|[|[|[|i]]]]; try lia; reflexivity. }
  rewrite <- Bt, <- Om in Hv.
  destruct (h_seldom (obs_ensemble o) n n sc0 h W Hn Ho' ltac:(rewrite Bt; exact Hb) B E U HE HB v Hv _ _ eta r ltac:(rewrite Bt; exact Hr) G8 He eps Hp) as [N0 HN]. rewrite E8 in HN.
  exists N0. intros N L. eapply Rle_trans; [|exact (HN N L)]. right. symmetry.
  rewrite (sampled_paths (obs_ensemble o) n n sc0 Hn Ho' (S N) ltac:(lia) _ _ _ sc0 (conj W eq_refl)).
  apply gmean_ext_full. intros mv Hmv. rewrite (O mv (full_fair _ _ _ _ Hmv)). rewrite mean_paths by exact G8. rewrite Om, Bt. reflexivity.
Qed.
Lemma fin_unit (c : chain R) : (forall i v, nth_error (spins (fin c)) i = Some (fin3 v) -> unit3 v) -> unit_spins c.
Proof.
  intros H. apply Forall_forall. intros v Iv. apply In_nth_error in Iv. destruct Iv as [i Iv]. apply (H i). exact (map_nth_error _ _ _ Iv).
Qed.
Lemma new_unit conf (d : newdraw ERNum) (u3 : nat -> R) sc :
  (3 <= length (hfield conf))%nat -> (3 <= length (hs conf))%nat -> (0 <= hsize conf < 2 ^ 31)%Z -> (forall i, snd (nd_u d i) = Some (u3 i)) ->
  chain_new ERNum (config_map Some conf) d = Ok (fin sc) -> unit_spins sc.
Proof. intros A B C D E. apply fin_unit. intros i v Hv. exact (proj1 (new_spins_boltzmann conf d u3 (fin sc) A B C D E i v Hv)). Qed.

(** A weakly coupled pair of spins *)
Lemma lasting_weak b E : 0 <= b -> 0 <= E -> b * E <= 1 / 10 -> lasting 2 (Z.to_nat 1000) b E (1 / 100).
Proof.
  intros Hb HE Hw. assert (L : (2 <= Z.to_nat 1000)%nat) by (apply (Z2Nat.inj_le 2); lia). destruct (lasting_far 2 (Z.to_nat 1000) b E ltac:(lia) Hb HE) as [P Q]. cbv zeta in P, Q.
  assert (D : (Z.to_nat 1000 / 2)%nat = (4 * 125)%nat). { change (Z.to_nat 1000) with (Z.to_nat (8 * 125)). rewrite Z2Nat.inj_mul by lia. change (Z.to_nat 8) with (4 * 2)%nat. change (Z.to_nat 125) with 125%nat. rewrite <- (Nat.div_mul (4 * 125) 2) by lia. reflexivity. }
  rewrite D in P, Q. assert (e : 4 / 5 <= exp (- (2 * b * E))) by (pose proof (exp_ineq1_le (- (2 * b * E))); lra).
  assert (Rt : 4 / 25 <= rate 2 b E <= 1). { split; [|apply rate_unit; [lia|assumption..]]. unfold rate. change (INR 2) with 2. cbn [pow]. nra. }
  set (d := 1 - rate 2 b E) in *. assert (Hd : 0 <= d <= 21 / 25) by (unfold d; lra).
  assert (F : d ^ 4 <= 1 / 2). { apply Rle_trans with ((21 / 25) ^ 4); [apply pow_incr; lra|lra]. }
  assert (G : d ^ (4 * 125) <= (1 / 2) ^ 7). { rewrite pow_mult. apply Rle_trans with ((1 / 2) ^ 125); [apply pow_incr; split; [apply pow_le; lra|exact F]|]. apply pow_anti; [lra|lia]. }
  set (p := d ^ (4 * 125)) in *. replace ((1 / 2) ^ 7) with (1 / 128) in G by (cbn [pow]; lra). intros j. eapply Rle_trans; [apply Q|]. apply Rmult_le_reg_r with (1 - p); [lra|]. unfold Rdiv at 1. rewrite Rmult_assoc, Rinv_l by lra. lra.
Qed.
