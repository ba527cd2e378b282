(** The theorems for observables of real chains, and the observables of the program. *)
From Coq Require Import Reals Lra Lia List ZArith Arith FunctionalExtensionality.
From Verif Require Import Num Monad NumR Spin Config Chain Fit SpecVec SpecChain SpecMC SpecFit SpecSampling SpecMean
  ProofsSpin ProofsChain ProofsEnergy ProofsMC ProofsMCR ProofsMCR2 ProofsMCR3 ProofsMCR4 ProofsSampling ProofsMean ProofsMean2 ProofsMean3 ProofsMean4 ProofsMean5 ProofsMean6 ProofsNew Samples.
Import ListNotations.
Local Open Scope R_scope.

Lemma real_fin c : real_chain (fin c) = c.
Proof.
  assert (V : forall v : vec, v3map (fun o : ER => match o with Some x => x | None => 0 end) (v3map Some v) = v) by (intros []; reflexivity).
  assert (L : forall l : list vec, map (v3map (fun o : ER => match o with Some x => x | None => 0 end)) (map (v3map Some) l) = l) by (intros l; rewrite map_map; rewrite (map_ext _ (fun v => v)) by exact V; apply map_id).
  assert (L1 : forall l : list R, map (fun o : ER => match o with Some x => x | None => 0 end) (map Some l) = l) by (intros l; rewrite map_map; apply map_id).
  destruct c as [jc sh sp tt vv hf]. destruct vv. unfold real_chain, fin, chain_map, config_map. cbn [j_couple static_h spins t vars has_file]. rewrite !L. cbn. rewrite !L1. reflexivity.
Qed.
Lemma over_fin h : (fun x => over h (fin x)) = h.
Proof. apply functional_extensionality. intros x. unfold over. rewrite real_fin. reflexivity. Qed.
Lemma over_regular h c n : regular (fun x => h (at_dirs c n x)) -> regular (fun x => over h (fin (at_dirs c n x))).
Proof. apply reg_ext. intros x. symmetry. exact (f_equal h (real_fin _)). Qed.

Section O.
Variables (k : ensemble) (n s : nat) (c : chain R) (h : chain R -> R).
Hypothesis W : wf n s c.
Hypothesis Hn : (2 <= n)%nat.
Hypothesis Ho : ens_ok k n (vars c).
Hypothesis Hb : 0 <= beta (vars c).
Let b := beta (vars c).
Let H := ens_energy k n s (omega c).
Let f := ens_sampler k ERNum.
Lemma h_stationary : regular (fun x => h (at_dirs c n x)) ->
  exists v, is_boltzmann_avg n b H c (fun _ => h) v /\ forall j, is_boltzmann_avg n b H c (fun N x => expected N n f j (over h) (fin x)) v.
Proof.
  intros Hr. destruct (stationary k n s c (over h) W Hn Ho Hb (over_regular h c n Hr)) as (v & A & B). rewrite over_fin in A. exists v. auto.
Qed.
Lemma bounds : regular (fun x => h (at_dirs c n x)) -> exists B E, (forall x, in_cube x -> Rabs (h (at_dirs c n x)) <= B) /\ energy_bound k n s c E.
Proof. intros [[B HB] _]. destruct (reg_energy k n s (omega c) c) as [[E HE] _]. exists B, E. split; assumption. Qed.
Variables (B E : R).
Hypothesis U : unit_spins c.
Hypothesis HE : energy_bound k n s c E.
Hypothesis HB : forall x, in_cube x -> Rabs (h (at_dirs c n x)) <= B.
Lemma h_bound : obs_bound n c (over h) B.
Proof. intros x Hx. unfold over. rewrite real_fin. apply HB, Hx. Qed.
Lemma h_rate N j : (1 <= N)%nat ->
  Rabs (expected N n f j (over h) (fin c) - boltzmann_avg N n b H c h) <= 2 * B * (1 - rate n b E) ^ (j / n) + INR j * B / INR N.
Proof. intros HN. pose proof (ens_converges k n s c (over h) B E N j W Hn Ho Hb HN U HE h_bound) as Q. rewrite over_fin in Q. exact Q. Qed.
Variable v : R.
Hypothesis Hv : is_boltzmann_avg n b H c (fun _ => h) v.
Lemma Hv' : is_boltzmann_avg n b H c (fun _ x => over h (fin x)) v.
Proof. rewrite over_fin. exact Hv. Qed.
Lemma h_square q m r : lasting n q b E r -> (1 <= m)%nat -> forall eps, 0 < eps -> exists N0, forall N, (N0 <= N)%nat ->
  esampled (S N) n f q m (fun l => (lmean l (over h) - v) ^ 2) (fin c) <= 4 * B * B * (1 + 2 * r) / INR m + eps.
Proof. intros Hq Hm. exact (mean_square_limit k n s c (over h) B E r q m v W Hn Ho Hb U HE h_bound Hq Hm Hv'). Qed.
Lemma h_seldom q m eta r : lasting n q b E r -> (1 <= m)%nat -> 0 < eta -> forall eps, 0 < eps -> exists N0, forall N, (N0 <= N)%nat ->
  esampled (S N) n f q m (fun l => off v eta (lmean l (over h))) (fin c) <= 4 * B * B * (1 + 2 * r) / (INR m * eta ^ 2) + eps.
Proof. intros Hq Hm He. exact (seldom_off k n s c (over h) B E r q m v eta W Hn Ho Hb U HE h_bound Hq Hm He Hv'). Qed.
Lemma h_limit eps : 0 < eps -> exists j0, forall j, (j0 <= j)%nat -> exists N0, forall N, (N0 <= N)%nat -> Rabs (expected (S N) n f j (over h) (fin c) - v) <= eps.
Proof.
  intros He. assert (C0 : in_cube (fun _ => (0, 0))) by (intros i; cbn; lra). assert (B0 : 0 <= B) by (eapply Rle_trans; [apply Rabs_pos|apply (HB _ C0)]). assert (E0 : 0 <= E) by (eapply Rle_trans; [apply Rabs_pos|apply (HE _ C0)]).
  destruct (rate_unit n b E ltac:(lia) Hb E0) as [R1 R2].
  destruct (pow_lt_1_zero (1 - rate n b E) ltac:(rewrite Rabs_pos_eq; lra) (eps / 2 / (2 * B + 1))) as [p Hp]; [apply Rdiv_lt_0_compat; lra|].
  exists (p * n)%nat. intros j Hj. destruct (ens_limit k n s c (over h) B E v j W Hn Ho Hb U HE h_bound Hv' (eps / 2) ltac:(lra)) as [N0 H0]. exists N0. intros N HN.
  eapply Rle_trans; [apply (H0 N HN)|]. assert (P : (p <= j / n)%nat) by (apply Nat.div_le_lower_bound; nia). specialize (Hp _ P). fold b.
  assert (P0 : 0 <= (1 - rate n b E) ^ (j / n)) by (apply pow_le; lra). rewrite Rabs_pos_eq in Hp by exact P0.
  assert (2 * B * (1 - rate n b E) ^ (j / n) <= eps / 2); [|lra]. replace (eps / 2) with ((2 * B + 1) * (eps / 2 / (2 * B + 1))) by (field; lra).
  apply Rle_trans with ((2 * B + 1) * (1 - rate n b E) ^ (j / n)); [nra|]. apply Rmult_le_compat_l; lra.
Qed.
End O.

(** ** The observables of the program *)
Lemma Vsum_comp (p : vec -> R) S : (p = vx \/ p = vy \/ p = vz) -> forall m, p (Vsum m S) = Rsum m (fun i => p (S i)).
Proof. intros Hp. induction m as [|m IH]; cbn [Vsum Rsum]; [destruct Hp as [->|[->| ->]]; reflexivity|]. rewrite <- IH. destruct Hp as [->|[->| ->]]; reflexivity. Qed.
Lemma reg_mag c n m (p : vec -> R) : (p = vx \/ p = vy \/ p = vz) -> regular (fun x => p (Vsum m (S_ (at_dirs c n x)))).
Proof.
  intros Hp. apply (reg_ext (fun x => Rsum m (fun i => p (S_ (at_dirs c n x) i)))); [intros x; symmetry; apply Vsum_comp, Hp|]. apply reg_sum. intros i. destruct (reg_spin c n i) as (A & B & C). destruct Hp as [->|[->| ->]]; assumption.
Qed.
Lemma reg_fit q n s w c : regular (fun x => fit_density q n s w (at_dirs c n x)).
Proof.
  pose proof (reg_spin c n) as R0. destruct q; cbn [fit_density]; apply reg_div.
  - apply reg_plus; [apply (reg_ring c n s (J_ c) (h_ c))|]. apply reg_mult; [apply reg_const|apply reg_mag; auto].
  - apply (reg_ring c n n (J_ c) (h_ c)).
  - apply (reg_ring c n n (J_ c) (h_ c)).
  - apply (reg_ext (fun x => rot_energy 2 3 n s w (S_ (at_dirs c n x)) (J_ c))); [reflexivity|]. unfold rot_energy, rot_bond_energy, bond_corr, trip_corr, planar, aniso. reg_poly R0.
  - apply reg_minus; [exact (reg_energy Elab n s w c)|].
    apply (reg_ext (fun x => (2 * Rsum n (fun i => bond_corr (S_ (at_dirs c n x)) (J_ c) i ((i + 1) mod n))
         + 3 * Rsum n (fun i => trip_corr (S_ (at_dirs c n x)) (J_ c) ((i + (n - 1)) mod n) i ((i + 1) mod n))) / (16 * w))); [reflexivity|].
    unfold bond_corr, trip_corr, planar, aniso. reg_poly R0.
Qed.
Lemma reg_obs o n w c : regular (fun x => obs_density o n w (at_dirs c n x)).
Proof.
  unfold obs_density. apply reg_div, reg_plus; [apply (reg_ring c n n (J_ c) (h_ c))|]. destruct o; [apply reg_mult; [apply reg_const|apply reg_mag; auto]|apply reg_const|apply reg_mag; auto|apply reg_mag; auto].
Qed.
Lemma program_regular c n : (forall k s w, regular (fun x => ens_energy k n s w (at_dirs c n x))) /\
  (forall q s w, regular (fun x => fit_density q n s w (at_dirs c n x))) /\ (forall o w, regular (fun x => obs_density o n w (at_dirs c n x))) /\
  (forall p, p = vx \/ p = vy \/ p = vz -> regular (fun x => mag n (at_dirs c n x) p) /\ forall i, regular (fun x => p (S_ (at_dirs c n x) i))).
Proof.
  split; [intros; apply reg_energy|]. split; [intros; apply reg_fit|]. split; [intros; apply reg_obs|]. intros p Hp. split; [apply reg_div, reg_mag, Hp|].
  intros i. destruct (reg_spin c n i) as (A & B & C). destruct Hp as [->|[->| ->]]; assumption.
Qed.

Definition free_chain : chain R := mkChain (repeat vzero 4) (repeat (mk3 0 0 2) 4) (spins (ex_chain 4 Dxyplane)) 0 (ex_conf 4 4 Dxyplane) true.
