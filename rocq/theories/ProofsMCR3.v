(** The energies reported by the Magnus fits, and which sampler samples which energy. *)
From Coq Require Import Reals Lra Lia List ZArith Arith Bool.
From Verif Require Import Num Monad NumR Spin Config Chain Langevin SpecVec SpecChain SpecMC
  ProofsSpin ProofsChain ProofsEnergy ProofsDyn ProofsDynR ProofsDyn2 ProofsMC ProofsMCR ProofsMCR2.
Import ListNotations.
Local Open Scope R_scope.

Lemma foldM_fin (f : nat -> num ERNum -> res (num ERNum)) (g : nat -> R) k : forall a,
  (forall i b, (i < k)%nat -> f i (Some b) = Ok (Some (b + g i))) ->
  foldM f (seq 0 k) (Some a) = Ok (Some (a + Rsum k g)).
Proof.
  assert (A : forall k o a, (forall i b, (i < k)%nat -> f (o + i)%nat (Some b) = Ok (Some (b + g (o + i)%nat))) ->
    foldM f (seq o k) (Some a) = Ok (Some (a + Rsum k (fun i => g (o + i)%nat)))).
  { clear k. induction k as [|k IH]; intros o a H.
    - cbn. rewrite Rplus_0_r. reflexivity.
    - cbn [seq foldM]. pose proof (H 0%nat a ltac:(lia)) as H0. rewrite Nat.add_0_r in H0.
      rewrite H0. cbn [bind]. rewrite (IH (S o)).
      + rewrite Rsum_first. rewrite Nat.add_0_r. do 2 f_equal. rewrite <- Rplus_assoc. f_equal.
        apply Rsum_ext. intros i _. f_equal. lia.
      + intros i b Hi. replace (S o + i)%nat with (o + S i)%nat by lia. apply H. lia. }
  intros a H. apply (A k 0%nat a). exact H.
Qed.

Lemma Rsum_lft M (F : nat -> R) : (1 <= M)%nat -> Rsum M (fun i => F (lft M i)) = Rsum M F.
Proof.
  intro H. rewrite <- (Rsum_rgt M (fun i => F (lft M i)) H). apply Rsum_ext.
  intros i Hi. rewrite lft_rgt by exact Hi. reflexivity.
Qed.

Section Val.
Context (n s : nat) (sc : chain R) (W : wf n s sc).
Notation S := (S_ sc). Notation J := (J_ sc). Notation h := (h_ sc).
Notation l := (lft n). Notation r := (rgt n).
Let W' : @wf (num ERNum) n s (fin sc) := proj2 (wf_fin n s sc) W.

Lemma mgR_split k : (k < n)%nat ->
  mgR n sc S k = bond_corr S J k (r k) + bond_corr S J (l k) (r (l k))
    + trip_corr S J (l k) k (r k) + trip_corr S J (l (l k)) (l k) (r (l k))
    + trip_corr S J (l (r k)) (r k) (r (r k)).
Proof.
  intro Hk. rewrite (rgt_lft n k Hk), (lft_rgt n k Hk).
  unfold mgR, mg_add, zxi_trip, bond_corr, trip_corr, aniso, planar. cbn. ring.
Qed.
Lemma mg_total : (1 <= n)%nat ->
  Rsum n (mgR n sc S) = 2 * Rsum n (fun k => bond_corr S J k (r k))
                      + 3 * Rsum n (fun k => trip_corr S J (l k) k (r k)).
Proof.
  intro Hn. rewrite (Rsum_ext n _ _ mgR_split). rewrite !Rsum_plus.
  rewrite (Rsum_lft n (fun k => bond_corr S J k (r k)) Hn).
  rewrite (Rsum_lft n (fun k => trip_corr S J (l k) k (r k)) Hn).
  rewrite (Rsum_rgt n (fun k => trip_corr S J (l k) k (r k)) Hn). ring.
Qed.
Lemma mg_loop_value a k : (k < n)%nat -> (2 <= n)%nat ->
  mg_loop ERNum (fin sc) n k (Some a) = Ok (Some (a + mgR n sc S k)).
Proof.
  intros Hk Hn. unfold mg_loop. rewrite (i_l_ok n k Hk), (i_r_ok n k Hk), (i_ll_ok n k Hk Hn), (i_rr_ok n k Hk Hn).
  cbn [bind].
  repeat first [rewrite (spin_idx ERNum n s _ W') by auto using lft_lt', rgt_lt'
               |rewrite (j_idx ERNum n s _ W') by auto using lft_lt', rgt_lt'
               |progress cbn [bind]].
  rewrite !spins_fin, !js_fin.
  transitivity (Ok (Some (mg_add RNum a (S (l (l k))) (S (l k)) (S k) (S (r k)) (S (r (r k))) (J (l (l k))) (J (l k)) (J k) (J (r k))))); [reflexivity|].
  do 2 f_equal. unfold mgR, mg_add. cbn. ring.
Qed.

Lemma maglab_energy_value : (2 <= n)%nat -> tau (vars sc) <> 0 ->
  mc_system_energy_maglab ERNum (fin sc) = Ok (Some
   ((lab_energy n (omega sc) S J
     - (2 * Rsum n (fun k => bond_corr S J k (r k)) + 3 * Rsum n (fun k => trip_corr S J (l k) k (r k))) / (16 * omega sc))
    / INR n)).
Proof.
  intros Hn Ht. pose proof (omega_nz sc Ht) as Hw. unfold mc_system_energy_maglab. rewrite (wf_n W').
  pose proof (om_fin sc Ht) as Om. unfold om_ in Om. rewrite Om. clear Om.
  rewrite usub_ok by lia. cbn [bind]. rewrite !range0.
  change (nofZ ERNum 0) with (Some 0).
  rewrite (foldM_fin _ (fun k => bond S J k (k + 1))).
  2:{ intros k b Hk. rewrite !(spin_idx ERNum n s _ W'), !(j_idx ERNum n s _ W') by lia. cbn [bind].
      rewrite !spins_fin, !js_fin. unfold for3, bond, dot, vhad. cbn. do 2 f_equal. ring. }
  cbn [bind]. rewrite !(spin_idx ERNum n s _ W'), !(j_idx ERNum n s _ W') by lia. cbn [bind].
  rewrite !spins_fin, !js_fin.
  match goal with |- context [foldM ?f (seq 0 n) (for3 ?g ?a)] =>
    change (foldM f (seq 0 n) (for3 g a)) with (foldM f (seq 0 n) (Some (for3 (fun k e => e - k (S (n - 1)%nat) * k (J (n - 1)%nat) * k (S 0%nat)) (0 + Rsum (n - 1) (fun k => bond S J k (k + 1)%nat))))) end.
  rewrite (foldM_fin _ (fun k => - vz (S k) / (2 * omega sc))).
  2:{ intros k b Hk. rewrite !(spin_idx ERNum n s _ W') by lia. cbn [bind]. rewrite !spins_fin.
      change (ndiv ERNum) with er_div. cbn [vz fin3 v3map nopp ERNum er1 option_map nmul er2 nofZ].
      rewrite er_div_ok by lra. reflexivity. }
  cbn [bind].
  rewrite (foldM_fin _ (mgR n sc S)) by (intros; apply mg_loop_value; assumption).
  cbn [bind]. rewrite Rplus_0_l. rewrite mg_total by lia.
  change (ndiv ERNum) with er_div. cbn [nsub ERNum nmul er2 nofZ].
  rewrite er_div_ok by lra. cbn [er2]. rewrite er_div_ok by (apply IZR_n_nonzero; lia).
  rewrite <- INR_IZR_INZ. do 2 f_equal. f_equal. f_equal.
  unfold lab_energy. rewrite Rsum_minus.
  rewrite (Rsum_ring n (bond S J)) by lia.
  rewrite (Rsum_ext n (fun k => - vz (S k) / (2 * omega sc)) (fun k => - (vz (S k) / (2 * omega sc))))
    by (intros; field; exact Hw).
  rewrite Rsum_opp. unfold for3, bond, dot, vhad. cbn [vx vy vz]. ring.
  rewrite Rplus_0_l. reflexivity.
Qed.

Lemma rot_energy_value : (2 <= n)%nat -> tau (vars sc) <> 0 ->
  mc_system_energy_rot ERNum (fin sc) = Ok (Some (rot_energy 2 3 n s (omega sc) S J / INR n)).
Proof.
  intros Hn Ht. pose proof (omega_nz sc Ht) as Hw. unfold mc_system_energy_rot. rewrite (wf_n W'), (wf_s W').
  pose proof (om_fin sc Ht) as Om. unfold om_ in Om. rewrite Om. clear Om.
  pose proof (wf_sub _ _ _ W) as Hs.
  rewrite usub_ok by lia. cbn [bind]. rewrite !range0.
  change (nofZ ERNum 0) with (Some 0).
  assert (RB : forall a k q, rot_bond ERNum (Some a) (fin3 (S k)) (fin3 (J k)) (fin3 (S q)) = Some (a + rot_bond_energy S J k q)).
  { intros a k q. unfold rot_bond, for2, rot_bond_energy, planar.
    transitivity (Some (rot_bond RNum a (S k) (J k) (S q))); [reflexivity|].
    unfold rot_bond, for2. rewrite nlit_half. cbn. f_equal. field. }
  rewrite (foldM_fin _ (fun k => rot_bond_energy S J k (k + 1))).
  2:{ intros k b Hk. rewrite !(spin_idx ERNum n s _ W'), !(j_idx ERNum n s _ W') by lia. cbn [bind].
      rewrite !spins_fin, !js_fin. rewrite RB. reflexivity. }
  cbn [bind]. rewrite !(spin_idx ERNum n s _ W'), !(j_idx ERNum n s _ W') by lia. cbn [bind].
  rewrite !spins_fin, !js_fin. rewrite RB.
  rewrite (foldM_fin _ (fun k => vx (S k))).
  2:{ intros k b Hk. rewrite !(spin_idx ERNum n s _ W') by lia. cbn [bind]. rewrite !spins_fin. reflexivity. }
  cbn [bind].
  rewrite (foldM_fin _ (fun k => - omega sc * vz (S k))).
  2:{ intros k b Hk. rewrite !(spin_idx ERNum n s _ W') by lia. cbn [bind]. rewrite !spins_fin. reflexivity. }
  cbn [bind].
  rewrite (foldM_fin _ (mgR n sc S)) by (intros; apply mg_loop_value; assumption).
  cbn [bind]. rewrite !Rplus_0_l. rewrite mg_total by lia.
  change (ndiv ERNum) with er_div. cbn [nsub ERNum nmul er2 nofZ].
  rewrite er_div_ok by lra. cbn [er2]. rewrite er_div_ok by (apply IZR_n_nonzero; lia).
  rewrite <- INR_IZR_INZ. do 2 f_equal. f_equal. f_equal.
  unfold rot_energy. rewrite Rsum_minus.
  rewrite (Rsum_ring n (rot_bond_energy S J)) by lia.
  rewrite !(Rsum_mod n (fun a b => bond_corr _ J a b)), !(Rsum_mod3 n (fun a b c => trip_corr _ J a b c)).
  rewrite (Rsum_ext n (fun k => - omega sc * vz (S k)) (fun k => - (omega sc * vz (S k)))) by (intros; ring).
  rewrite Rsum_opp. ring.
Qed.
End Val.
