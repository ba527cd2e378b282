(** Which reported energies are sampled; closed loops of moves. *)
From Coq Require Import Reals Lra Lia List ZArith Arith Bool.
From Verif Require Import Num Monad NumR Spin Config Chain Langevin SpecVec SpecChain SpecMC Samples
  ProofsSpin ProofsChain ProofsEnergy ProofsDyn ProofsDynR ProofsDyn2 ProofsMC ProofsMCR ProofsMCR2 ProofsMCR3 ProofsMCR4.
Import ListNotations.
Local Open Scope R_scope.

Lemma corr_0 n (S J : nat -> vec) : (forall i, (i < n)%nat -> vx (J i) = vy (J i)) ->
  Rsum n (fun k => bond_corr S J k (rgt n k)) = 0 /\ Rsum n (fun k => trip_corr S J (lft n k) k (rgt n k)) = 0.
Proof.
  intro H. split.
  - rewrite (Rsum_ext n _ (fun _ => 0)); [apply Rsum_0|]. intros k Hk. unfold bond_corr, aniso.
    rewrite (H k Hk). ring.
  - rewrite (Rsum_ext n _ (fun _ => 0)); [apply Rsum_0|]. intros k Hk. unfold trip_corr, aniso.
    rewrite (H k Hk). ring.
Qed.

Lemma Emaglab_value n s sc : wf n s sc -> (2 <= n)%nat -> tau (vars sc) <> 0 ->
  Emaglab n sc = lab_energy n (omega sc) (S_ sc) (J_ sc)
     - (2 * Rsum n (fun k => bond_corr (S_ sc) (J_ sc) k (rgt n k))
        + 3 * Rsum n (fun k => trip_corr (S_ sc) (J_ sc) (lft n k) k (rgt n k))) / (16 * omega sc).
Proof.
  intros W Hn Ht. unfold Emaglab. rewrite (maglab_energy_value n s sc W Hn Ht). cbn [val].
  field. split; [apply omega_nz; exact Ht|apply INR_nz; lia].
Qed.
Lemma Erot_value n s sc : wf n s sc -> (2 <= n)%nat -> tau (vars sc) <> 0 ->
  Erot n sc = rot_energy 2 3 n s (omega sc) (S_ sc) (J_ sc).
Proof.
  intros W Hn Ht. unfold Erot. rewrite (rot_energy_value n s sc W Hn Ht). cbn [val].
  field. apply INR_nz; lia.
Qed.
Lemma maglab_iso n s sc : wf n s sc -> (2 <= n)%nat -> tau (vars sc) <> 0 -> isotropic_xy n sc ->
  metropolis_for n (Emaglab n) (metropolis_update_maglab ERNum) sc.
Proof.
  intros W Hn Ht I. eapply metropolis_for_ext; [|apply (maglab_step n s); assumption]. cbv beta.
  intros d u1 u2 _ _. set (m := moved _ _ _).
  rewrite (Emaglab_value n s sc W Hn Ht). rewrite (Emaglab_value n s m); [|apply moved_wf; exact W|exact Hn|exact Ht].
  destruct (corr_0 n (S_ sc) (J_ sc) I) as [A B].
  destruct (corr_0 n (S_ m) (J_ m) I) as [A' B']. rewrite A, B, A', B'.
  change (omega m) with (omega sc). field. apply omega_nz. exact Ht.
Qed.
Lemma rot_iso n s sc : wf n s sc -> (3 <= n)%nat -> tau (vars sc) <> 0 -> isotropic_xy n sc ->
  metropolis_for n (Erot n) (metropolis_update_rot_magnus ERNum) sc.
Proof.
  intros W Hn Ht I. eapply metropolis_for_ext; [|apply (rot_step n s); assumption]. cbv beta.
  intros d u1 u2 _ _. set (m := moved _ _ _).
  rewrite (Erot_value n s sc W); [|lia|exact Ht]. rewrite (Erot_value n s m); [|apply moved_wf; exact W|lia|exact Ht].
  unfold rot_energy. rewrite !(Rsum_mod n (fun a b => bond_corr _ _ a b)), !(Rsum_mod3 n (fun a b c => trip_corr _ _ a b c)).
  destruct (corr_0 n (S_ sc) (J_ sc) I) as [A B].
  destruct (corr_0 n (S_ m) (J_ m) I) as [A' B']. rewrite A, B, A', B'.
  change (omega m) with (omega sc). field. apply omega_nz. exact Ht.
Qed.

Lemma Ok_inj {A} (a b : A) : Ok a = Ok b -> a = b.
Proof. intro H. injection H. auto. Qed.
(** Two energies with different changes cannot both be the sampled one *)
Lemma not_step n s sc E1 E2 f d u1 u2 : wf n s sc -> (1 <= n)%nat -> 0 < beta (vars sc) ->
  unit_draw u1 -> unit_draw u2 ->
  metropolis_for n E1 f sc ->
  let sc' := moved sc (d mod n) (uniform_dir u1 u2) in
  uniform_dir u1 u2 <> S_ sc (d mod n) ->
  0 < E1 sc' - E1 sc < E2 sc' - E2 sc ->
  exists u, unit_draw u /\ ~ metropolis_step n E2 f sc d u1 u2 u.
Proof.
  intros W Hn Hb D1 D2 M sc' Ne [H1 H2]. set (b := beta (vars sc)) in *.
  set (u := exp (- (b * (E2 sc' - E2 sc)))).
  assert (Hu : unit_draw u).
  { unfold u. split; [left; apply exp_pos|]. rewrite <- exp_0. apply exp_increasing. nra. }
  exists u. split; [exact Hu|]. intros [_ M2].
  destruct (M d u1 u2 u D1 D2 Hu) as [M1 _]. fold b sc' in M1, M2.
  assert (A1 : accepts b (E1 sc' - E1 sc) u) by (right; unfold u; apply exp_increasing; nra).
  assert (A2 : ~ accepts b (E2 sc' - E2 sc) u) by (intros [A|A]; unfold u in *; lra).
  pose proof (eq_trans (eq_sym (M1 A1)) (M2 A2)) as Q. apply Ok_inj, fin_inj in Q. apply Ne. rewrite <- Q. unfold sc'. rewrite moved_S.
  - rewrite Nat.eqb_refl. reflexivity.
  - rewrite (wf_spins _ _ _ W). apply Nat.mod_upper_bound. lia.
Qed.

Lemma uniform_dir_x : uniform_dir 0 (1 / 2) = mk3 1 0 0.
Proof.
  unfold uniform_dir. cbv zeta. replace (1 - (1 - 2 * (1 / 2)) * (1 - 2 * (1 / 2))) with 1 by field.
  rewrite sqrt_1, Rmult_0_r, cos_0, sin_0. f_equal; field.
Qed.

(** A chain with one anisotropic bond *)
Definition aniso_chain : chain R :=
  mkChain [mk3 0 1 0; vzero; vzero; vzero] [vzero; vzero; vzero; vzero]
          [mk3 0 0 1; mk3 1 0 0; mk3 0 1 0; mk3 0 1 0] 0
          (set_beta (set_tau (ex_conf 4 4 Dxyplane) (2 * PI)) 1) true.
Lemma aniso_wf : wf 4 4 aniso_chain.
Proof. constructor; cbn; auto; lia. Qed.
Lemma aniso_unit : unit_spins aniso_chain.
Proof. unfold unit_spins; cbn. repeat constructor; unfold unit3, dot; cbn; lra. Qed.
Lemma aniso_tau : tau (vars aniso_chain) <> 0.
Proof. cbn. pose proof PI_RGT_0. lra. Qed.
Lemma aniso_omega : omega aniso_chain = 1.
Proof. unfold omega. cbn. pose proof PI_RGT_0. field. lra. Qed.

Ltac crunch := unfold S_, J_, at_, moved; cbn [Rsum rgt lft Nat.eqb Nat.add Nat.sub nth spins j_couple set_spins
   aniso_chain length map seq Nat.modulo Nat.divmod snd fst Nat.ltb Nat.leb].

Lemma maglab_disagrees : exists u, unit_draw u /\
  ~ metropolis_step 4 (Emaglab 4) (metropolis_update_maglab ERNum) aniso_chain 0 0 (1 / 2) u.
Proof.
  eapply (not_step 4 4 aniso_chain (fun c => lab_energy 4 (omega aniso_chain) (S_ c) (J_ c))).
  - apply aniso_wf. - lia. - cbn; lra. - split; lra. - split; lra.
  - apply (maglab_step 4 4); [apply aniso_wf|lia|apply aniso_tau].
  - rewrite uniform_dir_x. cbn. intro Q. injection Q. intros. lra.
  - rewrite (Emaglab_value 4 4 aniso_chain aniso_wf ltac:(lia) aniso_tau).
    rewrite (Emaglab_value 4 4 (moved aniso_chain _ _)); [|apply moved_wf, aniso_wf|lia|apply aniso_tau].
    change (omega (moved aniso_chain (0 mod 4) (uniform_dir 0 (1 / 2)))) with (omega aniso_chain).
    rewrite uniform_dir_x, aniso_omega.
    unfold lab_energy, bond, bond_corr, trip_corr, aniso, planar, dot, vhad, vzero. crunch. cbn. lra.
Qed.
Lemma rot_disagrees : exists u, unit_draw u /\
  ~ metropolis_step 4 (Erot 4) (metropolis_update_rot_magnus ERNum) aniso_chain 0 0 (1 / 2) u.
Proof.
  eapply (not_step 4 4 aniso_chain (fun c => rot_energy 1 1 4 4 (omega aniso_chain) (S_ c) (J_ c))).
  - apply aniso_wf. - lia. - cbn; lra. - split; lra. - split; lra.
  - apply (rot_step 4 4); [apply aniso_wf|lia|apply aniso_tau].
  - rewrite uniform_dir_x. cbn. intro Q. injection Q. intros. lra.
  - rewrite (Erot_value 4 4 aniso_chain aniso_wf ltac:(lia) aniso_tau).
    rewrite (Erot_value 4 4 (moved aniso_chain _ _)); [|apply moved_wf, aniso_wf|lia|apply aniso_tau].
    change (omega (moved aniso_chain (0 mod 4) (uniform_dir 0 (1 / 2)))) with (omega aniso_chain).
    rewrite uniform_dir_x, aniso_omega.
    unfold rot_energy, rot_bond_energy, bond_corr, trip_corr, aniso, planar, dot, vhad, vzero. crunch. cbn. lra.
Qed.
