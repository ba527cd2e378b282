(** Detailed balance, antisymmetry of the second-order change, the Langevin Magnus sampler. *)
From Coq Require Import Reals Lra Lia List ZArith Arith Bool.
From Verif Require Import Num Monad NumR Spin Config Chain Langevin SpecVec SpecChain SpecMC Samples
  ProofsSpin ProofsChain ProofsEnergy ProofsDyn ProofsDynR ProofsDyn2 ProofsDyn3 ProofsMC ProofsMCR ProofsMCR4 ProofsMCR5 ProofsMCR6 ProofsMCR7 ProofsMCR8.
Import ListNotations.
Local Open Scope R_scope.

Lemma step_iff n s sc E f d u1 u2 u : wf n s sc -> (1 <= n)%nat -> metropolis_step n E f sc d u1 u2 u ->
  0 <= beta (vars sc) -> unit_draw u ->
  let c' := moved sc (d mod n) (uniform_dir u1 u2) in
  uniform_dir u1 u2 <> S_ sc (d mod n) ->
  (f (draw d u1 u2 u) (fin sc) = Ok (fin c') <-> u < accept_prob (beta (vars sc)) (E c' - E sc)).
Proof.
  intros W Hn [M1 M2] Hb Hu c' Ne. fold c' in M1, M2. rewrite <- (accepts_prob _ _ _ Hb Hu).
  split; [|exact M1]. intro Q.
  destruct (Rlt_dec u (accept_prob (beta (vars sc)) (E c' - E sc))) as [A|A];
    rewrite <- (accepts_prob _ _ _ Hb Hu) in A; [exact A|exfalso].
  pose proof (Ok_inj _ _ (eq_trans (eq_sym Q) (M2 A))) as F. apply fin_inj in F. apply Ne. rewrite <- F at 1.
  unfold c'. rewrite moved_S.
  - rewrite Nat.eqb_refl. reflexivity.
  - rewrite (wf_spins _ _ _ W). apply Nat.mod_upper_bound. lia.
Qed.

Lemma detailed_balance n s sc E f d u1 u2 d' v1 v2 : wf n s sc -> (1 <= n)%nat -> 0 <= beta (vars sc) ->
  (forall c, wf n s c -> metropolis_for n E f c) ->
  unit_draw u1 -> unit_draw u2 -> unit_draw v1 -> unit_draw v2 ->
  (d mod n = d' mod n)%nat -> uniform_dir v1 v2 = S_ sc (d mod n) -> uniform_dir u1 u2 <> S_ sc (d mod n) ->
  let c' := moved sc (d mod n) (uniform_dir u1 u2) in
  exists p p', 0 < p <= 1 /\ 0 < p' <= 1 /\
    (forall u, unit_draw u -> (f (draw d u1 u2 u) (fin sc) = Ok (fin c') <-> u < p)) /\
    (forall u, unit_draw u -> (f (draw d' v1 v2 u) (fin c') = Ok (fin sc) <-> u < p')) /\
    p * exp (- (beta (vars sc) * E sc)) = p' * exp (- (beta (vars sc) * E c')).
Proof.
  intros W Hn Hb M D1 D2 D3 D4 Hd Hv Hu c'.
  assert (Hi : (d mod n < n)%nat) by (apply Nat.mod_upper_bound; lia).
  assert (Wc : wf n s c') by (apply moved_wf; exact W).
  assert (Si : S_ c' (d mod n) = uniform_dir u1 u2).
  { unfold c'. rewrite moved_S by (rewrite (wf_spins _ _ _ W); exact Hi). rewrite Nat.eqb_refl. reflexivity. }
  assert (Bk : moved c' (d' mod n) (uniform_dir v1 v2) = sc).
  { rewrite <- Hd, Hv. unfold c'. apply (moved_back n s); assumption. }
  exists (accept_prob (beta (vars sc)) (E c' - E sc)), (accept_prob (beta (vars sc)) (E sc - E c')).
  split; [apply accept_prob_range|]. split; [apply accept_prob_range|]. split; [|split].
  - intros u U. apply (step_iff n s sc E f d u1 u2 u W Hn (M sc W d u1 u2 u D1 D2 U) Hb U Hu).
  - intros u U. pose proof (step_iff n s c' E f d' v1 v2 u Wc Hn (M c' Wc d' v1 v2 u D3 D4 U) Hb U) as Q.
    cbv zeta in Q. rewrite Bk in Q. apply Q. rewrite <- Hd, Hv, Si. intro X. apply Hu. symmetry. exact X.
  - apply balance. exact Hb.
Qed.

Lemma plain_balance n s sc d u1 u2 d' v1 v2 : wf n s sc -> (2 <= n)%nat -> 0 <= beta (vars sc) ->
  unit_draw u1 -> unit_draw u2 -> unit_draw v1 -> unit_draw v2 ->
  (d mod n = d' mod n)%nat -> uniform_dir v1 v2 = S_ sc (d mod n) -> uniform_dir u1 u2 <> S_ sc (d mod n) ->
  let c' := moved sc (d mod n) (uniform_dir u1 u2) in
  exists p p', 0 < p <= 1 /\ 0 < p' <= 1 /\
    (forall u, unit_draw u -> (metropolis_update ERNum (draw d u1 u2 u) (fin sc) = Ok (fin c') <-> u < p)) /\
    (forall u, unit_draw u -> (metropolis_update ERNum (draw d' v1 v2 u) (fin c') = Ok (fin sc) <-> u < p')) /\
    p * exp (- (beta (vars sc) * (INR n * val (mc_total_energy ERNum (fin sc)))))
    = p' * exp (- (beta (vars sc) * (INR n * val (mc_total_energy ERNum (fin c'))))).
Proof.
  intros W Hn Hb. intros. apply (detailed_balance n s sc (fun c => INR n * val (mc_total_energy ERNum (fin c)))); auto; [lia|].
  intros c Wc. apply (plain_step_mc n s); assumption.
Qed.

Lemma magfull_change n s sc : wf n s sc -> (3 <= n)%nat -> tau (vars sc) <> 0 ->
  exists D, (forall sp, length sp = n -> uses_change n D (metropolis_update_mag_full ERNum) (with_spins sc sp)) /\
    forall sp i v, length sp = n -> (i < n)%nat ->
      let c := with_spins sc sp in D (moved c i v) i (S_ c i) = - D c i v.
Proof.
  intros W Hn Ht. exists (DMF n s). split.
  - intros sp L d u1 u2 u D1 D2 D3 i v. set (c := with_spins sc sp).
    assert (Wc : wf n s c) by (destruct W; constructor; cbn; assumption).
    assert (Hi : (i < n)%nat) by (apply Nat.mod_upper_bound; lia).
    assert (Q : metropolis_update_mag_full ERNum (draw d u1 u2 u) (fin c) =
      Ok (acceptP ERNum (fin c) i (fin3 v) (Some (DMF n s c i v)) (Some u))).
    { etransitivity; [apply (magfull_ER n s); [exact Wc|exact D2|lia]|]. f_equal. f_equal. apply dMF_value. exact Ht. }
    split; intro A; rewrite Q; f_equal.
    + apply acceptP_yes; [rewrite (wf_spins _ _ _ Wc); exact Hi|exact A].
    + apply acceptP_no. exact A.
  - intros sp i v L Hi c. apply DMF_anti; [destruct W; constructor; cbn; assumption|exact Hi|exact Hn].
Qed.

Lemma lmagnus_is g d c : lmagnus g d c = metropolis_update_magnus ERNum d c.
Proof. unfold lmagnus, lmetropolis_update_magnus. cbn [base gamma]. destruct (metropolis_update_magnus ERNum d c); reflexivity. Qed.
Lemma some_energy_ext n f g sc : (forall d c, f d c = g d c) -> samples_some_energy n f sc -> samples_some_energy n g sc.
Proof.
  intros H [E HE]. exists E. intros sp L U d u1 u2 u D1 D2 D3. specialize (HE sp L U d u1 u2 u D1 D2 D3).
  unfold metropolis_step in *. cbv zeta in *. rewrite <- !H. exact HE.
Qed.
Lemma no_energy_magnus n s sc : wf n s sc -> (3 <= n)%nat -> (1 <= s)%nat -> tau (vars sc) <> 0 -> 0 < beta (vars sc) ->
  ((s < n)%nat /\ (vx (J_ sc (s - 1)) <> 0 \/ vz (J_ sc (s - 1)) <> 0)) \/
  (s = n /\ vx (J_ sc (n - 1)) + vz (J_ sc (n - 1)) <> 0) ->
  ~ samples_some_energy n (metropolis_update_magnus ERNum) sc /\
  forall g, ~ samples_some_energy n (lmagnus g) sc.
Proof.
  intros W Hn Hs Ht Hb H.
  assert (A : ~ samples_some_energy n (metropolis_update_magnus ERNum) sc).
  { destruct H as [[Hsn HJ]|[Hsn HJ]].
    - apply (no_energy_boundary n s); assumption.
    - apply (no_energy_ring n s); assumption. }
  split; [exact A|]. intros g Q. apply A. apply (some_energy_ext n (lmagnus g)); [apply lmagnus_is|exact Q].
Qed.
Lemma magfull_none n s sc : wf n s sc -> (6 <= n)%nat -> (3 <= s)%nat -> tau (vars sc) <> 0 -> 0 < beta (vars sc) ->
  vx (J_ sc 0) <> 0 -> vx (J_ sc 2) <> 0 ->
  ~ samples_some_energy n (metropolis_update_mag_full ERNum) sc.
Proof. intros. apply (no_energy_magfull n s); assumption. Qed.

Lemma lplain_step' n s sc g : wf n s sc -> (2 <= n)%nat ->
  metropolis_for n (fun c => exchange_energy n (S_ c) (J_ c)) (lplain g) sc.
Proof. apply lplain_step. Qed.

Lemma propose_all u1 u2 : unit_draw u1 -> unit_draw u2 ->
  propose ERNum (Some u1) (Some u2) = fin3 (uniform_dir u1 u2) /\ unit3 (uniform_dir u1 u2).
Proof. intros H1 H2. split; [apply propose_ER; exact H2|apply uniform_dir_unit; exact H2]. Qed.

(** a longer ring, with the ten sites and six of them in the subsystem *)
Definition ten_chain : chain R :=
  mkChain (repeat (mk3 1 1 (1/2)) 10) (repeat vzero 10) (repeat (mk3 0 0 1) 10) 0 (ex_conf 10 6 Dxyplane) true.
Lemma ten_wf : wf 10 6 ten_chain. Proof. constructor; cbn; auto; lia. Qed.
Lemma maglab_refuted : exists sc u, wf 4 4 sc /\ unit_spins sc /\ tau (vars sc) <> 0 /\ unit_draw u /\
  ~ metropolis_step 4 (Emaglab 4) (metropolis_update_maglab ERNum) sc 0 0 (1 / 2) u.
Proof.
  destruct maglab_disagrees as [u [U H]]. exists aniso_chain, u.
  repeat split; try apply U; auto using aniso_unit, aniso_tau; apply aniso_wf.
Qed.
Lemma rot_refuted : exists sc u, wf 4 4 sc /\ unit_spins sc /\ tau (vars sc) <> 0 /\ unit_draw u /\
  ~ metropolis_step 4 (Erot 4) (metropolis_update_rot_magnus ERNum) sc 0 0 (1 / 2) u.
Proof.
  destruct rot_disagrees as [u [U H]]. exists aniso_chain, u.
  repeat split; try apply U; auto using aniso_unit, aniso_tau; apply aniso_wf.
Qed.
Lemma closing_refuted : forall g, exists sc, wf 4 4 sc /\ unit_spins sc /\
  forall K, exists u, unit_draw u /\
  ~ metropolis_step 4 (fun c => K * val (system_energy ERNum (fin c))) (lplain g) sc 0 0 (1 / 2) u.
Proof.
  intro g. exists closing_chain. split; [apply closing_wf|]. split; [apply closing_unit|]. apply lplain_closing.
Qed.
Lemma fields_refuted : forall g, exists sc, wf 4 4 sc /\ unit_spins sc /\
  forall K, 0 < K -> exists u, unit_draw u /\
  ~ metropolis_step 4 (fun c => K * val (system_energy ERNum (fin c))) (lplain g) sc 0 0 (1 / 2) u.
Proof.
  intro g. exists field_chain. split; [apply field_wf|]. split; [apply field_unit|]. apply lplain_field.
Qed.
