(** The fast-drive limits of the energy changes. *)
From Coq Require Import Reals Lra Lia List ZArith Arith Bool.
From Verif Require Import Num Monad NumR Spin Config Chain Langevin SpecVec SpecChain SpecMC SpecMagnus Samples
  ProofsSpin ProofsChain ProofsEnergy ProofsDyn ProofsDynR ProofsDyn2 ProofsMC ProofsMCR ProofsMCR2 ProofsMCR3 ProofsMCR4
  ProofsMCR6 ProofsMCR7 ProofsMCR8 ProofsMCR9 ProofsMagnus.
Import ListNotations.
Local Open Scope R_scope.

Lemma inv_omega c t : 0 < t -> / omega (at_period c t) = t / (2 * PI).
Proof. intro H. unfold omega. cbn. pose proof PI_RGT_0. field. lra. Qed.

Lemma small_poly b d x : 0 < x < 1 -> Rabs (b * x + d * (x * x)) <= (Rabs b + Rabs d) * x.
Proof.
  intros [H0 H1]. eapply Rle_trans; [apply Rabs_triang|]. rewrite !Rabs_mult.
  rewrite (Rabs_right x) by lra. pose proof (Rabs_pos d). pose proof (Rabs_pos b).
  assert (x * x <= x) by nra. nra.
Qed.

Lemma limit_poly (F : R -> R) a b d : (forall t, 0 < t -> F t = a + (b * (t / (2 * PI)) + d * ((t / (2 * PI)) * (t / (2 * PI))))) ->
  fast_limit F a.
Proof.
  intros H eps He. pose proof PI_RGT_0 as P.
  set (k := Rabs b + Rabs d + 1). assert (K : 0 < k) by (unfold k; pose proof (Rabs_pos b); pose proof (Rabs_pos d); lra).
  exists (Rmin (2 * PI) (2 * PI * (eps / k))). split.
  - apply Rmin_glb_lt; [lra|]. apply Rmult_lt_0_compat; [lra|]. apply Rdiv_lt_0_compat; lra.
  - intros t [T0 T1]. rewrite (H t T0).
    assert (X : 0 < t / (2 * PI) < 1).
    { split; [apply Rdiv_lt_0_compat; lra|]. apply Rmult_lt_reg_r with (2 * PI); [lra|].
      unfold Rdiv. rewrite Rmult_assoc, Rinv_l, Rmult_1_r by lra. pose proof (Rmin_l (2 * PI) (2 * PI * (eps / k))). lra. }
    assert (Y : t / (2 * PI) < eps / k).
    { apply Rmult_lt_reg_l with (2 * PI); [lra|]. pose proof (Rmin_r (2 * PI) (2 * PI * (eps / k))).
      replace (2 * PI * (t / (2 * PI))) with t by (field; lra). lra. }
    set (x := t / (2 * PI)) in *.
    replace (a + (b * x + d * (x * x)) - a) with (b * x + d * (x * x)) by ring.
    eapply Rle_lt_trans; [apply small_poly; exact X|].
    apply Rle_lt_trans with (k * x); [unfold k; nra|].
    apply Rmult_lt_compat_l with (r := k) in Y; [|exact K]. replace (k * (eps / k)) with eps in Y by (field; lra). exact Y.
Qed.

Lemma fast_full n s c i v :
  fast_limit (fun t => second_order_change n s (at_period c t) i v) (change (fun S => exchange_energy n S (J_ c)) c i v).
Proof.
  set (A := change (fun S => exchange_energy n S (J_ c)) c i v).
  set (B := change (fun S => order_one n S (J_ c)) c i v).
  set (C := change (fun S => order_two n S (J_ c)) c i v + change (fun S => slip n S (J_ c) i) c i v).
  destruct (i <? s)%nat eqn:E.
  - apply (limit_poly _ A B C). intros t Ht. unfold second_order_change. rewrite E.
    change (A + (B / omega (at_period c t) + C / (omega (at_period c t) * omega (at_period c t))) = A + (B * (t / (2 * PI)) + C * (t / (2 * PI) * (t / (2 * PI))))).
    assert (W : omega (at_period c t) <> 0) by (apply omega_nz; cbn; lra).
    rewrite <- (inv_omega c t Ht). field. exact W.
  - apply (limit_poly _ A 0 0). intros t Ht. unfold second_order_change. rewrite E. change (A + 0 = A + (0 * (t / (2 * PI)) + 0 * (t / (2 * PI) * (t / (2 * PI))))). ring.
Qed.

Lemma lab_split n w S J : lab_energy n w S J = exchange_energy n S J + / w * (- / 2 * Rsum n (fun k => vz (S k))).
Proof.
  unfold lab_energy, exchange_energy. rewrite <- !Rsum_scal, <- Rsum_plus. apply Rsum_ext. intros k Hk.
  unfold Rdiv. rewrite Rinv_mult. ring.
Qed.
Lemma fast_lab n c i v :
  fast_limit (fun t => lab_change n (at_period c t) i v) (change (fun S => exchange_energy n S (J_ c)) c i v).
Proof.
  set (A := change (fun S => exchange_energy n S (J_ c)) c i v).
  set (B := change (fun S => - / 2 * Rsum n (fun k => vz (S k))) c i v).
  apply (limit_poly _ A B 0). intros t Ht. unfold lab_change, change. rewrite !lab_split, (inv_omega c t Ht).
  unfold A, B, change. change (J_ (at_period c t)) with (J_ c). change (S_ (at_period c t)) with (S_ c).
  change (S_ (moved (at_period c t) i v)) with (S_ (moved c i v)). ring.
Qed.

Lemma fast_first n s c i v : (i < s)%nat -> change (fun S => ends_first n s S (J_ c) i) c i v <> 0 ->
  fast_blowup (fun t => first_order_change n s (at_period c t) i v).
Proof.
  intros Hi Hc b. set (A := change (fun S => exchange_energy n S (J_ c)) c i v).
  set (B := change (fun S => ends_first n s S (J_ c) i) c i v) in *.
  pose proof PI_RGT_0 as P. assert (Bp : 0 < Rabs B) by (apply Rabs_pos_lt; exact Hc).
  set (k := Rabs b + Rabs A + 1). assert (K : 0 < k) by (unfold k; pose proof (Rabs_pos b); pose proof (Rabs_pos A); lra).
  exists (2 * PI * Rabs B / k). split.
  - apply Rdiv_lt_0_compat; [|exact K]. apply Rmult_lt_0_compat; lra.
  - intros t [T0 T1]. unfold first_order_change. rewrite (proj2 (Nat.ltb_lt i s) Hi).
    change (b < Rabs (A - 2 * PI / t * B)).
    assert (Q : k < Rabs (2 * PI / t * B)).
    { rewrite Rabs_mult, (Rabs_right (2 * PI / t)) by (left; apply Rdiv_lt_0_compat; lra).
      apply Rmult_lt_reg_r with t; [exact T0|]. replace (2 * PI / t * Rabs B * t) with (2 * PI * Rabs B) by (field; lra).
      apply Rmult_lt_compat_r with (r := k) in T1; [|exact K].
      replace (2 * PI * Rabs B / k * k) with (2 * PI * Rabs B) in T1 by (field; lra). lra. }
    pose proof (Rabs_triang_inv (2 * PI / t * B) A) as T. rewrite Rabs_minus_sym in T.
    pose proof (Rle_abs b). unfold k in Q. lra.
Qed.

Lemma lab_uses n s sc : wf n s sc -> (2 <= n)%nat -> tau (vars sc) <> 0 ->
  uses_change n (lab_change n) (metropolis_update_maglab ERNum) sc.
Proof.
  intros W Hn Ht d u1 u2 u D1 D2 D3 i v. pose proof (maglab_step n s sc W Hn Ht d u1 u2 u D1 D2 D3) as Q.
  exact Q.
Qed.

(** A chain, a site and a direction for which the first-order change is not small *)
Lemma first_case : let c := ex_chain 3 Dxyplane in change (fun S => ends_first 4 3 S (J_ c) 1) c 1 (mk3 0 0 1) <> 0.
Proof.
  intro c. unfold change, ends_first, one_way, before_of, after_of. cbn. lra.
Qed.
