(** A driven chain to which the rotating frame applies, and the chains built by the fit modes. *)
From Coq Require Import Reals Lra Lia List ZArith Arith.
From Verif Require Import Num Monad NumR Spin Config Chain SpecVec SpecChain SpecOrder SpecFrame Samples ProofsSpin ProofsEnergy ProofsDrive ProofsJet ProofsOrder
  ProofsMCR ProofsNew ProofsDyn ProofsDynR ProofsOrder2 ProofsOrder3 ProofsFirst ProofsBath ProofsExist ProofsExist2 ProofsFrame2.
Import ListNotations.
Local Open Scope R_scope.

Definition orbit_chain : chain R :=
  mkChain [mk3 1 1 1; mk3 1 1 1] [mk3 0 0 0; mk3 0 0 0] [mk3 1 0 0; mk3 0 (3/5) (4/5)] 0 (ex_conf 2 1 Dxyplane) true.
Lemma orbit_wf : wf 2 1 orbit_chain.
Proof. constructor; cbn; auto; lia. Qed.
Lemma orbit_unit : unit_spins orbit_chain.
Proof. unfold unit_spins; cbn. repeat constructor; unfold unit3, dot; cbn; lra. Qed.
Lemma orbit_drive : drive_ok (vars orbit_chain).
Proof. unfold drive_ok; cbn; lra. Qed.
Lemma orbit_round : round_z 2 orbit_chain.
Proof. intros i Hi. destruct i as [|[|i]]; [| |lia]; cbn; auto. Qed.
Lemma orbit_field S x i : (forall p, (p < 2)%nat -> unit3 (S p)) -> (i < 2)%nat -> field_at 2 1 orbit_chain S x i <> vzero.
Proof.
  intros U Hi E.
  assert (A : forall a b, unit3 a -> norm b <= 1 -> vsub (vadd (vhad (mk3 1 1 1) a) (vhad (mk3 1 1 1) a)) b <> vzero).
  { intros a b Ua Nb Z.
    assert (E2 : vscale 2 a = b). { apply v3_ext; cbn; [apply (f_equal vx) in Z|apply (f_equal vy) in Z|apply (f_equal vz) in Z]; cbn in Z; lra. }
    rewrite <- E2, norm_vscale, unit3_norm, Rabs_pos_eq in Nb by (assumption || lra). lra. }
  assert (NB : norm (B_ orbit_chain 1 x i) <= 1).
  { assert (NE : norm (B_ orbit_chain 1 x i) = if (i <? 1)%nat then 1 else 0).
    - unfold B_. set (p := 2 * PI / tau (vars orbit_chain) * x). destruct i as [|[|i]]; [| |lia].
      + change (drive_field (vars orbit_chain) x) with (mk3 (cos p) (sin p) 0). rewrite <- sqrt_1. unfold norm. f_equal. pose proof (cs2 p) as C. clearbody p. unfold dot. cbn. apply f_equal. lra.
      + cbn. unfold norm, dot; cbn. rewrite !Rmult_0_r, !Rplus_0_r. apply sqrt_0.
    - rewrite NE. destruct (i <? 1)%nat; lra. }
  destruct i as [|[|i]]; [| |lia]; unfold field_at in E; revert E; refine (A _ _ (U _ _) NB); cbn; lia.
Qed.
Lemma orbit_runs T : 0 <= T -> exists d, 0 < d /\ forall dt k, 0 < dt < d -> INR k * dt <= T ->
  exists sc', iterM (update ERNum) k (fin (with_dt orbit_chain dt)) = Ok (fin sc').
Proof.
  intro HT. destruct (ring_exists 2 1 orbit_chain orbit_wf orbit_unit T HT) as (X & HX).
  apply (short_steps 2 1 orbit_chain T X orbit_wf (le_n 2) eq_refl orbit_drive orbit_unit HT HX).
  intros x i Hx Hi. apply orbit_field; [|exact Hi]. intros p Hp. apply (ring_unit 2 1 orbit_chain orbit_wf orbit_unit T X HX x p Hx Hp).
Qed.

(** The chain that the fit modes build *)
Lemma fit_fields conf (d : newdraw ERNum) (zj zh : nat -> vec) sc :
  hs conf = [1; 0; 0] -> hfield conf = [0; 0; - (2 * PI / tau conf)] -> hvar conf = 0 -> jvar conf = 0 -> (0 <= hsize conf < 2 ^ 31)%Z ->
  (0 <= ssize conf)%Z -> (forall i, nd_j d i = fin3 (zj i)) -> (forall i, nd_h d i = fin3 (zh i)) ->
  chain_new ERNum (config_map Some conf) d = Ok sc ->
  forall i, (Z.of_nat i < hsize conf)%Z ->
    nth_error (static_h sc) i = Some (fin3 (frame_field (Z.to_nat (ssize conf)) (2 * PI / tau conf) i)) /\
    nth_error (j_couple sc) i = Some (fin3 (mk3 1 1 (lambda conf))).
Proof.
  intros Hs Hh Hv Jv Hz Hss Hj Hhd Hc i Hi.
  destruct (new_fields_value conf d zj zh sc ltac:(rewrite Hh; cbn; lia) ltac:(rewrite Hs; cbn; lia) Hz Hj Hhd Hc i Hi) as (A & B).
  rewrite A, B, Hs, Hh, Hv, Jv. split; do 2 f_equal; unfold frame_field.
  - replace (i <? Z.to_nat (ssize conf))%nat with (Z.of_nat i <? ssize conf)%Z.
    2:{ destruct (Z.ltb_spec (Z.of_nat i) (ssize conf)), (Nat.ltb_spec i (Z.to_nat (ssize conf))); lia || reflexivity. }
    destruct (Z.of_nat i <? ssize conf)%Z; apply v3_ext; cbn; ring.
  - apply v3_ext; cbn; ring.
Qed.

Definition fit_conf : config R :=
  let c := ex_conf 4 2 Dxyplane in
  mkConfig 4 2 256 (2/100) 2 0 2 10 (1/2) [0; 0; - (2 * PI / 10)] [1; 0; 0] 0 0 2 (-66/100) (c_file c) false 0 (288/100) 1000 (9/10) Dxyplane true.
Lemma fit_case : hs fit_conf = [1; 0; 0] /\ hfield fit_conf = [0; 0; - (2 * PI / tau fit_conf)] /\ hvar fit_conf = 0 /\ jvar fit_conf = 0 /\
  exists sc, chain_new ERNum (config_map Some fit_conf) straight_draw = Ok sc /\
    (forall i, nd_j straight_draw i = fin3 vzero) /\ (forall i, nd_h straight_draw i = fin3 vzero).
Proof.
  repeat split. destruct (straight_new fit_conf) as (sc & E & _); cbn; try lra; try lia. exists sc; auto.
Qed.
