(** Existence and uniqueness for the ring and for the open chain with damped ends; refinement of the program's time step. *)
From Coq Require Import Reals Lra Lia List ZArith Arith.
From Verif Require Import Num Monad NumR Spin Config Chain Langevin SpecVec SpecChain SpecMC SpecLang SpecOrder SpecBath ProofsSpin ProofsEnergy ProofsDrive ProofsJet ProofsOrder
  ProofsDyn ProofsDynR ProofsOrder2 ProofsOrder3 ProofsLangE ProofsFirst ProofsBath ProofsBath2 ProofsExist.
Local Open Scope R_scope.

Section RingE.
Context (n s : nat) (sc : chain R).
Notation units S := (forall p, (p < n)%nat -> unit3 (S p)).
Definition Rf (r : R) (S : nat -> vec) (i : nat) : vec := om n S (J_ sc) (B_ sc s r) i.
Lemma rf_consts : exists W L, 0 <= W /\ 0 <= L /\
  (forall r S i, units S -> (i < n)%nat -> norm (Rf r S i) <= W) /\
  (forall r S S' e i, units S -> units S' -> (forall p, (p < n)%nat -> norm (vsub (S p) (S' p)) <= e) -> (i < n)%nat ->
     norm (vsub (Rf r S i) (Rf r S' i)) <= L * e) /\
  (forall r r' S i, units S -> (i < n)%nat -> norm (vsub (Rf r S i) (Rf r' S i)) <= L * Rabs (r - r')).
Proof.
  destruct (fin_bound (J_ sc) n) as (j & j0 & Hj). destruct (B_all n s sc) as (b & b0 & Hb). destruct (B_lip s sc) as (K & K0 & HK).
  exists (2 * j + b), (2 * j + K). repeat split; try lra.
  - intros r S i HS Hi. unfold Rf. apply om_bound; auto.
  - intros r S S' e i HS HS' He Hi. unfold Rf. eapply Rle_trans; [apply (om_diff n (J_ sc) j Hj S S' (B_ sc s r) e i Hi He)|].
    pose proof (norm_nonneg (vsub (S i) (S' i))). pose proof (He i Hi). assert (0 <= K * e) by (apply Rmult_le_pos; lra). lra.
  - intros r r' S i HS Hi. unfold Rf. rewrite om_time. eapply Rle_trans; [apply HK|].
    apply Rmult_le_compat_r; [apply Rabs_pos|lra].
Qed.
Context (Ww : wf n s sc) (Hu : unit_spins sc).
Lemma first_unit : units (S_ sc).
Proof. intros p Hp. apply (start_unit n s sc Ww Hu). exact Hp. Qed.

Lemma ring_exists T : 0 <= T -> exists X, solves n s sc T X.
Proof.
  intro HT. destruct rf_consts as (W & L & W0 & L0 & H1 & H2 & H3).
  destruct (motion_exists n Rf W L W0 L0 H1 H2 H3 (t sc) T (S_ sc) HT first_unit) as (X & A & B).
  exists X. split; [exact A|]. intros x i Hx Hi. rewrite field_at_om by exact Hi. apply B; assumption.
Qed.
Lemma ring_motion T X : solves n s sc T X -> forall x i, t sc <= x <= t sc + T -> (i < n)%nat ->
  has_velocity (fun r => X r i) x (cross (X x i) (Rf x (X x) i)).
Proof. intros [_ H] x i Hx Hi. specialize (H x i Hx Hi). rewrite field_at_om in H by exact Hi. exact H. Qed.
Lemma ring_unique T X Y : solves n s sc T X -> solves n s sc T Y -> forall x i, t sc <= x <= t sc + T -> (i < n)%nat -> X x i = Y x i.
Proof.
  intros HX HY. destruct rf_consts as (W & L & W0 & L0 & H1 & H2 & H3).
  apply (motion_unique n Rf W L W0 L0 H1 H2 H3 (t sc) T X Y).
  - intros p Hp. rewrite (proj1 HX) by exact Hp. apply first_unit, Hp.
  - intros i Hi. rewrite (proj1 HX), (proj1 HY) by exact Hi. reflexivity.
  - apply ring_motion, HX.
  - apply ring_motion, HY.
Qed.
Lemma ring_unit T X : solves n s sc T X -> forall x i, t sc <= x <= t sc + T -> (i < n)%nat -> unit3 (X x i).
Proof.
  intro HX. apply (mo_unit n Rf (t sc) (t sc + T) X (ring_motion T X HX)).
  intros p Hp. rewrite (proj1 HX) by exact Hp. apply first_unit, Hp.
Qed.

Context (Hn : (2 <= n)%nat).
Lemma bath_exists g T : 0 <= T -> exists X, bath_solves n s sc g T X.
Proof.
  intro HT. destruct (gf_consts n s sc g) as (W & L & W0 & L0 & H1 & H2 & H3).
  destruct (motion_exists n (Gf n s sc g) W L W0 L0 H1 H2 H3 (t sc) T (S_ sc) HT first_unit) as (X & A & B).
  exists X. split; [exact A|]. intros x i Hx Hi. cbv zeta. rewrite open_field_om by assumption. specialize (B x i Hx Hi).
  unfold Gf in B. rewrite lom_quiet in B. cbv zeta in B. rewrite isend_spec in B by exact Hi. exact B.
Qed.
Lemma bath_unique g T X Y : bath_solves n s sc g T X -> bath_solves n s sc g T Y -> forall x i, t sc <= x <= t sc + T -> (i < n)%nat -> X x i = Y x i.
Proof.
  intros HX HY. destruct (gf_consts n s sc g) as (W & L & W0 & L0 & H1 & H2 & H3).
  apply (motion_unique n (Gf n s sc g) W L W0 L0 H1 H2 H3 (t sc) T X Y).
  - intros p Hp. rewrite (proj1 HX) by exact Hp. apply first_unit, Hp.
  - intros i Hi. rewrite (proj1 HX), (proj1 HY) by exact Hi. reflexivity.
  - apply (mo_motion n s sc g T X Hn HX).
  - apply (mo_motion n s sc g T Y Hn HY).
Qed.

Context (Hev : (n mod 2 = 0)%nat) (Hd : drive_ok (vars sc)).
Lemma ring_limit T : 0 <= T -> exists X K, solves n s sc T X /\ forall dt k sc', 0 < dt -> INR k * dt <= T ->
  iterM (update ERNum) k (fin (with_dt sc dt)) = Ok (fin sc') ->
  forall i, (i < n)%nat -> norm (vsub (S_ sc' i) (X (t sc + INR k * dt) i)) <= K * dt ^ 2.
Proof.
  intro HT. destruct (ring_exists T HT) as (X & HX). destruct (second_order n s sc T X Ww Hn Hev Hd Hu HT HX) as (K & HK).
  exists X, K. split; assumption.
Qed.
Lemma ring_refine T : 0 <= T -> exists K, forall dt dt' k k' sc1 sc2, 0 < dt -> 0 < dt' -> INR k * dt <= T -> INR k * dt = INR k' * dt' ->
  iterM (update ERNum) k (fin (with_dt sc dt)) = Ok (fin sc1) -> iterM (update ERNum) k' (fin (with_dt sc dt')) = Ok (fin sc2) ->
  forall i, (i < n)%nat -> norm (vsub (S_ sc1 i) (S_ sc2 i)) <= K * (dt ^ 2 + dt' ^ 2).
Proof.
  intro HT. destruct (ring_limit T HT) as (X & K & HX & HK). exists K. intros dt dt' k k' sc1 sc2 H1 H2 Hk E R1 R2 i Hi.
  pose proof (HK dt k sc1 H1 Hk R1 i Hi) as A. pose proof (HK dt' k' sc2 H2 ltac:(lra) R2 i Hi) as B. rewrite <- E in B.
  eapply Rle_trans; [apply (norm_tri3 _ (X (t sc + INR k * dt) i))|]. rewrite norm_swap in B. lra.
Qed.
Lemma bath_limit g T : 0 <= T -> exists X K, bath_solves n s sc g T X /\ forall dt zs sc' g', 0 < dt -> Forall (quiet g) zs -> INR (length zs) * dt <= T ->
  lrun zs (lfin (with_dt sc dt) g) = Ok (lfin sc' g') ->
  forall i, (i < n)%nat -> norm (vsub (S_ sc' i) (X (t sc + INR (length zs) * dt) i)) <= K * dt.
Proof.
  intro HT. destruct (bath_exists g T HT) as (X & HX). destruct (run_order n s sc g T X Ww Hn Hev Hd Hu HT HX) as (K & HK).
  exists X, K. split; assumption.
Qed.
Lemma bath_refine g T : 0 <= T -> exists K, forall dt dt' zs zs' sc1 g1 sc2 g2, 0 < dt -> 0 < dt' -> Forall (quiet g) zs -> Forall (quiet g) zs' ->
  INR (length zs) * dt <= T -> INR (length zs) * dt = INR (length zs') * dt' ->
  lrun zs (lfin (with_dt sc dt) g) = Ok (lfin sc1 g1) -> lrun zs' (lfin (with_dt sc dt') g) = Ok (lfin sc2 g2) ->
  forall i, (i < n)%nat -> norm (vsub (S_ sc1 i) (S_ sc2 i)) <= K * (dt + dt').
Proof.
  intro HT. destruct (bath_limit g T HT) as (X & K & HX & HK). exists K. intros dt dt' zs zs' sc1 g1 sc2 g2 H1 H2 Q1 Q2 Hk E R1 R2 i Hi.
  pose proof (HK dt zs sc1 g1 H1 Q1 Hk R1 i Hi) as A. pose proof (HK dt' zs' sc2 g2 H2 Q2 ltac:(lra) R2 i Hi) as B. rewrite <- E in B.
  eapply Rle_trans; [apply (norm_tri3 _ (X (t sc + INR (length zs) * dt) i))|]. rewrite norm_swap in B. lra.
Qed.
End RingE.
