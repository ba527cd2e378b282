(** Second-order convergence of the program's step. *)
From Coq Require Import Reals Lra Lia List ZArith Arith.
From Verif Require Import Num Monad NumR Spin Config Chain SpecVec SpecChain SpecOrder ProofsSpin ProofsEnergy ProofsDrive ProofsMCR ProofsJet ProofsOrder
  ProofsDyn ProofsDynR ProofsDyn2 ProofsOrder2.
Local Open Scope R_scope.

(** ** The drive *)
Lemma drive_form c : exists w p q u, forall x,
  drive_field c x = vadd (vadd (vscale (cos (w * x)) p) (vscale (sin (w * x)) q)) u.
Proof.
  unfold drive_field. exists (2 * PI / tau c). set (w := 2 * PI / tau c). destruct (drive c).
  all: first
  [ exists vzero, vzero, vzero; intro x; apply v3_ext; cbn; ring
  | exists (mk3 1 0 0), vzero, vzero; intro x; apply v3_ext; cbn; ring
  | exists (mk3 1 0 0), (mk3 0 1 0), vzero; intro x; apply v3_ext; cbn; ring
  | exists (mk3 1 0 0), (mk3 0 (c_e c) 0), vzero; intro x; apply v3_ext; cbn; ring
  | exists vzero, vzero, (mk3 (nth 0 (hs c) 0) (nth 1 (hs c) 0) (nth 2 (hs c) 0)); intro x; apply v3_ext; cbn; ring ].
Qed.
Lemma trig_deriv w p q u x : derivable_pt_lim (fun x => cos (w * x) * p + sin (w * x) * q + u) x
  (w * (cos (w * x) * q - sin (w * x) * p)).
Proof.
  assert (L : derivable_pt_lim (fun x => w * x) x w).
  { assert (L := derivable_pt_lim_scal (fun y => y) w x 1 (derivable_pt_lim_id x)). rewrite Rmult_1_r in L. exact L. }
  assert (C : derivable_pt_lim (fun x => cos (w * x)) x (- sin (w * x) * w)).
  { apply (derivable_pt_lim_comp (fun x => w * x) cos); [exact L|apply derivable_pt_lim_cos]. }
  assert (S0 : derivable_pt_lim (fun x => sin (w * x)) x (cos (w * x) * w)).
  { apply (derivable_pt_lim_comp (fun x => w * x) sin); [exact L|apply derivable_pt_lim_sin]. }
  replace (w * (cos (w * x) * q - sin (w * x) * p)) with
    ((- sin (w * x) * w * p + cos (w * x) * 0) + (cos (w * x) * w * q + sin (w * x) * 0) + 0) by ring.
  apply derivable_pt_lim_plus; [apply derivable_pt_lim_plus|apply derivable_pt_lim_const].
  - apply (derivable_pt_lim_mult (fun x => cos (w * x)) (fun _ => p)); [exact C|apply derivable_pt_lim_const].
  - apply (derivable_pt_lim_mult (fun x => sin (w * x)) (fun _ => q)); [exact S0|apply derivable_pt_lim_const].
Qed.
Definition trigv (w : R) (p q u : vec) (x : R) : vec := vadd (vadd (vscale (cos (w * x)) p) (vscale (sin (w * x)) q)) u.
Lemma trigv_vel w p q u x : has_velocity (trigv w p q u) x (trigv w (vscale w q) (vscale (- w) p) vzero x).
Proof.
  assert (E : forall f a b, a = b -> derivable_pt_lim f x a -> derivable_pt_lim f x b) by (intros; subst; assumption).
  split; [|split]; unfold trigv; cbn; (eapply E; [|apply trig_deriv]; ring).
Qed.
Lemma trigv_bound w p q u x : norm (trigv w p q u x) <= norm p + norm q + norm u.
Proof.
  unfold trigv. eapply Rle_trans; [apply norm_triangle|]. apply Rplus_le_compat_r.
  eapply Rle_trans; [apply norm_triangle|]. rewrite !norm_vscale. pose proof (norm_nonneg p). pose proof (norm_nonneg q).
  assert (Rabs (cos (w * x)) <= 1) by (destruct (COS_bound (w * x)); apply Rabs_le; lra).
  pose proof (sin_abs1 (w * x)).
  assert (Rabs (cos (w * x)) * norm p <= 1 * norm p) by (apply Rmult_le_compat_r; assumption).
  assert (Rabs (sin (w * x)) * norm q <= 1 * norm q) by (apply Rmult_le_compat_r; assumption). lra.
Qed.
Lemma vel_shift (f : R -> vec) r h v : has_velocity f (r + h) v -> has_velocity (fun y => f (r + y)) h v.
Proof.
  intros (A & B & C). split; [|split].
  - apply (shift_deriv (fun y => vx (f y))); exact A.
  - apply (shift_deriv (fun y => vy (f y))); exact B.
  - apply (shift_deriv (fun y => vz (f y))); exact C.
Qed.
Lemma fin_bound (f : nat -> vec) n : exists K, 0 <= K /\ forall i, (i < n)%nat -> norm (f i) <= K.
Proof.
  induction n as [|n (K & K0 & H)]; [exists 0; split; [lra|intros; lia]|].
  pose proof (norm_nonneg (f n)). exists (K + norm (f n)). split; [lra|]. intros i Hi.
  destruct (Nat.eq_dec i n) as [->|N]; [lra|]. pose proof (H i ltac:(lia)). lra.
Qed.

(** The field of every site has the form constant + oscillation *)
Definition Bform (sc : chain R) (s : nat) (w : R) (p q : vec) (u : nat -> vec) : Prop :=
  forall x i, B_ sc s x i = trigv w (if (i <? s)%nat then p else vzero) (if (i <? s)%nat then q else vzero) (u i) x.
Lemma B_form sc s : exists w p q u, Bform sc s w p q u.
Proof.
  destruct (drive_form (vars sc)) as (w & p & q & u & E).
  exists w, p, q, (fun i => if (i <? s)%nat then vadd (h_ sc i) u else h_ sc i). intros x i. unfold B_, trigv.
  destruct (i <? s)%nat; [rewrite E|]; apply v3_ext; cbn; ring.
Qed.
Section Form.
Context (lo hi : R) (sc : chain R) (n s : nat) (w : R) (p q : vec) (u : nat -> vec) (HB : Bform sc s w p q u).
Definition Bd (x : R) (i : nat) : vec :=
  trigv w (vscale w (if (i <? s)%nat then q else vzero)) (vscale (- w) (if (i <? s)%nat then p else vzero)) vzero x.
Lemma B_vel x i : has_velocity (fun r => B_ sc s r i) x (Bd x i).
Proof.
  pose proof (trigv_vel w (if (i <? s)%nat then p else vzero) (if (i <? s)%nat then q else vzero) (u i) x) as (A & B & C).
  assert (E : forall f g l, (forall y : R, f y = g y) -> derivable_pt_lim f x l -> derivable_pt_lim g x l).
  { intros f g l Hfg H eps He. destruct (H eps He) as (d & Hd). exists d. intros k Hk Hkd. rewrite <- !Hfg. apply Hd; assumption. }
  unfold Bd. split; [|split].
  - eapply E; [|exact A]. intro y. cbv beta. rewrite (HB y i). reflexivity.
  - eapply E; [|exact B]. intro y. cbv beta. rewrite (HB y i). reflexivity.
  - eapply E; [|exact C]. intro y. cbv beta. rewrite (HB y i). reflexivity.
Qed.
Lemma pick_bound (i : nat) a : norm (if (i <? s)%nat then a else vzero) <= norm a.
Proof. destruct (i <? s)%nat; [lra|]. rewrite norm_vzero. apply norm_nonneg. Qed.
Lemma Bd_bound x i : norm (Bd x i) <= Rabs w * (norm p + norm q).
Proof.
  unfold Bd. eapply Rle_trans; [apply trigv_bound|]. rewrite !norm_vscale, norm_vzero, Rabs_Ropp.
  pose proof (pick_bound i p). pose proof (pick_bound i q). pose proof (Rabs_pos w).
  assert (Rabs w * norm (if (i <? s)%nat then q else vzero) <= Rabs w * norm q) by (apply Rmult_le_compat_l; assumption).
  assert (Rabs w * norm (if (i <? s)%nat then p else vzero) <= Rabs w * norm p) by (apply Rmult_le_compat_l; assumption). lra.
Qed.
Lemma B_jet : vjet lo hi (Q n) 1 (fun r i h => B_ sc s (r + h) i) (B_ sc s) Bd (fun _ _ => vzero).
Proof.
  set (Bdd := fun x i => trigv w (vscale w (vscale (- w) (if (i <? s)%nat then p else vzero))) (vscale (- w) (vscale w (if (i <? s)%nat then q else vzero))) vzero x).
  assert (D0 : vjet lo hi (Q n) 0 (fun r i h => Bd (r + h) i) (fun r i => Bd (r + 0) i) (fun _ _ => vzero) (fun _ _ => vzero)).
  { apply (vjet_int0 lo hi (Q n) (fun r i h => Bd (r + h) i) (fun r i h => Bdd (r + h) i)).
    - intros r i h _ _. apply (vel_shift (fun y => Bd y i)). unfold Bd. apply trigv_vel.
    - exists (Rabs w * (Rabs w * (norm p + norm q))). intros r i h _ _. unfold Bdd. eapply Rle_trans; [apply trigv_bound|].
      rewrite !norm_vscale, norm_vzero, Rabs_Ropp.
      pose proof (pick_bound i p). pose proof (pick_bound i q). pose proof (Rabs_pos w).
      assert (Rabs w * (Rabs w * norm (if (i <? s)%nat then q else vzero)) <= Rabs w * (Rabs w * norm q)) by (do 2 (apply Rmult_le_compat_l; [assumption|]); assumption).
      assert (Rabs w * (Rabs w * norm (if (i <? s)%nat then p else vzero)) <= Rabs w * (Rabs w * norm p)) by (do 2 (apply Rmult_le_compat_l; [assumption|]); assumption). lra.
    - exists (Rabs w * (norm p + norm q)). intros. apply Bd_bound. }
  destruct (fin_bound u n) as (K & K0 & HK).
  eapply vjet_eq; [apply (vjet_int lo hi (Q n) 0 (fun r i h => B_ sc s (r + h) i) _ _ _ _ ltac:(lia) D0)|..]; cbv beta.
  - intros r i h _ _. apply (vel_shift (fun y => B_ sc s y i)). apply B_vel.
  - exists (norm p + norm q + K). intros r i Hi _. rewrite HB. eapply Rle_trans; [apply trigv_bound|].
    pose proof (pick_bound i p). pose proof (pick_bound i q). pose proof (HK i Hi). lra.
  - reflexivity.
  - intros. rewrite Rplus_0_r. reflexivity.
  - intros. rewrite Rplus_0_r. reflexivity.
  - intros. apply v3_ext; cbn; ring.
Qed.
End Form.

(** ** The program *)
Lemma field_at_om n s sc sp x i : (i < n)%nat -> field_at n s sc sp x i = om n sp (J_ sc) (B_ sc s x) i.
Proof. intro H. unfold field_at, om. rewrite lft_mod', <- rgt_mod by exact H. reflexivity. Qed.
Lemma even_half n : (n mod 2 = 0)%nat -> (2 * (n / 2) = n)%nat.
Proof. intro H. pose proof (Nat.div_mod n 2 ltac:(lia)). lia. Qed.

Lemma stage_start n b J B x S S' p : (p < n)%nat -> (forall q, (q < n)%nat -> S q = S' q) ->
  stageF RNum n b J B x S p = stageF RNum n b J B x S' p.
Proof.
  intros Hp E. unfold stageF. rewrite (E p Hp). destruct (onsub n b p); [|reflexivity].
  rewrite !omF_R. unfold om. rewrite (E _ (lft_lt n p Hp)), (E _ (rgt_lt n p Hp)). reflexivity.
Qed.
Lemma trotF_start n J B dt2 dt S S' p : (p < n)%nat -> (forall q, (q < n)%nat -> S q = S' q) ->
  trotF RNum n J B dt2 dt S p = trotF RNum n J B dt2 dt S' p.
Proof. intros Hp E. unfold trotF. do 3 (apply stage_start; [assumption|]; intros). auto. Qed.

Section Chain.
Context (n s : nat) (sc : chain R) (T : R) (X : R -> nat -> vec).
Context (W : wf n s sc) (Hn : (2 <= n)%nat) (Hev : (n mod 2 = 0)%nat) (Hd : drive_ok (vars sc)) (Hu : unit_spins sc) (HT : 0 <= T)
  (HX : solves n s sc T X).
Definition at_dt (dt : R) : chain R := with_dt sc dt.
Lemma wf_dt dt : wf n s (at_dt dt).
Proof. destruct W. constructor; auto. Qed.
Lemma unit_dt dt : unit_spins (at_dt dt).
Proof. exact Hu. Qed.
Lemma drive_dt dt : drive_ok (vars (at_dt dt)).
Proof. exact Hd. Qed.

Definition path (dt : R) (k : nat) : nat -> vec := S_ (evol n s k (at_dt dt)).
Lemma path_S dt k i : (i < n)%nat -> path dt (S k) i =
  trotF RNum n (J_ sc) (B_ sc s (t sc + INR k * dt + dt / 2)) (dt / 2) dt (path dt k) i.
Proof.
  intro Hi. unfold path. rewrite evol_S, S_step by exact Hi. rewrite even_half by exact Hev.
  rewrite J_evol, B_evol, vars_evol. unfold mid. rewrite t_evol, vars_evol. reflexivity.
Qed.
Lemma path_unit dt k i : (i < n)%nat -> unit3 (path dt k i).
Proof.
  intro Hi. unfold path. apply (proj1 (unit_spins_iff n s _ (wf_evol n s k _ (wf_dt dt)))); [|exact Hi].
  apply unit_evol; [apply wf_dt|apply unit_dt].
Qed.
Lemma sc_unit i : (i < n)%nat -> unit3 (X (t sc) i).
Proof. intro Hi. rewrite (proj1 HX) by exact Hi. apply (proj1 (unit_spins_iff n s _ W) Hu); exact Hi. Qed.
Lemma X_motion x i : t sc <= x <= t sc + T -> (i < n)%nat ->
  has_velocity (fun r => X r i) x (cross (X x i) (om n (X x) (J_ sc) (B_ sc s x) i)).
Proof. intros Hx Hi. rewrite <- field_at_om by exact Hi. apply (proj2 HX); assumption. Qed.
Lemma HTle : t sc <= t sc + T. Proof. lra. Qed.

Lemma path_error : exists K, 0 <= K /\ forall dt k i, 0 < dt <= 1 -> INR k * dt <= T -> (i < n)%nat ->
  norm (vsub (path dt k i) (X (t sc + INR k * dt) i)) <= K * (dt * dt).
Proof.
  destruct (fin_bound (J_ sc) n) as (j & j0 & Hj). destruct (B_form sc s) as (w & p & q & u & HB).
  destruct (global_error n (J_ sc) j Hev Hj j0 (t sc) (t sc + T) HTle (B_ sc s) (Bd s w p q) X
    (B_jet _ _ sc n s w p q u HB) X_motion sc_unit) as (K & K0 & H).
  exists K. split; [exact K0|]. intros dt k i Hdt Hk Hi.
  apply (H dt (path dt)); auto; try lra.
  - intros. unfold path, evol. cbn. symmetry. apply (proj1 HX). assumption.
  - intros. apply path_S. assumption.
  - intros. apply path_unit. assumption.
Qed.
Lemma path_local : exists K, 0 <= K /\ forall dt i, 0 < dt <= 1 -> dt <= T -> (i < n)%nat ->
  norm (vsub (path dt 1 i) (X (t sc + dt) i)) <= K * dt ^ 3.
Proof.
  destruct (fin_bound (J_ sc) n) as (j & j0 & Hj). destruct (B_form sc s) as (w & p & q & u & HB).
  destruct (local_error n (J_ sc) j Hev Hj (t sc) (t sc + T) (B_ sc s) (Bd s w p q) X
    (B_jet _ _ sc n s w p q u HB) X_motion sc_unit) as (K & K0 & H).
  exists K. split; [exact K0|]. intros dt i Hdt Hk Hi.
  rewrite path_S by exact Hi. cbn [INR]. rewrite Rmult_0_l, Rplus_0_r.
  rewrite (trotF_start n (J_ sc) (B_ sc s (t sc + dt / 2)) (dt / 2) dt (path dt 0) (X (t sc)) i Hi).
  - apply H; [unfold ProofsJet.at_time; lra|exact Hi].
  - intros r Hr. symmetry. apply (proj1 HX). exact Hr.
Qed.
Lemma runs_path dt k sc' : iterM (update ERNum) k (fin (with_dt sc dt)) = Ok (fin sc') -> forall i, S_ sc' i = path dt k i.
Proof.
  intros H i. destruct (iter_ER n s k (at_dt dt) _ (wf_dt dt) Hn (drive_dt dt) (unit_dt dt) H (finspins_fin sc')) as [E _].
  apply fin_inj in E. unfold path, evol. rewrite <- E. reflexivity.
Qed.
Lemma two_units a b : unit3 a -> unit3 b -> norm (vsub a b) <= 2.
Proof. intros A B. eapply Rle_trans; [apply norm_sub_le|]. rewrite !unit3_norm by assumption. lra. Qed.
Lemma X_stays x i : t sc <= x <= t sc + T -> (i < n)%nat -> unit3 (X x i).
Proof.
  destruct (fin_bound (J_ sc) n) as (j & j0 & Hj).
  apply (X_unit n (J_ sc) (t sc) (t sc + T) (B_ sc s) X X_motion sc_unit).
Qed.

Lemma second_order : exists K, forall dt k sc', 0 < dt -> INR k * dt <= T ->
  iterM (update ERNum) k (fin (with_dt sc dt)) = Ok (fin sc') -> forall i, (i < n)%nat ->
  norm (vsub (S_ sc' i) (X (t sc + INR k * dt) i)) <= K * dt ^ 2.
Proof.
  destruct path_error as (K & K0 & H). exists (K + 2). intros dt k sc' Hdt Hk Hr i Hi. rewrite (runs_path dt k sc' Hr i).
  assert (0 <= K * (dt * dt)) by (apply Rmult_le_pos; [exact K0|apply Rle_0_sqr]).
  replace ((K + 2) * dt ^ 2) with (K * (dt * dt) + 2 * (dt * dt)) by ring.
  destruct (Rle_dec dt 1) as [L|L].
  - assert (0 <= dt * dt) by apply Rle_0_sqr. pose proof (H dt k i ltac:(lra) Hk Hi). lra.
  - assert (1 * 1 <= dt * dt) by (apply Rmult_le_compat; lra).
    assert (0 <= INR k * dt) by (apply Rmult_le_pos; [apply pos_INR|lra]).
    pose proof (two_units (path dt k i) (X (t sc + INR k * dt) i) (path_unit dt k i Hi) (X_stays (t sc + INR k * dt) i ltac:(lra) Hi)). lra.
Qed.
Lemma third_order_step : exists K, forall dt sc', 0 < dt -> dt <= T ->
  update ERNum (fin (with_dt sc dt)) = Ok (fin sc') -> forall i, (i < n)%nat ->
  norm (vsub (S_ sc' i) (X (t sc + dt) i)) <= K * dt ^ 3.
Proof.
  destruct path_local as (K & K0 & H). exists (K + 2). intros dt sc' Hdt Hk Hr i Hi.
  assert (Hr' : iterM (update ERNum) 1 (fin (with_dt sc dt)) = Ok (fin sc')).
  { cbn [iterM]. etransitivity; [apply (f_equal (fun q => bind q _) Hr)|reflexivity]. }
  rewrite (runs_path dt 1 sc' Hr' i).
  assert (0 <= dt ^ 3) by (apply pow_le; lra).
  assert (0 <= K * dt ^ 3) by (apply Rmult_le_pos; assumption).
  replace ((K + 2) * dt ^ 3) with (K * dt ^ 3 + 2 * dt ^ 3) by ring.
  destruct (Rle_dec dt 1) as [L|L].
  - pose proof (H dt i ltac:(lra) Hk Hi). lra.
  - assert (1 <= dt ^ 3) by (apply pow_R1_Rle; lra).
    pose proof (two_units (path dt 1 i) (X (t sc + dt) i) (path_unit dt 1 i Hi) (X_stays (t sc + dt) i ltac:(lra) Hi)). lra.
Qed.

(** if no field vanishes along the motion, short steps succeed *)
Lemma short_steps : (forall x i, t sc <= x <= t sc + T -> (i < n)%nat -> field_at n s sc (X x) x i <> vzero) ->
  exists d, 0 < d /\ forall dt k, 0 < dt < d -> INR k * dt <= T -> exists sc', iterM (update ERNum) k (fin (with_dt sc dt)) = Ok (fin sc').
Proof.
  intro HO. destruct path_error as (K & K0 & H).
  destruct (fin_bound (J_ sc) n) as (j & j0 & Hj). destruct (B_form sc s) as (w & p & q & u & HB).
  assert (HO' : forall x i, t sc <= x <= t sc + T -> (i < n)%nat -> Om n (J_ sc) (B_ sc s) X x i <> vzero).
  { intros x i Hx Hi. unfold Om. rewrite <- field_at_om by exact Hi. apply HO; assumption. }
  destruct (field_gap n (J_ sc) j Hev Hj (t sc) (t sc + T) HTle (B_ sc s) (Bd s w p q) X X_motion sc_unit (fun x i _ _ => B_vel sc s w p q u HB x i) HO') as (m & Hm & Hgap).
  destruct (steady_fields n (J_ sc) j Hev Hj j0 (t sc) (t sc + T) (B_ sc s) (Bd s w p q) X
    (B_jet _ _ sc n s w p q u HB) X_motion sc_unit m Hm Hgap K K0) as (d & Hd01 & Hnv).
  exists d. split; [lra|]. intros dt k Hdt Hk. exists (evol n s k (at_dt dt)).
  apply (iter_ER_ok n s k (at_dt dt) (wf_dt dt) Hn (drive_dt dt) (unit_dt dt)). intros i Hi.
  change (nvc n s (evol n s i (at_dt dt))). unfold nvc. rewrite even_half by exact Hev.
  rewrite J_evol, B_evol, vars_evol. unfold mid. rewrite t_evol, vars_evol.
  change (nv n (J_ sc) (B_ sc s (t sc + INR i * dt + dt / 2)) (dt / 2) dt (path dt i)).
  assert (Hik : INR i * dt + dt <= T).
  { apply Rle_trans with (INR k * dt); [|exact Hk]. replace (INR i * dt + dt) with (INR (S i) * dt) by (rewrite S_INR; ring).
    apply Rmult_le_compat_r; [lra|]. apply le_INR. lia. }
  assert (0 <= INR i * dt) by (apply Rmult_le_pos; [apply pos_INR|lra]).
  apply Hnv.
  - unfold ProofsJet.at_time. lra.
  - lra.
  - intros r Hr. apply path_unit. exact Hr.
  - intros r Hr. apply H; [lra|lra|exact Hr].
Qed.
(** ... and the fields met on the way stay away from zero *)
Lemma clear_steps m : 0 < m -> (forall x i, t sc <= x <= t sc + T -> (i < n)%nat -> m <= norm (field_at n s sc (X x) x i)) ->
  exists d, 0 < d <= 1 /\ forall dt k i, 0 < dt < d -> INR k * dt <= T -> (i < k)%nat ->
    far n (J_ sc) (B_ sc s (t sc + INR i * dt + dt / 2)) (m / 2) (dt / 2) dt (path dt i).
Proof.
  intros Hm HO. destruct path_error as (K & K0 & H).
  destruct (fin_bound (J_ sc) n) as (j & j0 & Hj). destruct (B_form sc s) as (w & p & q & u & HB).
  assert (HO' : forall x i, t sc <= x <= t sc + T -> (i < n)%nat -> m <= norm (Om n (J_ sc) (B_ sc s) X x i)).
  { intros x i Hx Hi. unfold Om. rewrite <- field_at_om by exact Hi. apply HO; assumption. }
  destruct (steady_margin n (J_ sc) j Hev Hj j0 (t sc) (t sc + T) (B_ sc s) (Bd s w p q) X
    (B_jet _ _ sc n s w p q u HB) X_motion sc_unit m Hm HO' K K0) as (d & Hd01 & Hnv).
  exists d. split; [exact Hd01|]. intros dt k i Hdt Hk Hi.
  assert (Hik : INR i * dt + dt <= T).
  { apply Rle_trans with (INR k * dt); [|exact Hk]. replace (INR i * dt + dt) with (INR (S i) * dt) by (rewrite S_INR; ring).
    apply Rmult_le_compat_r; [lra|]. apply le_INR. lia. }
  assert (0 <= INR i * dt) by (apply Rmult_le_pos; [apply pos_INR|lra]).
  apply Hnv.
  - unfold ProofsJet.at_time. lra.
  - lra.
  - intros r Hr. apply path_unit. exact Hr.
  - intros r Hr. apply H; [lra|lra|exact Hr].
Qed.
End Chain.
