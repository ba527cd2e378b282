(** Binary64 runs follow exact runs and exact motions. *)
From Coq Require Import ZArith Reals List Lia Lra Psatz Bool Arith.
From Coq Require Import Floats.SpecFloat.
From Flocq Require Import Core.
From Verif Require Import Num Monad NumR NumF64 Spin Config Chain SpecVec SpecChain SpecRound SpecClose SpecOrder
  ProofsFlocq ProofsRound ProofsRound2 ProofsChain ProofsSpin ProofsEnergy ProofsDrive ProofsOrder ProofsOrder2 ProofsOrder3 ProofsDyn ProofsDynR ProofsDyn2
  ProofsTurn ProofsClose ProofsClose2 ProofsClose3 ProofsClose4 ProofsClose5.
Import ListNotations.
Local Open Scope R_scope.

Lemma far_nv M J B m dt2 dt S : 0 < m -> far M J B m dt2 dt S -> nv M J B dt2 dt S.
Proof.
  intros Hm (A1 & A2 & A3). assert (Q : forall v, m <= norm v -> v <> vzero).
  { intros v H ->. assert (norm vzero = 0) by (unfold norm, dot, vzero; cbn; replace (0 * 0 + 0 * 0 + 0 * 0) with 0 by ring; apply sqrt_0). lra. }
  split; [|split]; intros p Hp; apply onsub_spec in Hp; apply Q; auto; [apply A1|apply A2|apply A3]; tauto.
Qed.

Lemma mild_drive_ok cF c : same_model cF c -> mild_drive cF -> drive_ok (vars c).
Proof.
  intros (_ & _ & _ & Ed & _ & E) H. unfold mild_drive in H. unfold drive_ok. rewrite <- Ed.
  assert (Q : powerRZ 2 (-100) <= Rabs (value (tau (vars cF))) -> value (tau (vars cF)) = tau (vars c) -> tau (vars c) <> 0).
  { rewrite pow_bpow. intros A Et B. rewrite Et, B, Rabs_R0 in A. pose proof (bpow_gt_0 radix2 (-100)). lra. }
  destruct (drive (vars cF)); try (apply Q; [apply H|apply E]); [|exact I]. rewrite <- E, map_length. apply H.
Qed.
Lemma mild_hs_ok cF : mild_drive cF -> hs_ok (vars cF).
Proof. unfold mild_drive, hs_ok. intros H E. rewrite E in H. apply H. Qed.

Section Both.
Context (L : libm) (HL : accurate L) (n s : nat) (cF : chain f64) (c : chain R) (k : nat) (d : R).
Context (WF : wf n s cF) (W : wf n s c) (Hn : (2 <= n)%nat) (HS : same_model cF c) (Hm : mild_sites cF) (Hd : mild_drive cF).
Context (Hdt : plain_dt (c_dt (vars cF))) (Hk : INR k <= powerRZ 2 50).
Context (HN : Forall (near_unit (powerRZ 2 (-50))) (spins cF)) (HU : unit_spins c) (HW : spins_within n d cF c).
Let M := (2 * (n / 2))%nat.
Let g := g_bound cF k.

Lemma d_pos : 0 <= d.
Proof. eapply Rle_trans; [apply norm_nonneg|apply (HW 0%nat); lia]. Qed.
Lemma J_vals p : (p < n)%nat -> (is_vector (at3 (F64 L) (j_couple cF) p) /\ comp_le 1 (at3 (F64 L) (j_couple cF) p)) /\
  vvalue (at3 (F64 L) (j_couple cF) p) = J_ c p.
Proof.
  intro Hp. destruct Hm as [HJ _]. assert (Hp' : (p < length (j_couple cF))%nat) by (rewrite (wf_js _ _ _ WF); exact Hp). split.
  - rewrite Forall_forall in HJ. apply HJ. apply nth_In. exact Hp'.
  - destruct HS as (E & _). unfold J_, at_. rewrite <- E. unfold at3.
    rewrite (nth_indep _ vzero (vvalue (z3 (F64 L)))) by (rewrite map_length; exact Hp'). symmetry. apply map_nth.
Qed.
Lemma spread_round : spread c g d k <= rounding cF d k.
Proof.
  unfold spread, rounding, kick, g, g_bound. destruct HS as (_ & _ & Edt & _). rewrite <- Edt. cbv zeta.
  pose proof (drift_pos cF k Hdt Hd) as D. pose proof (pos_INR k) as K. pose proof (dt01 cF Hdt) as R1.
  apply Rmult_le_compat_l; [apply Rlt_le, exp_pos|]. set (x := value (c_dt (vars cF))) in *. set (T := INR k * x).
  assert (T0 : 0 <= T) by (apply Rmult_le_pos; lra).
  set (e := powerRZ 2 (-45)). assert (E0 : 0 < e) by (unfold e; rewrite pow_bpow; apply bpow_gt_0).
  assert (E39 : powerRZ 2 (-39) = 64 * e) by (unfold e; rewrite !pow_bpow; cbn; lra).
  assert (E37 : powerRZ 2 (-37) = 256 * e) by (unfold e; rewrite !pow_bpow; cbn; lra).
  assert (E32 : powerRZ 2 (-32) = 8192 * e) by (unfold e; rewrite !pow_bpow; cbn; lra).
  assert (E44 : powerRZ 2 (-44) = 2 * e) by (unfold e; rewrite !pow_bpow; cbn; lra).
  rewrite E39, E37, E32, E44.
  replace (INR k * (64 * e * (3 + 50 * x) + 2 * (x * (e * (1 + drift cF k))))) with
    (192 * (INR k * e) + 3200 * (T * e) + 2 * (T * e) + 2 * (T * e * drift cF k)) by (unfold T; ring).
  replace (d + INR k * (256 * e) + T * (8192 * e + 2 * e * drift cF k)) with
    (d + 256 * (INR k * e) + 8192 * (T * e) + 2 * (T * e * drift cF k)) by ring.
  assert (0 <= INR k * e) by (apply Rmult_le_pos; lra). assert (0 <= T * e) by (apply Rmult_le_pos; lra). lra.
Qed.

Lemma run_close m :
  (forall i S SR p, (i < k)%nat -> (forall q, (q < M)%nat -> near_unit (powerRZ 2 (-50)) (S q)) -> (forall q, (q < M)%nat -> unit3 (SR q)) ->
     (forall q, (q < M)%nat -> off (S q) (SR q) <= rounding cF d k) -> (p < M)%nat -> m <= norm (om M SR (J_ c) (fieldsR s c i) p) ->
     mid_range (omF (F64 L) M S (at3 (F64 L) (j_couple cF)) (fieldsF L s cF i) p)) ->
  (forall i, (i < k)%nat -> far M (J_ c) (fieldsR s c i) m (c_dt (vars c) / 2) (c_dt (vars c)) (S_ (evol n s i c))) ->
  exists cF', iterM (update (F64 L)) k cF = Ok cF' /\ spins_within n (rounding cF d k) cF' (evol n s k c).
Proof.
  intros Hmid Hfar. pose proof spread_round as SR1. pose proof d_pos as D0.
  assert (ML : (M <= n)%nat) by (unfold M; pose proof (Nat.div_mod n 2 ltac:(lia)); lia).
  assert (LS : length (spins cF) = n) by apply WF.
  destruct (updates_close L HL n s cF c g m WF W Hn (mild_hs_ok cF Hd) (g_pos cF k Hdt Hd) Hdt (proj1 (proj2 (proj2 HS)))
    (fun p Hp => proj1 (J_vals p Hp)) (fun p Hp => proj2 (J_vals p Hp)) d k (spins cF)) with (i := k) as (sp' & E & Ls & N & Wi); auto.
  - intros p Hp. rewrite Forall_forall in HN. apply HN. apply nth_In. exact (eq_ind_r (fun z => (p < z)%nat) Hp LS).
  - intros p Hp. pose proof (HW p Hp) as A. unfold fspin in A. unfold at3. rewrite (nth_indep _ _ (mk3 S754_nan S754_nan S754_nan)).
    + exact A.
    + change (p < length (spins cF))%nat. rewrite LS. exact Hp.
  - intros i p Hi Hp. apply (fields_close L HL n s cF c k); auto. fold M in Hp. lia.
  - intros i S SR p Hi A1 A2 A3 A4 A5. apply (Hmid i S SR p); auto.
    intros q Hq. eapply Rle_trans; [apply A3; exact Hq|exact SR1].
  - exists (at_step cF k sp'). split.
    + replace cF with (at_step cF 0 (spins cF)) at 1 by (destruct cF; reflexivity). exact E.
    + intros p Hp. unfold fspin, at_step; cbn [spins]. pose proof (Wi p Hp) as A. unfold at3 in A.
      rewrite (nth_indep _ _ (z3 (F64 L))) by exact (eq_ind_r (fun z => (p < z)%nat) Hp Ls). eapply Rle_trans; [exact A|exact SR1].
Qed.

(** with a strong z field nothing is asked of the run *)
Context (Hz : strong_z cF).
Lemma om_strong SR i p : (i < k)%nat -> (p < M)%nat -> (forall q, (q < M)%nat -> unit3 (SR q)) -> 1 <= norm (om M SR (J_ c) (fieldsR s c i) p).
Proof.
  intros Hi Hp HU'. assert (ML : (M <= n)%nat) by (unfold M; pose proof (Nat.div_mod n 2 ltac:(lia)); lia).
  pose proof (lft_lt M p Hp) as Ll. pose proof (rgt_lt M p Hp) as Lr.
  assert (BZ : 4 <= Rabs (vz (fieldsR s c i p))).
  { pose proof Hz as [Nd Hh]. pose proof HS as (_ & Eh & _ & Ed & _).
    assert (Hp' : (p < length (static_h cF))%nat) by (rewrite (wf_hs _ _ _ WF); lia).
    assert (EV : vvalue (at3 (F64 L) (static_h cF) p) = h_ c p).
    { unfold h_, at_. rewrite <- Eh. unfold at3. rewrite (nth_indep _ vzero (vvalue (z3 (F64 L)))) by (rewrite map_length; exact Hp').
      symmetry. apply map_nth. }
    assert (Z : 4 <= Rabs (vz (h_ c p))).
    { rewrite <- EV. rewrite Forall_forall in Hh. apply (Hh (at3 (F64 L) (static_h cF) p)). apply nth_In. exact Hp'. }
    unfold fieldsR, B_. destruct (p <? s)%nat; [|exact Z]. unfold vadd; cbn [vz].
    replace (vz (drive_field _ _)) with 0; [rewrite Rplus_0_r; exact Z|]. unfold drive_field. rewrite <- Ed.
    destruct (drive (vars cF)); try reflexivity. congruence. }
  assert (Q : forall q r, (q < M)%nat -> (r < M)%nat -> Rabs (vz (vhad (J_ c q) (SR r))) <= 1).
  { intros q r Hq Hr. destruct (J_vals q ltac:(lia)) as [(_ & _ & _ & B) E]. rewrite <- E. cbn [vhad vz vvalue]. rewrite Rabs_mult.
    assert (Rabs (vz (SR r)) <= 1).
    { pose proof (comp_le_norm (SR r)) as (_ & _ & C). rewrite (unit3_norm (SR r) (HU' r Hr)) in C. exact C. }
    rewrite <- (Rmult_1_r 1). apply Rmult_le_compat; try apply Rabs_pos; assumption. }
  pose proof (Q _ _ Ll Ll) as Q1. pose proof (Q _ _ Hp Lr) as Q2.
  destruct (comp_le_norm (om M SR (J_ c) (fieldsR s c i) p)) as (_ & _ & C). unfold om in C at 1. cbn [vsub vadd vz] in C.
  set (x := vz (vhad (J_ c (lft M p)) (SR (lft M p)))) in *. set (y := vz (vhad (J_ c p) (SR (rgt M p)))) in *. set (b := vz (fieldsR s c i p)) in *.
  assert (Rabs b <= Rabs (x + y - b) + (Rabs x + Rabs y)).
  { replace b with (- (x + y - b) + (x + y)) at 1 by ring. eapply Rle_trans; [apply Rabs_triang|]. rewrite Rabs_Ropp.
    apply Rplus_le_compat_l. apply Rabs_triang. }
  lra.
Qed.
Lemma strong_far i : (i < k)%nat -> far M (J_ c) (fieldsR s c i) 1 (c_dt (vars c) / 2) (c_dt (vars c)) (S_ (evol n s i c)).
Proof.
  intro Hi. assert (ML : (M <= n)%nat) by (unfold M; pose proof (Nat.div_mod n 2 ltac:(lia)); lia).
  assert (U0 : forall q, (q < M)%nat -> unit3 (S_ (evol n s i c) q)).
  { intros q Hq. apply (proj1 (unit_spins_iff n s _ (wf_evol n s i c W))); [apply unit_evol; assumption|lia]. }
  set (S1 := stageF RNum M 0 (J_ c) (fieldsR s c i) (c_dt (vars c) / 2) (S_ (evol n s i c))).
  assert (U1 : forall q, (q < M)%nat -> unit3 (S1 q)) by (apply stage_unit; exact U0).
  assert (U2 : forall q, (q < M)%nat -> unit3 (stageF RNum M 1 (J_ c) (fieldsR s c i) (c_dt (vars c)) S1 q)) by (apply stage_unit; exact U1).
  split; [|split]; intros p Hp _; apply om_strong; auto.
Qed.

Lemma close_steps : exists cF' c', iterM (update (F64 L)) k cF = Ok cF' /\ iterM (update ERNum) k (fin c) = Ok (fin c') /\
  spins_within n (rounding cF d k) cF' c'.
Proof.
  assert (ML : (M <= n)%nat) by (unfold M; pose proof (Nat.div_mod n 2 ltac:(lia)); lia).
  destruct (run_close 1) as (cF' & E & Wi).
  - intros i S SR p Hi A1 A2 A3 A4 _.
    apply (omF_mid L M (at3 (F64 L) (j_couple cF)) (fieldsF L s cF i)).
    + intros q Hq. apply J_vals. lia.
    + intros q Hq. destruct (fields_close L HL n s cF c k WF Hdt Hk HS Hm Hd i q ltac:(lia) ltac:(lia)) as (B1 & B2 & _).
      split; [exact B1|]. split; [exact B2|]. apply (fields_strong L HL n s cF c k); auto. lia.
    + exact A4.
    + intros q Hq. apply (near_weak _ _ _ (A1 q Hq) eps_small).
  - exact strong_far.
  - exists cF', (evol n s k c). split; [exact E|]. split; [|exact Wi].
    apply (iter_ER_ok n s k c W Hn (mild_drive_ok cF c HS Hd) HU). intros i Hi.
    change (nvc n s (evol n s i c)). unfold nvc. rewrite J_evol, B_evol, vars_evol. unfold mid. rewrite t_evol, vars_evol.
    apply (far_nv _ _ _ 1); [lra|]. apply strong_far. exact Hi.
Qed.
End Both.

Lemma rounding_floor cF d k : 0 <= d -> plain_dt (c_dt (vars cF)) -> mild_drive cF -> (1 <= k)%nat -> powerRZ 2 (-37) <= rounding cF d k.
Proof.
  intros D0 Hdt Hd Hk. unfold rounding. cbv zeta. pose proof (dt01 cF Hdt) as R1. apply le_INR in Hk. cbn [INR] in Hk.
  pose proof (drift_pos cF k Hdt Hd) as D. set (T := INR k * value (c_dt (vars cF))). assert (T0 : 0 <= T) by (apply Rmult_le_pos; lra).
  rewrite !pow_bpow. pose proof (bpow_gt_0 radix2 (-37)) as P37. pose proof (bpow_gt_0 radix2 (-32)) as P32. pose proof (bpow_gt_0 radix2 (-44)) as P44.
  set (a := bpow radix2 (-37)) in *. set (b := bpow radix2 (-32)) in *. set (e := bpow radix2 (-44)) in *.
  assert (0 <= e * drift cF k) by (apply Rmult_le_pos; lra).
  assert (0 <= T * (b + e * drift cF k)) by (apply Rmult_le_pos; lra).
  assert (a <= INR k * a) by nra. pose proof (exp_ineq1_le (4 * T)).
  apply Rle_trans with (1 * (d + INR k * a + T * (b + e * drift cF k))); [lra|]. apply Rmult_le_compat_r; lra.
Qed.

(** the motion itself *)
Lemma close_motion n s c T X m : wf n s c -> (2 <= n)%nat -> (n mod 2 = 0)%nat -> drive_ok (vars c) -> unit_spins c -> 0 <= T -> solves n s c T X -> 0 < m ->
  (forall x i, t c <= x <= t c + T -> (i < n)%nat -> m <= norm (field_at n s c (X x) x i)) ->
  exists K d0, 0 < d0 /\ forall L cF dt k d, accurate L -> wf n s cF -> same_model cF (with_dt c dt) ->
    mild_sites cF -> mild_drive cF -> plain_dt (c_dt (vars cF)) -> INR k <= powerRZ 2 50 ->
    Forall (near_unit (powerRZ 2 (-50))) (spins cF) -> spins_within n d cF c ->
    dt < d0 -> INR k * dt <= T -> rounding cF d k + powerRZ 2 (-44) * drift cF k <= m / 32 ->
    exists cF', iterM (update (F64 L)) k cF = Ok cF' /\
      forall i, (i < n)%nat -> off (fspin cF' i) (X (t c + INR k * dt) i) <= K * dt ^ 2 + rounding cF d k.
Proof.
  intros W Hn Hev Hd HU HT HX Hm0 HO.
  destruct (clear_steps n s c T X W Hn Hev HU HT HX m Hm0 HO) as (d0 & Hd0 & Hfar).
  destruct (path_error n s c T X W Hev HU HT HX) as (K & K0 & HK).
  exists K, d0. split; [lra|].
  intros L cF dt k d HL WF HS Hms Hmd Hdt Hk HN HW Hlt HkT HR.
  assert (W' : wf n s (with_dt c dt)) by (destruct W; constructor; auto).
  assert (Edt : value (c_dt (vars cF)) = dt) by apply HS.
  pose proof (dt01 cF Hdt) as R1. rewrite Edt in R1.
  assert (HW' : spins_within n d cF (with_dt c dt)) by exact HW.
  assert (E2 : (2 * (n / 2) = n)%nat) by (apply even_half; exact Hev).
  assert (D0 : 0 <= d) by (eapply Rle_trans; [apply norm_nonneg|apply (HW 0%nat); lia]).
  pose proof (drift_pos cF k Hdt Hmd) as DP.
  destruct (run_close L HL n s cF (with_dt c dt) k d WF W' Hn HS Hms Hmd Hdt Hk HN HU HW' (m / 2)) as (cF' & E & Wi).
  - rewrite E2. intros i S SR p Hi A1 A2 A3 A4 A5.
    apply (mid_clear L n (at3 (F64 L) (j_couple cF)) (fieldsF L s cF i) (J_ (with_dt c dt)) (fieldsR s (with_dt c dt) i) (g_bound cF k)) with
      (SR := SR) (d := rounding cF d k) (m := m / 2); auto.
    + intros q Hq. apply (J_vals L n s cF (with_dt c dt) WF HS Hms q Hq).
    + intros q Hq. destruct (fields_close L HL n s cF (with_dt c dt) k WF Hdt Hk HS Hms Hmd i q ltac:(lia) Hq) as (B1 & B2 & _). auto.
    + intros q Hq. apply (J_vals L n s cF (with_dt c dt) WF HS Hms q Hq).
    + intros q Hq. apply (fields_close L HL n s cF (with_dt c dt) k WF Hdt Hk HS Hms Hmd i q ltac:(lia) Hq).
    + pose proof (rounding_floor cF d k D0 Hdt Hmd ltac:(lia)) as Fl. unfold g_bound.
      set (e := powerRZ 2 (-45)). assert (E0 : 0 < e) by (unfold e; rewrite pow_bpow; apply bpow_gt_0).
      assert (E37 : powerRZ 2 (-37) = 256 * e) by (unfold e; rewrite !pow_bpow; cbn; lra).
      assert (E44 : powerRZ 2 (-44) = 2 * e) by (unfold e; rewrite !pow_bpow; cbn; lra).
      assert (E100 : powerRZ 2 (-100) <= e) by (unfold e; rewrite !pow_bpow; apply bpow_le; lia).
      rewrite E37 in Fl. rewrite E44 in HR. assert (0 <= e * drift cF k) by (apply Rmult_le_pos; lra). lra.
  - intros i Hi. rewrite E2. apply (Hfar dt k i); [lra|exact HkT|exact Hi].
  - exists cF'. split; [exact E|]. intros i Hi. eapply Rle_trans; [apply (off_tri _ (S_ (evol n s k (with_dt c dt)) i))|].
    rewrite Rplus_comm. apply Rplus_le_compat; [|apply Wi; exact Hi].
    replace (dt ^ 2) with (dt * dt) by ring. apply (HK dt k i); [lra|exact HkT|exact Hi].
Qed.
