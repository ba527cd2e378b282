(** The fields of a binary64 run beside the exact ones. *)
From Coq Require Import ZArith Reals List Lia Lra Psatz Bool Arith.
From Coq Require Import Floats.SpecFloat.
From Flocq Require Import Core.
From Verif Require Import Num Monad NumR NumF64 Spin Config Chain SpecVec SpecChain SpecRound SpecClose
  ProofsFlocq ProofsRound ProofsRound2 ProofsChain ProofsSpin ProofsEnergy ProofsDrive ProofsOrder ProofsOrder2 ProofsDyn ProofsDynR ProofsDyn2
  ProofsTurn ProofsClose ProofsClose2 ProofsClose3 ProofsClose4 ProofsPi.
Import ListNotations.
Local Open Scope R_scope.

Lemma comp_add h v w e : is_number h -> Rabs (value h) <= 6 -> is_number v -> Rabs (value v) <= 5 / 2 -> Rabs (value v - w) <= e ->
  is_number (f_add h v) /\ Rabs (value (f_add h v)) <= 9 /\ Rabs (value (f_add h v) - (value h + w)) <= e + ee.
Proof.
  intros Vh Bh Vv Bv E. rewrite !value_fval in *. pose proof ee_small as ES.
  destruct (app_add h v _ _ _ _ (app_exact h Vh) (app_exact v Vv) ltac:(lra)) as [V A].
  split; [exact V|]. split.
  - replace (fval (f_add h v)) with (fval (f_add h v) - (fval h + fval v) + (fval h + fval v)) by ring.
    eapply Rle_trans; [apply rabs_add; [exact A|apply rabs_add; [exact Bh|exact Bv]]|]. lra.
  - replace (fval (f_add h v) - (fval h + w)) with ((fval (f_add h v) - (fval h + fval v)) + (fval v - w)) by ring.
    eapply Rle_trans; [apply rabs_add; [exact A|exact E]|]. lra.
Qed.

(** a binary64 driving field within [e] of the exact one *)
Definition drive_near (e : R) (v : v3 f64) (w : vec) : Prop :=
  is_vector v /\ comp_le (5 / 2) v /\ Rabs (value (vx v) - vx w) <= e /\ Rabs (value (vy v) - vy w) <= e /\ Rabs (value (vz v) - vz w) <= e.

Lemma zero_ok : is_number (f_ofZ 0) /\ value (f_ofZ 0) = 0.
Proof. rewrite value_fval. apply (ofZ_val 0). lia. Qed.

Lemma sum_near L h v w e : is_vector h -> comp_le 6 h -> drive_near e v w -> 0 <= e ->
  is_vector (sum_vec (F64 L) h v) /\ comp_le 9 (sum_vec (F64 L) h v) /\ off (sum_vec (F64 L) h v) (vadd (vvalue h) w) <= 2 * (e + ee).
Proof.
  intros (Hx & Hy & Hz) (Bx & By & Bz) ((Vx & Vy & Vz) & (Cx & Cy & Cz) & Ex & Ey & Ez) He. unfold sum_vec; cbn [nadd F64].
  destruct (comp_add _ _ _ _ Hx Bx Vx Cx Ex) as (A1 & A2 & A3). destruct (comp_add _ _ _ _ Hy By Vy Cy Ey) as (A4 & A5 & A6).
  destruct (comp_add _ _ _ _ Hz Bz Vz Cz Ez) as (A7 & A8 & A9).
  split; [split; [exact A1|split; [exact A4|exact A7]]|]. split; [split; [exact A2|split; [exact A5|exact A8]]|].
  unfold off. apply norm_comp. split; [exact A3|split; [exact A6|exact A9]].
Qed.

Lemma h_ext_F64 L (c : config f64) x : h_extP (F64 L) c x =
  let ph := f_div (f_mul (f_mul (f_ofZ 2) f_pi) x) (tau c) in
  match drive c with
  | Dxyplane => mk3 (l_cos L ph) (l_sin L ph) (f_ofZ 0)
  | Dxyelliptic => mk3 (l_cos L ph) (f_mul (c_e c) (l_sin L ph)) (f_ofZ 0)
  | Duniaxial => mk3 (l_cos L ph) (f_ofZ 0) (f_ofZ 0)
  | Dstaticfield => match hs c with a :: b :: d :: _ => mk3 a b d | _ => z3 (F64 L) end
  | Dnone => mk3 (f_ofZ 0) (f_ofZ 0) (f_ofZ 0)
  end.
Proof.
  unfold h_extP, h_ext. change (@drive (num (F64 L)) c) with (@drive f64 c). destruct (@drive f64 c); try reflexivity.
  change (@hs (num (F64 L)) c) with (@hs f64 c). destruct (@hs f64 c) as [|a [|b [|d l]]]; reflexivity.
Qed.

Section Fields.
Context (L : libm) (HL : accurate L) (n s : nat) (cF : chain f64) (c : chain R) (k : nat).
Context (WF : wf n s cF) (W : wf n s c) (Hdt : plain_dt (c_dt (vars cF))) (Hk : INR k <= powerRZ 2 50).
Context (HS : same_model cF c) (Hm : mild_sites cF) (Hd : mild_drive cF).

Definition e_ph : R := 8 * u + (64 * u * drift cF k + eta).

Lemma drift_pos : 0 <= drift cF k.
Proof.
  unfold drift. pose proof (pos_INR k) as K. pose proof (dt01 cF Hdt) as D.
  assert (Q : mild_drive cF -> drive (vars cF) <> Dnone -> drive (vars cF) <> Dstaticfield ->
    0 <= INR k * ((Rabs (value (t cF)) + INR k * value (c_dt (vars cF)) + 1) / Rabs (value (tau (vars cF))))).
  { intros M N1 N2. assert (T : 0 < Rabs (value (tau (vars cF)))).
    { unfold mild_drive in M. pose proof (bpow_gt_0 radix2 (-100)). rewrite !pow_bpow in M. destruct (drive (vars cF)); try congruence; lra. }
    apply Rmult_le_pos; [exact K|]. apply Rmult_le_pos; [|apply Rlt_le, Rinv_0_lt_compat, T].
    pose proof (Rabs_pos (value (t cF))). assert (0 <= INR k * value (c_dt (vars cF))) by (apply Rmult_le_pos; lra). lra. }
  destruct (drive (vars cF)) eqn:E; try lra; apply Q; auto; discriminate.
Qed.

Lemma trig_near i : (S i <= k)%nat -> is_number (tau (vars cF)) -> powerRZ 2 (-100) <= Rabs (value (tau (vars cF))) ->
  is_number (t cF) -> Rabs (value (t cF)) <= powerRZ 2 100 ->
  drift cF k = INR k * ((Rabs (value (t cF)) + INR k * value (c_dt (vars cF)) + 1) / Rabs (value (tau (vars cF)))) ->
  value (tau (vars cF)) = tau (vars c) ->
  let ph := phase cF (tmid cF i) in let w := 2 * PI / tau (vars c) * (t c + INR i * c_dt (vars c) + c_dt (vars c) / 2) in
  is_number (l_cos L ph) /\ is_number (l_sin L ph) /\ Rabs (value (l_cos L ph)) <= 1 /\ Rabs (value (l_sin L ph)) <= 1 /\
  Rabs (value (l_cos L ph) - cos w) <= e_ph /\ Rabs (value (l_sin L ph) - sin w) <= e_ph.
Proof.
  intros Hi Vtau Btau Vt Bt Dr Etau ph w. destruct HS as (_ & _ & Edt & _ & Et & _).
  destruct (phase_close cF k Hdt Vt Bt Hk Vtau Btau i Hi) as [V E]. rewrite Etau, Et, Edt in E. fold ph w in E, V.
  destruct (HL ph V) as (A1 & A2 & A3 & A4 & A5 & A6). repeat (split; [assumption|]).
  assert (Q : Rabs (value ph - w) <= 64 * u * drift cF k + eta).
  { eapply Rle_trans; [exact E|]. apply Rplus_le_compat_r. apply Rmult_le_compat_l; [rewrite u_val; lra|].
    rewrite Dr, Etau, Et, Edt. apply Rmult_le_compat_r.
    - pose proof drift_pos as P. assert (T : 0 < Rabs (tau (vars c))) by (rewrite <- Etau; rewrite pow_bpow in Btau; pose proof (bpow_gt_0 radix2 (-100)); lra).
      apply Rmult_le_pos; [|apply Rlt_le, Rinv_0_lt_compat, T].
      pose proof (dt01 cF Hdt) as D. rewrite Edt in D. pose proof (Rabs_pos (t c)). pose proof (pos_INR k).
      assert (0 <= INR k * c_dt (vars c)) by (apply Rmult_le_pos; lra). lra.
    - apply le_INR. exact Hi. }
  assert (E50 : powerRZ 2 (-50) = 8 * u) by (rewrite pow_bpow, u_val; cbn; lra). rewrite E50 in A5, A6. unfold e_ph.
  split.
  - replace (value (l_cos L ph) - cos w) with ((value (l_cos L ph) - cos (value ph)) + (cos (value ph) - cos w)) by ring.
    apply rabs_add; [exact A5|]. eapply Rle_trans; [apply cos_lip|exact Q].
  - replace (value (l_sin L ph) - sin w) with ((value (l_sin L ph) - sin (value ph)) + (sin (value ph) - sin w)) by ring.
    apply rabs_add; [exact A6|]. eapply Rle_trans; [apply sin_lip|exact Q].
Qed.

Definition e_dr : R := 2 * e_ph + ee.
Lemma e_ph_pos : 0 <= e_ph.
Proof. unfold e_ph. pose proof drift_pos as P. pose proof eta_pos. rewrite u_val. lra. Qed.
Lemma drive_close i : (S i <= k)%nat ->
  drive_near e_dr (h_extP (F64 L) (vars cF) (tmid cF i)) (drive_field (vars c) (t c + INR i * c_dt (vars c) + c_dt (vars c) / 2)) /\
  (drive (vars cF) <> Dstaticfield -> vz (h_extP (F64 L) (vars cF) (tmid cF i)) = f_ofZ 0).
Proof.
  intro Hi. destruct zero_ok as [Z1 Z2]. pose proof e_ph_pos as P0. pose proof ee_small as ES.
  pose proof HS as (_ & _ & Edt & Edr & Et & Emd). unfold drive_field. rewrite <- Edr. cbv zeta.
  assert (ZB : Rabs (value (f_ofZ 0)) <= 5 / 2) by (rewrite Z2, Rabs_R0; lra).
  assert (ZE : Rabs (value (f_ofZ 0) - 0) <= e_dr) by (rewrite Z2, Rminus_0_r, Rabs_R0; unfold e_dr; lra).
  assert (WK : e_ph <= e_dr) by (unfold e_dr; lra).
  assert (ROT : drive (vars cF) <> Dnone -> drive (vars cF) <> Dstaticfield ->
    (is_number (tau (vars cF)) /\ powerRZ 2 (-100) <= Rabs (value (tau (vars cF)))) /\
         (is_number (c_e (vars cF)) /\ Rabs (value (c_e (vars cF))) <= 2) /\
         is_number (t cF) /\ Rabs (value (t cF)) <= powerRZ 2 100 /\
    drift cF k = INR k * ((Rabs (value (t cF)) + INR k * value (c_dt (vars cF)) + 1) / Rabs (value (tau (vars cF))))).
  { unfold mild_drive in Hd. unfold drift. destruct (drive (vars cF)); try congruence; tauto. }
  rewrite h_ext_F64. cbv zeta. fold (phase cF (tmid cF i)). destruct (drive (vars cF)) eqn:ED.
  all: try (destruct (ROT ltac:(discriminate) ltac:(discriminate)) as ((R1 & R2) & (R3 & R4) & R5 & R6 & R7); destruct Emd as [Etau Ee];
    destruct (trig_near i Hi R1 R2 R5 R6 R7 Etau) as (T1 & T2 & T3 & T4 & T5 & T6);
    set (ph := phase cF (tmid cF i)) in *;
    set (w := 2 * PI / tau (vars c) * (t c + INR i * c_dt (vars c) + c_dt (vars c) / 2)) in *).
  - split; [|reflexivity]. unfold drive_near, is_vector, comp_le; cbn [vx vy vz]. repeat split; auto; try apply T1; try apply T2; try apply Z1; lra.
  - split; [|reflexivity]. rewrite !value_fval in *.
    assert (A : app (f_mul (c_e (vars cF)) (l_sin L ph)) (fval (c_e (vars cF)) * fval (l_sin L ph)) ee).
    { apply (app_mul _ _ _ _ 0 0 2 1); auto using app_exact; lra. }
    destruct A as [A1 A2].
    assert (B : Rabs (fval (c_e (vars cF)) * fval (l_sin L ph)) <= 2 * 1) by (rewrite Rabs_mult; apply Rmult_le_compat; try apply Rabs_pos; assumption).
    assert (D : Rabs (fval (c_e (vars cF)) * (fval (l_sin L ph) - sin w)) <= 2 * e_ph) by (rewrite Rabs_mult; apply Rmult_le_compat; try apply Rabs_pos; assumption).
    unfold drive_near, is_vector, comp_le; cbn [vx vy vz]. rewrite !value_fval.
    split; [split; [exact T1|split; [exact A1|exact Z1]]|].
    split; [split; [lra|split; [|exact ZB]]|].
    + replace (fval (f_mul (c_e (vars cF)) (l_sin L ph))) with
        ((fval (f_mul (c_e (vars cF)) (l_sin L ph)) - fval (c_e (vars cF)) * fval (l_sin L ph)) + fval (c_e (vars cF)) * fval (l_sin L ph)) by ring.
      eapply Rle_trans; [apply rabs_add; [exact A2|exact B]|]. lra.
    + split; [lra|]. split; [|exact ZE]. rewrite <- Ee, ?value_fval.
      replace (fval (f_mul (c_e (vars cF)) (l_sin L ph)) - fval (c_e (vars cF)) * sin w) with
        ((fval (f_mul (c_e (vars cF)) (l_sin L ph)) - fval (c_e (vars cF)) * fval (l_sin L ph)) + fval (c_e (vars cF)) * (fval (l_sin L ph) - sin w)) by ring.
      eapply Rle_trans; [apply rabs_add; [exact A2|exact D]|]. unfold e_dr. lra.
  - split; [|reflexivity]. unfold drive_near, is_vector, comp_le; cbn [vx vy vz]. repeat split; auto; try apply T1; try apply Z1; lra.
  - split; [|congruence]. unfold mild_drive in Hd. rewrite ED in Hd. destruct Hd as [H3 HF].
    destruct (hs (vars cF)) as [|a [|b [|d l]]] eqn:EH; cbn [length] in H3; try lia.
    rewrite <- Emd. cbn [map nth]. inversion HF as [|? ? [A1 A2] HF1]; subst. inversion HF1 as [|? ? [B1 B2] HF2]; subst. inversion HF2 as [|? ? [D1 D2] _]; subst.
    assert (Q : forall x, Rabs (value x - value x) <= e_dr) by (intro x; rewrite Rminus_diag_eq, Rabs_R0 by reflexivity; unfold e_dr; lra).
    unfold drive_near, is_vector, comp_le; cbn [vx vy vz].
    split; [split; [exact A1|split; [exact B1|exact D1]]|]. split; [split; [lra|split; lra]|]. auto.
  - split; [|reflexivity]. unfold drive_near, is_vector, comp_le, vzero; cbn [vx vy vz]. 
    split; [split; [exact Z1|split; [exact Z1|exact Z1]]|]. split; [auto|]. auto.
Qed.

Definition g_bound : R := powerRZ 2 (-45) * (1 + drift cF k).
Lemma g_pos : 0 <= g_bound.
Proof. unfold g_bound. pose proof drift_pos. rewrite pow_bpow. pose proof (bpow_gt_0 radix2 (-45)). apply Rmult_le_pos; lra. Qed.
Lemma g_enough : 2 * (e_dr + ee) <= g_bound.
Proof.
  unfold g_bound, e_dr, e_ph. pose proof drift_pos as D. pose proof eta_u as (_ & E). rewrite p45. 
  replace ee with (32 * u) by (rewrite ee_val, u_val; lra). rewrite u_val in *. lra.
Qed.

Lemma fields_close i p : (S i <= k)%nat -> (p < n)%nat ->
  is_vector (fieldsF L s cF i p) /\ comp_le 9 (fieldsF L s cF i p) /\ off (fieldsF L s cF i p) (fieldsR s c i p) <= g_bound.
Proof.
  intros Hi Hp. destruct Hm as [_ Hh]. pose proof HS as (_ & Eh & _).
  assert (Hp' : (p < length (static_h cF))%nat) by (rewrite (wf_hs _ _ _ WF); exact Hp).
  assert (Q : is_vector (at3 (F64 L) (static_h cF) p) /\ comp_le 6 (at3 (F64 L) (static_h cF) p)).
  { rewrite Forall_forall in Hh. apply Hh. apply nth_In. exact Hp'. }
  assert (EV : vvalue (at3 (F64 L) (static_h cF) p) = h_ c p).
  { unfold h_, at_. rewrite <- Eh. unfold at3. rewrite (nth_indep _ vzero (vvalue (z3 (F64 L)))) by (rewrite map_length; exact Hp').
    symmetry. apply map_nth. }
  destruct (drive_close i Hi) as [DN _]. unfold fieldsF, fieldsR, fieldF, B_. fold (tmid cF i).
  destruct Q as [Q1 Q2]. destruct (p <? s)%nat.
  - rewrite <- EV. destruct (sum_near L _ _ _ _ Q1 Q2 DN) as (A & B & C).
    + unfold e_dr. pose proof e_ph_pos. pose proof ee_small. lra.
    + split; [exact A|]. split; [exact B|]. eapply Rle_trans; [exact C|apply g_enough].
  - split; [exact Q1|]. split; [destruct Q2 as (K1 & K2 & K3); split; [|split]; (eapply Rle_trans; [eassumption|lra])|].
    rewrite <- EV. unfold off. replace (vsub _ _) with vzero by (apply v3_ext; cbn; ring).
    assert (norm vzero = 0) as -> by (unfold norm, dot, vzero; cbn; replace (0 * 0 + 0 * 0 + 0 * 0) with 0 by ring; apply sqrt_0). apply g_pos.
Qed.
Lemma fields_strong i p : (S i <= k)%nat -> (p < n)%nat -> strong_z cF -> 4 <= Rabs (value (vz (fieldsF L s cF i p))).
Proof.
  intros Hi Hp [Nd Hz]. destruct Hm as [_ Hh]. 
  assert (Hp' : (p < length (static_h cF))%nat) by (rewrite (wf_hs _ _ _ WF); exact Hp).
  assert (Q : is_vector (at3 (F64 L) (static_h cF) p) /\ comp_le 6 (at3 (F64 L) (static_h cF) p)).
  { rewrite Forall_forall in Hh. apply Hh. apply nth_In. exact Hp'. }
  assert (Z : 4 <= Rabs (value (vz (at3 (F64 L) (static_h cF) p)))).
  { rewrite Forall_forall in Hz. apply Hz. apply nth_In. exact Hp'. }
  destruct (drive_close i Hi) as [_ DZ]. unfold fieldsF, fieldF. fold (tmid cF i). destruct (p <? s)%nat; [|exact Z].
  set (h := at3 (F64 L) (static_h cF) p) in *. unfold sum_vec; cbn [vz].
  change (4 <= Rabs (value (f_add (vz h) (vz (h_extP (F64 L) (vars cF) (tmid cF i)))))). rewrite (DZ Nd).
  destruct Q as [(Vx & Vy & Vz) (Bx & By & Bz)].
  assert (B8 : comp_le 8 h) by (split; [|split]; (eapply Rle_trans; [eassumption|lra])).
  exact (proj2 (proj2 (add_zero h (conj Vx (conj Vy Vz)) B8 Z L))).
Qed.
End Fields.
