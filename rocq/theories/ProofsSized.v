(** Rough sizes of binary64 results: bounds that are powers of two survive rounding. *)
From Coq Require Import ZArith Reals List Lia Lra Psatz Bool Arith.
From Coq Require Import Floats.SpecFloat.
From Flocq Require Import Core.
From Verif Require Import Num Monad NumR NumF64 Spin Config Chain SpecVec SpecChain SpecRound SpecClose SpecKeep SpecMade
  ProofsFlocq ProofsRound ProofsRound2 ProofsChain ProofsDyn ProofsClose ProofsClose3 ProofsClose5.
Import ListNotations.
Local Open Scope R_scope.

Definition sized (k : Z) (x : f64) : Prop := is_number x /\ Rabs (fval x) <= bpow radix2 k.
Lemma rnd_pow k r : (-1000 <= k <= 1000)%Z -> Rabs r <= bpow radix2 k -> Rabs (rnd r) <= bpow radix2 k /\ Rabs (rnd r) < fmax.
Proof.
  intros Hk H. split.
  - apply (abs_round_le_generic radix2 ffexp ZnearestE); [|exact H].
    apply generic_format_bpow. change (Z.max (k + 1 - 53) (-1074) <= k)%Z. lia.
  - apply fmax_big. eapply Rle_trans; [exact H|]. apply bpow_le. lia.
Qed.
Lemma sized_weak a b x : sized a x -> (a <= b)%Z -> sized b x.
Proof. intros [V H] L. split; [exact V|]. eapply Rle_trans; [exact H|]. apply bpow_le, L. Qed.
Lemma pow_succ a : bpow radix2 (a + 1) = 2 * bpow radix2 a. Proof. rewrite bpow_plus. cbn. lra. Qed.
Lemma sz_add a x y : (-1000 <= a <= 999)%Z -> sized a x -> sized a y -> sized (a + 1) (f_add x y).
Proof.
  intros Ha [Vx Bx] [Vy By]. assert (B : Rabs (fval x + fval y) <= bpow radix2 (a + 1)) by (rewrite pow_succ; pose proof (Rabs_triang (fval x) (fval y)); lra).
  destruct (rnd_pow (a + 1) _ ltac:(lia) B) as [R F]. destruct (add_val x y Vx Vy F) as [V E]. split; [exact V|]. rewrite E. exact R.
Qed.
Lemma sz_sub a x y : (-1000 <= a <= 999)%Z -> sized a x -> sized a y -> sized (a + 1) (f_sub x y).
Proof.
  intros Ha [Vx Bx] [Vy By].
  assert (B : Rabs (fval x - fval y) <= bpow radix2 (a + 1)).
  { rewrite pow_succ. pose proof (Rabs_triang (fval x) (- fval y)) as T. rewrite Rabs_Ropp in T. unfold Rminus. lra. }
  destruct (rnd_pow (a + 1) _ ltac:(lia) B) as [R F]. destruct (sub_val x y Vx Vy F) as [V E]. split; [exact V|]. rewrite E. exact R.
Qed.
Lemma sz_mul a b x y : (-1000 <= a + b <= 1000)%Z -> sized a x -> sized b y -> sized (a + b) (f_mul x y).
Proof.
  intros Ha [Vx Bx] [Vy By].
  assert (B : Rabs (fval x * fval y) <= bpow radix2 (a + b)).
  { rewrite Rabs_mult, bpow_plus. apply Rmult_le_compat; try apply Rabs_pos; assumption. }
  destruct (rnd_pow (a + b) _ Ha B) as [R F]. destruct (mul_val x y Vx Vy F) as [V E]. split; [exact V|]. rewrite E. exact R.
Qed.
Lemma sz_div a b x y : (-1000 <= a + b <= 1000)%Z -> sized a x -> is_number y -> bpow radix2 (- b) <= Rabs (fval y) -> sized (a + b) (f_div x y).
Proof.
  intros Ha [Vx Bx] Vy By. assert (P := bpow_gt_0 radix2 (- b)). assert (Y : fval y <> 0) by (intro Z; rewrite Z, Rabs_R0 in By; lra).
  assert (B : Rabs (fval x / fval y) <= bpow radix2 (a + b)).
  { unfold Rdiv. rewrite Rabs_mult, bpow_plus, Rabs_inv. apply Rmult_le_compat; try apply Rabs_pos; [|exact Bx|].
    - apply Rlt_le, Rinv_0_lt_compat. lra.
    - replace (bpow radix2 b) with (/ bpow radix2 (- b)) by (rewrite bpow_opp; field; pose proof (bpow_gt_0 radix2 b); lra). apply Rinv_le; assumption. }
  destruct (rnd_pow (a + b) _ Ha B) as [R F]. destruct (div_val x y Vx Vy Y F) as [V E]. split; [exact V|]. rewrite E. exact R.
Qed.
Lemma sz_opp a x : sized a x -> sized a (SFopp x).
Proof. intros [V B]. destruct (opp_val x V) as [V' E]. split; [exact V'|]. rewrite E, Rabs_Ropp. exact B. Qed.
Lemma sz_of a B x : is_number x -> Rabs (value x) <= B -> B <= bpow radix2 a -> sized a x.
Proof. intros V H L. split; [exact V|]. rewrite <- value_fval. lra. Qed.
Lemma sz_sqrt a x : (-1000 <= 2 * a <= 1000)%Z -> sized (2 * a) x -> 0 <= fval x -> sized a (f_sqrt x) /\ 0 <= fval (f_sqrt x).
Proof.
  intros Ha [V B] P. destruct (sqrt_val x V P) as [V' E].
  assert (S : Rabs (sqrt (fval x)) <= bpow radix2 a).
  { rewrite Rabs_pos_eq by apply sqrt_pos. rewrite Rabs_pos_eq in B by exact P. rewrite <- (sqrt_square (bpow radix2 a)) by apply bpow_ge_0.
    apply sqrt_le_1_alt. replace (2 * a)%Z with (a + a)%Z in B by lia. rewrite bpow_plus in B. exact B. }
  destruct (rnd_pow a _ ltac:(lia) S) as [R F]. split; [split; [exact V'|rewrite E; exact R]|]. rewrite E.
  rewrite <- (round_0 radix2 ffexp ZnearestE) at 1. apply (round_le radix2 ffexp ZnearestE); apply sqrt_pos.
Qed.

(** the clock: a time of at most 2^101 stays so, since one step is less than half a unit in the last place there *)
Definition big101 : f64 := S754_finite false 4503599627370496 49.
Lemma big101_val : vfin big101 /\ fval big101 = bpow radix2 101.
Proof. split; [split; vm_compute; reflexivity|]. rewrite <- value_fval. unfold big101, value. rewrite pow_bpow. replace 101%Z with (52 + 49)%Z by lia. rewrite bpow_plus. cbn [bpow]. cbn. ring. Qed.
Lemma rnd_big : rnd (bpow radix2 101 + 1) = bpow radix2 101.
Proof.
  destruct big101_val as [V E]. destruct (ofZ_val 1 ltac:(lia)) as [V1 E1].
  destruct (add_val big101 (f_ofZ 1) V V1) as [_ A].
  { apply fmax_big. rewrite E, E1. rewrite Rabs_pos_eq by (pose proof (bpow_gt_0 radix2 101); lra).
    apply Rle_trans with (bpow radix2 (101 + 1)); [|apply bpow_le; lia]. rewrite pow_succ. assert (1 <= bpow radix2 101) by (apply (bpow_le radix2 0 101); lia). lra. }
  rewrite E, E1 in A. rewrite <- A, <- E. f_equal.
Qed.
Lemma tick_step x dt : sized 101 x -> plain_dt dt -> sized 101 (f_add x dt).
Proof.
  intros [V B] (Vd & Dl & Dh). rewrite value_fval in Dl, Dh. rewrite pow_bpow in Dl. pose proof (bpow_gt_0 radix2 (-1000)). apply Rabs_le_inv in B.
  assert (Q : Rabs (rnd (fval x + fval dt)) <= bpow radix2 101).
  { apply Rabs_le. split.
    - rewrite <- (round_generic radix2 ffexp ZnearestE (- bpow radix2 101)).
      + apply (round_le radix2 ffexp ZnearestE); lra.
      + apply generic_format_opp, generic_format_bpow. cbn; lia.
    - rewrite <- rnd_big. apply (round_le radix2 ffexp ZnearestE); lra. }
  destruct (add_val x dt V Vd) as [V' E].
  { eapply Rle_lt_trans; [exact Q|]. apply bpow_lt. reflexivity. }
  split; [exact V'|]. rewrite E. exact Q.
Qed.

(** the field on a site, at any time *)
Lemma drive_sized L (c : chain f64) x : accurate L -> mild_drive c -> steady c \/ sized 102 x ->
  let v := h_extP (F64 L) (vars c) x in sized 1 (vx v) /\ sized 1 (vy v) /\ sized 1 (vz v).
Proof.
  intros HL Hd Hx. cbv zeta. rewrite h_ext_F64. cbv zeta. unfold mild_drive in Hd. assert (Q2 : bpow radix2 2 = 4) by reflexivity.
  assert (Z0 : sized 1 (f_ofZ 0)) by (destruct (ofZ_val 0 ltac:(lia)) as [V E]; split; [exact V|]; rewrite E, Rabs_R0; apply bpow_ge_0).
  assert (Q1 : bpow radix2 1 = 2) by reflexivity.
  assert (PH : (is_number (tau (vars c)) /\ powerRZ 2 (-100) <= Rabs (value (tau (vars c)))) -> sized 102 x ->
    let ph := f_div (f_mul (f_mul (f_ofZ 2) f_pi) x) (tau (vars c)) in sized 0 (l_cos L ph) /\ sized 0 (l_sin L ph)).
  { intros [Vt Bt] Sx. cbv zeta. rewrite pow_bpow, value_fval in Bt. destruct (ofZ_val 2 ltac:(lia)) as [V2 E2].
    assert (S2 : sized 1 (f_ofZ 2)) by (split; [exact V2|]; rewrite E2, Q1, Rabs_pos_eq; lra).
    assert (SP : sized 2 f_pi).
    { split; [split; vm_compute; reflexivity|]. rewrite <- value_fval. unfold f_pi, value. rewrite pow_bpow, Q2. cbn. rewrite Rabs_pos_eq; lra. }
    assert (S3 := sz_mul 3 102 _ _ ltac:(lia) (sz_mul 1 2 _ _ ltac:(lia) S2 SP) Sx).
    destruct (sz_div 105 100 _ _ ltac:(lia) S3 Vt Bt) as [V _]. destruct (HL _ V) as (A & B & C & D & _). rewrite value_fval in C, D.
    split; split; assumption. }
  destruct Hx as [St|Sx].
  - unfold steady in St. destruct (drive (vars c)) eqn:ED; try (destruct St; discriminate).
    + destruct Hd as [Hl F]. destruct (hs (vars c)) as [|a [|b [|e l]]]; cbn in Hl; try lia. inversion F as [|? ? [A1 A2] F1]; subst. inversion F1 as [|? ? [B1 B2] F2]; subst. inversion F2 as [|? ? [C1 C2] F3]; subst.
      cbn [vx vy vz]. split; [|split]; apply (sz_of 1 2); auto; lra.
    + cbn [vx vy vz]. auto.
  - destruct (drive (vars c)) eqn:ED.
    + destruct Hd as (Ht & _). destruct (PH Ht Sx) as [A B]. cbn [vx vy vz]. split; [|split]; auto; eapply sized_weak; eauto; lia.
    + destruct Hd as (Ht & [Ve Be] & _). destruct (PH Ht Sx) as [A B]. cbn [vx vy vz].
      split; [eapply sized_weak; [exact A|lia]|]. split; auto. apply (sz_mul 1 0); [lia|apply (sz_of 1 2); auto; lra|exact B].
    + destruct Hd as (Ht & _). destruct (PH Ht Sx) as [A B]. cbn [vx vy vz]. split; [|split]; auto; eapply sized_weak; eauto; lia.
    + destruct Hd as [Hl F]. destruct (hs (vars c)) as [|a [|b [|e l]]]; cbn in Hl; try lia. inversion F as [|? ? [A1 A2] F1]; subst. inversion F1 as [|? ? [B1 B2] F2]; subst. inversion F2 as [|? ? [C1 C2] F3]; subst.
      cbn [vx vy vz]. split; [|split]; apply (sz_of 1 2); auto; lra.
    + cbn [vx vy vz]. auto.
Qed.
Lemma field_sized L n s (c : chain f64) x p : accurate L -> wf n s c -> rough_sites c -> mild_drive c -> steady c \/ sized 102 x -> (p < n)%nat ->
  is_vector (fieldF (F64 L) c s (h_extP (F64 L) (vars c) x) p) /\ comp_le 8 (fieldF (F64 L) c s (h_extP (F64 L) (vars c) x) p).
Proof.
  intros HL W [_ Hh] Hd Hx Hp. destruct (drive_sized L c x HL Hd Hx) as (D1 & D2 & D3). set (v := h_extP (F64 L) (vars c) x) in *.
  assert (K : is_vector (at3 (F64 L) (static_h c) p) /\ comp_le 6 (at3 (F64 L) (static_h c) p)).
  { rewrite Forall_forall in Hh. apply Hh. apply nth_In. destruct W as [_ _ _ _ _ _ W7]. change (p < length (@static_h f64 c))%nat. lia. }
  unfold fieldF. destruct K as ((A1 & A2 & A3) & (B1 & B2 & B3)). destruct (p <? s)%nat.
  - assert (S : forall a b, is_number a -> Rabs (value a) <= 6 -> sized 1 b -> is_number (f_add a b) /\ Rabs (value (f_add a b)) <= 8).
    { intros a b Va Ba [Vb Bb]. rewrite value_fval in *. change (bpow radix2 1) with 2 in Bb.
      assert (Q : Rabs (fval a + fval b) <= bpow radix2 3) by (change (bpow radix2 3) with 8; pose proof (Rabs_triang (fval a) (fval b)); lra).
      destruct (rnd_pow 3 _ ltac:(lia) Q) as [R F]. destruct (add_val a b Va Vb F) as [V E]. split; [exact V|]. rewrite E. exact R. }
    destruct (S _ _ A1 B1 D1) as [P1 Q1]. destruct (S _ _ A2 B2 D2) as [P2 Q2]. destruct (S _ _ A3 B3 D3) as [P3 Q3].
    split; [split; [exact P1|split; [exact P2|exact P3]]|split; [exact Q1|split; [exact Q2|exact Q3]]].
  - split; [split; [exact A1|split; [exact A2|exact A3]]|].
    split; [|split]; (eapply Rle_trans; [eassumption|lra]).
Qed.
Lemma tick_sized (c : chain f64) : mild_drive c -> plain_dt (c_dt (vars c)) -> forall i, steady c \/ sized 101 (tick c i).
Proof.
  intros Hd Hdt. assert (H : steady c \/ (is_number (t c) /\ Rabs (value (t c)) <= powerRZ 2 100)).
  { unfold mild_drive in Hd. unfold steady. destruct (drive (vars c)); auto; right; tauto. }
  destruct H as [H|[V B]]; [left; exact H|]. intro i. right. induction i as [|i IH].
  - split; [exact V|]. cbn [tick Nat.iter nat_rect]. rewrite <- value_fval. eapply Rle_trans; [exact B|]. rewrite pow_bpow. apply bpow_le. lia.
  - exact (tick_step _ _ IH Hdt).
Qed.
Lemma dt_sized x : plain_dt x -> sized 0 x.
Proof. intros (V & Lo & Hi). split; [exact V|]. rewrite value_fval, ?pow_bpow in *. pose proof (bpow_gt_0 radix2 (-1000)). rewrite Rabs_pos_eq by lra. exact Hi. Qed.
