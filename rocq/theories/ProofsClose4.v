(** The clock, the phase and the driving field of a binary64 run. *)
From Coq Require Import ZArith Reals List Lia Lra Psatz Bool Arith.
From Coq Require Import Floats.SpecFloat.
From Flocq Require Import Core.
From Verif Require Import Num Monad NumR NumF64 Spin Config Chain SpecVec SpecChain SpecRound SpecClose
  ProofsFlocq ProofsRound ProofsRound2 ProofsChain ProofsSpin ProofsEnergy ProofsDrive ProofsOrder ProofsOrder2 ProofsDyn ProofsDynR ProofsDyn2
  ProofsTurn ProofsClose ProofsClose2 ProofsClose3 ProofsPi.
Import ListNotations.
Local Open Scope R_scope.

Lemma rabs_add a b x y : Rabs a <= x -> Rabs b <= y -> Rabs (a + b) <= x + y.
Proof. intros. eapply Rle_trans; [apply Rabs_triang|lra]. Qed.

(** rounding a number far from overflow *)
Lemma add_close x y B : is_number x -> is_number y -> Rabs (value x + value y) <= B -> 1 <= B <= bpow radix2 1000 ->
  is_number (f_add x y) /\ Rabs (value (f_add x y) - (value x + value y)) <= 5 / 4 * u * B.
Proof.
  rewrite !value_fval. intros Vx Vy H HB. destruct (add_val x y Vx Vy) as [V E]; [apply fmax_big; lra|].
  split; [exact V|]. rewrite E. eapply Rle_trans; [apply rnd_err|]. pose proof eta_u as (_ & Q). rewrite u_val in *. lra.
Qed.
Lemma mul_close x y B : is_number x -> is_number y -> Rabs (value x * value y) <= B -> 1 <= B <= bpow radix2 1000 ->
  is_number (f_mul x y) /\ Rabs (value (f_mul x y) - value x * value y) <= 5 / 4 * u * B.
Proof.
  rewrite !value_fval. intros Vx Vy H HB. destruct (mul_val x y Vx Vy) as [V E]; [apply fmax_big; lra|].
  split; [exact V|]. rewrite E. eapply Rle_trans; [apply rnd_err|]. pose proof eta_u as (_ & Q). rewrite u_val in *. lra.
Qed.
Lemma div_close x y B : is_number x -> is_number y -> value y <> 0 -> Rabs (value x / value y) <= B -> B <= bpow radix2 1000 ->
  is_number (f_div x y) /\ Rabs (value (f_div x y) - value x / value y) <= u * B + eta.
Proof.
  rewrite !value_fval. intros Vx Vy H0 H HB. destruct (div_val x y Vx Vy H0) as [V E]; [apply fmax_big; lra|].
  split; [exact V|]. rewrite E. eapply Rle_trans; [apply rnd_err|]. apply Rplus_le_compat_r. apply Rmult_le_compat_l; [rewrite u_val; lra|exact H].
Qed.

(** the clock *)
Section Clock.
Context (cF : chain f64) (k : nat).
Context (Hdt : plain_dt (c_dt (vars cF))) (Vt : is_number (t cF)) (Bt : Rabs (value (t cF)) <= powerRZ 2 100) (Hk : INR k <= powerRZ 2 50).
Let dt := value (c_dt (vars cF)).
Let a := Rabs (value (t cF)) + INR k * dt + 1.
Lemma dt01 : 0 < dt <= 1.
Proof. destruct Hdt as (_ & A & B). rewrite pow_bpow in A. pose proof (bpow_gt_0 radix2 (-1000)). fold dt in A, B. lra. Qed.
Lemma a_range : 1 <= a <= bpow radix2 101.
Proof.
  pose proof dt01. pose proof (pos_INR k). pose proof (Rabs_pos (value (t cF))). rewrite pow_bpow in *. unfold a.
  assert (0 <= INR k * dt) by (apply Rmult_le_pos; lra).
  assert (INR k * dt <= bpow radix2 50 * 1) by (apply Rmult_le_compat; lra).
  change 101%Z with (1 + 100)%Z. rewrite bpow_plus. change (bpow radix2 1) with 2.
  assert (bpow radix2 50 + 1 <= bpow radix2 100).
  { apply Rle_trans with (bpow radix2 51); [|apply bpow_le; lia]. change 51%Z with (1 + 50)%Z. rewrite bpow_plus. change (bpow radix2 1) with 2.
    assert (1 <= bpow radix2 50) by (apply (bpow_le radix2 0 50); lia). lra. }
  lra.
Qed.
Lemma a_big : 4 * a <= bpow radix2 1000.
Proof.
  pose proof a_range as [_ A]. apply Rle_trans with (4 * bpow radix2 101); [lra|]. change 4 with (bpow radix2 2). rewrite <- bpow_plus. apply bpow_le. lia.
Qed.
Lemma clock_quarter i : (i <= k)%nat -> INR i * (2 * u * a) <= a / 4.
Proof.
  intro Hi. apply le_INR in Hi. pose proof (pos_INR i). pose proof a_range as [A _]. rewrite pow_bpow in Hk.
  assert (INR i * (2 * u) <= / 4); [|nra]. rewrite u_val. cbn in Hk. lra.
Qed.
Lemma exact_time i : (i <= k)%nat -> Rabs (value (t cF) + INR i * dt) <= a - 1.
Proof.
  intro Hi. apply le_INR in Hi. pose proof (pos_INR i). pose proof dt01. unfold a.
  assert (INR i * dt <= INR k * dt) by (apply Rmult_le_compat_r; lra).
  assert (0 <= INR i * dt) by (apply Rmult_le_pos; lra).
  eapply Rle_trans; [apply Rabs_triang|]. rewrite (Rabs_pos_eq (INR i * dt)) by assumption. lra.
Qed.
Lemma tick_close i : (i <= k)%nat -> is_number (tick cF i) /\ Rabs (value (tick cF i) - (value (t cF) + INR i * dt)) <= INR i * (2 * u * a).
Proof.
  induction i as [|i IH]; intro Hi.
  - cbn [tick Nat.iter INR]. split; [exact Vt|]. replace (value (tick cF 0) - (value (t cF) + 0 * dt)) with 0 by (unfold tick; cbn; ring).
    rewrite Rabs_R0. lra.
  - destruct (IH ltac:(lia)) as [V E]. pose proof (exact_time (S i) Hi) as X. pose proof (clock_quarter i ltac:(lia)) as Q. pose proof a_range as [A _].
    pose proof a_big as AB. destruct Hdt as (Vd & _).
    change (tick cF (S i)) with (f_add (tick cF i) (c_dt (vars cF))). fold dt. rewrite S_INR in *.
    assert (B : Rabs (value (tick cF i) + dt) <= 5 / 4 * a).
    { replace (value (tick cF i) + dt) with (value (tick cF i) - (value (t cF) + INR i * dt) + (value (t cF) + (INR i + 1) * dt)) by ring.
      eapply Rle_trans; [apply rabs_add; [exact E|exact X]|]. lra. }
    destruct (add_close (tick cF i) (c_dt (vars cF)) (5 / 4 * a) V Vd B ltac:(lra)) as [V' E'].
    split; [exact V'|]. fold dt in E'.
    replace (value (f_add (tick cF i) (c_dt (vars cF))) - (value (t cF) + (INR i + 1) * dt)) with
      ((value (f_add (tick cF i) (c_dt (vars cF))) - (value (tick cF i) + dt)) + (value (tick cF i) - (value (t cF) + INR i * dt))) by ring.
    eapply Rle_trans; [apply rabs_add; [exact E'|exact E]|]. rewrite u_val. lra.
Qed.
Definition tmid (i : nat) : f64 := f_add (tick cF i) (f_div (c_dt (vars cF)) (f_ofZ 2)).
Lemma tmid_close i : (S i <= k)%nat -> is_number (tmid i) /\ Rabs (value (tmid i)) <= 2 * a /\
  Rabs (value (tmid i) - (value (t cF) + INR i * dt + dt / 2)) <= INR (S i) * (2 * u * a).
Proof.
  intro Hi. destruct (tick_close i ltac:(lia)) as [V E]. destruct (half_exact _ Hdt) as [V2 E2]. fold dt in E2.
  pose proof (exact_time i ltac:(lia)) as X. pose proof (clock_quarter i ltac:(lia)) as Q. pose proof (clock_quarter (S i) ltac:(lia)) as Q2.
  pose proof a_range as [A _]. pose proof a_big as AB. pose proof dt01 as D. rewrite S_INR in *.
  assert (Y : Rabs (value (t cF) + INR i * dt + dt / 2) <= a).
  { eapply Rle_trans; [apply rabs_add; [exact X|rewrite Rabs_pos_eq by lra; apply Rle_refl]|]. lra. }
  assert (B : Rabs (value (tick cF i) + value (f_div (c_dt (vars cF)) (f_ofZ 2))) <= 5 / 4 * a).
  { rewrite E2. replace (value (tick cF i) + dt / 2) with (value (tick cF i) - (value (t cF) + INR i * dt) + (value (t cF) + INR i * dt + dt / 2)) by ring.
    eapply Rle_trans; [apply rabs_add; [exact E|exact Y]|]. lra. }
  destruct (add_close (tick cF i) (f_div (c_dt (vars cF)) (f_ofZ 2)) (5 / 4 * a) V V2 B ltac:(lra)) as [V' E'].
  split; [exact V'|]. fold (tmid i) in E'. rewrite E2 in E'.
  assert (F : Rabs (value (tmid i) - (value (t cF) + INR i * dt + dt / 2)) <= (INR i + 1) * (2 * u * a)).
  { replace (value (tmid i) - (value (t cF) + INR i * dt + dt / 2)) with
      ((value (tmid i) - (value (tick cF i) + dt / 2)) + (value (tick cF i) - (value (t cF) + INR i * dt))) by ring.
    eapply Rle_trans; [apply rabs_add; [exact E'|exact E]|]. rewrite u_val. lra. }
  split; [|exact F].
  replace (value (tmid i)) with ((value (tmid i) - (value (t cF) + INR i * dt + dt / 2)) + (value (t cF) + INR i * dt + dt / 2)) by ring.
  eapply Rle_trans; [apply rabs_add; [exact F|exact Y]|]. lra.
Qed.

(** the phase *)
Context (Vtau : is_number (tau (vars cF))) (Btau : powerRZ 2 (-100) <= Rabs (value (tau (vars cF)))).
Let T := value (tau (vars cF)).
Definition phase (x : f64) : f64 := f_div (f_mul (f_mul (f_ofZ 2) f_pi) x) (tau (vars cF)).
Lemma two_pi : f_mul (f_ofZ 2) f_pi = S754_finite false 7074237752028440 (-50).
Proof. vm_compute. reflexivity. Qed.
Lemma two_pi_close : is_number (f_mul (f_ofZ 2) f_pi) /\ Rabs (value (f_mul (f_ofZ 2) f_pi) - 2 * PI) <= 8 * u /\
  0 <= value (f_mul (f_ofZ 2) f_pi) <= 7 /\ 0 <= 2 * PI <= 7.
Proof.
  rewrite two_pi. split; [split; vm_compute; reflexivity|].
  assert (V : value (S754_finite false 7074237752028440 (-50)) = 7074237752028440 / 1125899906842624).
  { unfold value. rewrite pow_bpow. cbn. lra. }
  rewrite V. pose proof pi_close as P. apply Rabs_le_inv in P. rewrite u_val. split; [apply Rabs_le|]; split; lra.
Qed.
Lemma tau_pos : 0 < Rabs T.
Proof. rewrite pow_bpow in Btau. pose proof (bpow_gt_0 radix2 (-100)). unfold T. lra. Qed.
Lemma tau_nz : T <> 0.
Proof. intro E. pose proof tau_pos as P. rewrite E, Rabs_R0 in P. lra. Qed.
Lemma phase_close i : (S i <= k)%nat -> is_number (phase (tmid i)) /\
  Rabs (value (phase (tmid i)) - 2 * PI / T * (value (t cF) + INR i * dt + dt / 2)) <= 64 * u * (INR (S i) * (a / Rabs T)) + eta.
Proof.
  intro Hi. destruct (tmid_close i Hi) as (V & B & E). destruct two_pi_close as (VP & EP & BP & BQ).
  pose proof a_range as A. pose proof a_big as AB. pose proof tau_pos as TP. pose proof tau_nz as TZ.
  set (P := value (f_mul (f_ofZ 2) f_pi)) in *. set (tm := value (tmid i)) in *. set (ts := value (t cF) + INR i * dt + dt / 2) in *.
  set (r := / Rabs T). assert (R0 : 0 < r) by (apply Rinv_0_lt_compat; exact TP).
  assert (RB : r <= bpow radix2 100).
  { unfold r. change 100%Z with (- (-100))%Z. rewrite bpow_opp. apply Rinv_le; [apply bpow_gt_0|]. rewrite pow_bpow in Btau. exact Btau. }
  assert (U := u_val).
  assert (M1 : Rabs (P * tm) <= 14 * a).
  { rewrite Rabs_mult, (Rabs_pos_eq P) by lra. replace (14 * a) with (7 * (2 * a)) by ring.
    apply Rmult_le_compat; [lra|apply Rabs_pos|lra|exact B]. }
  assert (AB2 : 15 * (a * r) <= bpow radix2 1000).
  { apply Rle_trans with (15 * (bpow radix2 101 * bpow radix2 100)).
    - apply Rmult_le_compat_l; [lra|]. apply Rmult_le_compat; lra.
    - apply Rle_trans with (bpow radix2 4 * (bpow radix2 101 * bpow radix2 100)).
      + apply Rmult_le_compat_r; [apply Rmult_le_pos; apply bpow_ge_0|cbn; lra].
      + rewrite <- !bpow_plus. apply bpow_le. lia. }
  destruct (mul_close (f_mul (f_ofZ 2) f_pi) (tmid i) (14 * a) VP V M1) as [V1 E1].
  { split; [lra|]. apply Rle_trans with (bpow radix2 4 * bpow radix2 101); [change (bpow radix2 4) with 16; lra|].
    rewrite <- bpow_plus. apply bpow_le. lia. }
  fold P tm in E1. set (xF := f_mul (f_mul (f_ofZ 2) f_pi) (tmid i)) in *. set (x := value xF) in *.
  assert (X1 : Rabs x <= 15 * a).
  { replace x with (x - P * tm + P * tm) by ring. eapply Rle_trans; [apply rabs_add; [exact E1|exact M1]|]. rewrite U. lra. }
  assert (DV : forall y z, Rabs y <= z -> Rabs (y / T) <= z * r).
  { intros y z H. unfold Rdiv. rewrite Rabs_mult, Rabs_inv. fold r. apply Rmult_le_compat_r; [lra|exact H]. }
  destruct (div_close xF (tau (vars cF)) (15 * a * r) V1 Vtau TZ) as [V2 E2].
  { apply DV. exact X1. } { lra. }
  split; [exact V2|]. unfold phase. fold xF. fold x T in E2. set (y := value (f_div xF (tau (vars cF)))) in *.
  assert (E3 : Rabs ((x - P * tm) / T) <= 5 / 4 * u * (14 * a) * r) by (apply DV; exact E1).
  assert (E4 : Rabs ((P - 2 * PI) * tm / T) <= 8 * u * (2 * a) * r).
  { apply DV. rewrite Rabs_mult. apply Rmult_le_compat; try apply Rabs_pos; assumption. }
  assert (E5 : Rabs (2 * PI * (tm - ts) / T) <= 7 * (INR (S i) * (2 * u * a)) * r).
  { apply DV. rewrite Rabs_mult. apply Rmult_le_compat; try apply Rabs_pos; [rewrite Rabs_pos_eq; lra|exact E]. }
  replace (y - 2 * PI / T * ts) with ((y - x / T) + ((x - P * tm) / T + ((P - 2 * PI) * tm / T + 2 * PI * (tm - ts) / T))) by (field; exact TZ).
  eapply Rle_trans; [apply rabs_add; [exact E2|apply rabs_add; [exact E3|apply rabs_add; [exact E4|exact E5]]]|].
  replace (a / Rabs T) with (a * r) by reflexivity. rewrite S_INR. pose proof (pos_INR i) as I0.
  set (q := u * (a * r)). assert (q0 : 0 <= q). { unfold q. apply Rmult_le_pos; [rewrite U; lra|]. apply Rmult_le_pos; lra. }
  replace (u * (15 * a * r) + eta + (5 / 4 * u * (14 * a) * r + (8 * u * (2 * a) * r + 7 * ((INR i + 1) * (2 * u * a)) * r)))
    with ((15 + 5 / 4 * 14 + 16 + 14 * (INR i + 1)) * q + eta) by (unfold q; ring).
  replace (64 * u * ((INR i + 1) * (a * r)) + eta) with (64 * (INR i + 1) * q + eta) by (unfold q; ring).
  apply Rplus_le_compat_r. apply Rmult_le_compat_r; [exact q0|]. lra.
Qed.
End Clock.
