(** A whole time step in binary64 is close to the exact one. *)
From Coq Require Import ZArith Reals List Lia Lra Psatz Bool Arith.
From Coq Require Import Floats.SpecFloat.
From Flocq Require Import Core.
From Verif Require Import Num Monad NumR NumF64 Spin Config Chain SpecVec SpecChain SpecRound SpecClose
  ProofsFlocq ProofsRound ProofsRound2 ProofsChain ProofsSpin ProofsEnergy ProofsDrive ProofsOrder ProofsOrder2 ProofsDyn ProofsDynR ProofsTurn ProofsClose.
Import ListNotations.
Local Open Scope R_scope.

Lemma had_le J v : Rabs (vx J) <= 1 -> Rabs (vy J) <= 1 -> Rabs (vz J) <= 1 -> norm (vhad J v) <= norm v.
Proof.
  intros A B C. apply norm_le_sq; [apply norm_nonneg|]. rewrite norm_sq. unfold dot, vhad; cbn [vx vy vz].
  assert (Q : forall x y, Rabs x <= 1 -> x * y * (x * y) <= y * y).
  { intros x y Hx. apply Rabs_le_inv in Hx. replace (x * y * (x * y)) with (x * x * (y * y)) by ring.
    rewrite <- (Rmult_1_l (y * y)) at 2. apply Rmult_le_compat_r; [apply Rle_0_sqr|nra]. }
  pose proof (Q _ (vx v) A). pose proof (Q _ (vy v) B). pose proof (Q _ (vz v) C). lra.
Qed.
Lemma vsub_self a b : norm (vsub a b) <= 0 -> norm (vsub a b) = 0.
Proof. intro H. pose proof (norm_nonneg (vsub a b)). lra. Qed.

(** off by [d] from a unit vector *)
Lemma off_tri v a b : off v b <= off v a + norm (vsub a b).
Proof. unfold off. apply norm_tri3. Qed.

Lemma om_comp_close jl sl jr sr h : is_number jl -> is_number sl -> is_number jr -> is_number sr -> is_number h ->
  Rabs (value jl) <= 1 -> Rabs (value jr) <= 1 -> Rabs (value sl) <= 11 / 10 -> Rabs (value sr) <= 11 / 10 -> Rabs (value h) <= 9 ->
  Rabs (value (f_sub (f_add (f_mul jl sl) (f_mul jr sr)) h) - (value jl * value sl + value jr * value sr - value h)) <= 4 * ee.
Proof.
  rewrite !value_fval. intros V1 V2 V3 V4 V5 B1 B2 B3 B4 B5. pose proof ee_small as E.
  assert (P1 : app (f_mul jl sl) (fval jl * fval sl) ee) by (apply (app_mul _ _ _ _ 0 0 1 (11 / 10)); auto using app_exact; lra).
  assert (P2 : app (f_mul jr sr) (fval jr * fval sr) ee) by (apply (app_mul _ _ _ _ 0 0 1 (11 / 10)); auto using app_exact; lra).
  assert (Q1 := mul_bound _ _ _ _ B1 B3). assert (Q2 := mul_bound _ _ _ _ B2 B4).
  assert (A := app_add _ _ _ _ _ _ P1 P2 ltac:(lra)).
  pose proof (Rabs_triang (fval jl * fval sl) (fval jr * fval sr)) as T.
  assert (D := app_sub _ _ _ _ _ _ A (app_exact h V5) ltac:(lra)).
  destruct D as [_ D]. eapply Rle_trans; [exact D|]. lra.
Qed.

Section Step.
Context (L : libm) (HL : accurate L) (M : nat) (J h : nat -> v3 f64) (JR BR : nat -> vec) (g : R) (Hg : 0 <= g).
Context (HJ : forall p, (p < M)%nat -> is_vector (J p) /\ comp_le 1 (J p)).
Context (Hh : forall p, (p < M)%nat -> is_vector (h p) /\ comp_le 9 (h p)).
Context (EJ : forall p, (p < M)%nat -> vvalue (J p) = JR p) (Eh : forall p, (p < M)%nat -> off (h p) (BR p) <= g).
Notation units S := (forall p, (p < M)%nat -> unit3 (S p)).
Notation nears S := (forall p, (p < M)%nat -> near_unit (powerRZ 2 (-50)) (S p)).
Notation within d S SR := (forall p, (p < M)%nat -> off (S p) (SR p) <= d).

Lemma p45 : powerRZ 2 (-45) = 8 * ee.
Proof. rewrite pow_bpow, ee_val. cbn. lra. Qed.

Lemma omF_close S p : (p < M)%nat -> nears S ->
  is_vector (omF (F64 L) M S J h p) /\ comp_le 12 (omF (F64 L) M S J h p) /\
  off (omF (F64 L) M S J h p) (om M (fun q => vvalue (S q)) JR BR p) <= g + powerRZ 2 (-45).
Proof.
  intros Hp HS. pose proof (lft_lt M p Hp) as Ll. pose proof (rgt_lt M p Hp) as Lr.
  assert (El := EJ _ Ll). assert (Ep := EJ _ Hp). assert (Eb := Eh _ Hp).
  destruct (HJ _ Ll) as ((Jx & Jy & Jz) & (Bx & By & Bz)). destruct (HJ _ Hp) as ((Kx & Ky & Kz) & (Cx & Cy & Cz)).
  destruct (Hh _ Hp) as ((hx & hy & hz) & (Dx & Dy & Dz)).
  pose proof (near_weak _ _ _ (HS _ Ll) eps_small) as NL. pose proof (near_weak _ _ _ (HS _ Lr) eps_small) as NR.
  destruct (near_comp _ NL) as (Sx & Sy & Sz). destruct (near_comp _ NR) as (Tx & Ty & Tz).
  destruct NL as ((Vx & Vy & Vz) & _). destruct NR as ((Wx & Wy & Wz) & _).
  unfold omF, ssh_sum, j_s; cbn [vx vy vz nadd nsub nmul F64].
  destruct (om_comp (vx (J (lft M p))) (vx (S (lft M p))) (vx (J p)) (vx (S (rgt M p))) (vx (h p))) as (A1 & A2 & A3); auto.
  destruct (om_comp (vy (J (lft M p))) (vy (S (lft M p))) (vy (J p)) (vy (S (rgt M p))) (vy (h p))) as (A4 & A5 & A6); auto.
  destruct (om_comp (vz (J (lft M p))) (vz (S (lft M p))) (vz (J p)) (vz (S (rgt M p))) (vz (h p))) as (A7 & A8 & A9); auto.
  split; [split; [exact A1|split; [exact A4|exact A7]]|]. split; [split; [exact A2|split; [exact A5|exact A8]]|].
  rewrite Rplus_comm. set (w := mk3 _ _ _).
  assert (O : off w (om M (fun q => vvalue (S q)) JR (fun q => vvalue (h q)) p) <= powerRZ 2 (-45)).
  2: { eapply Rle_trans; [apply (off_tri _ (om M (fun q => vvalue (S q)) JR (fun q => vvalue (h q)) p))|].
    apply Rplus_le_compat; [exact O|]. eapply Rle_trans; [|exact Eb]. apply Req_le. unfold off.
    unfold norm. apply f_equal. unfold om, dot; cbn [vsub vadd vhad vx vy vz]. ring. }
  unfold off. replace (powerRZ 2 (-45)) with (2 * (4 * ee)) by (rewrite p45; ring). apply norm_comp.
  unfold om, w. rewrite <- El, <- Ep.
  split; [|split]; cbn [vsub vadd vhad vvalue vx vy vz]; apply om_comp_close; auto.
Qed.

Lemma om_move S SR d p : (p < M)%nat -> within d S SR ->
  norm (vsub (om M (fun q => vvalue (S q)) JR BR p) (om M SR JR BR p)) <= 2 * d.
Proof.
  intros Hp HS. pose proof (lft_lt M p Hp) as Ll. pose proof (rgt_lt M p Hp) as Lr.
  replace (vsub (om M (fun q => vvalue (S q)) JR BR p) (om M SR JR BR p)) with
    (vadd (vhad (JR (lft M p)) (vsub (vvalue (S (lft M p))) (SR (lft M p)))) (vhad (JR p) (vsub (vvalue (S (rgt M p))) (SR (rgt M p)))))
    by (unfold om; apply v3_ext; cbn; ring).
  eapply Rle_trans; [apply norm_triangle|].
  assert (Q : forall q v, (q < M)%nat -> norm (vhad (JR q) v) <= norm v).
  { intros q v Hq. destruct (HJ _ Hq) as (_ & B1 & B2 & B3). rewrite <- EJ by exact Hq. apply had_le; assumption. }
  pose proof (Q _ (vsub (vvalue (S (lft M p))) (SR (lft M p))) Ll). pose proof (Q _ (vsub (vvalue (S (rgt M p))) (SR (rgt M p))) Hp).
  pose proof (HS _ Ll). pose proof (HS _ Lr). unfold off in *. lra.
Qed.

Lemma omF_off S SR d p : (p < M)%nat -> nears S -> within d S SR ->
  off (omF (F64 L) M S J h p) (om M SR JR BR p) <= 2 * d + g + powerRZ 2 (-45).
Proof.
  intros Hp HN HS. destruct (omF_close S p Hp HN) as (_ & _ & A). pose proof (om_move S SR d p Hp HS) as B.
  eapply Rle_trans; [apply (off_tri _ (om M (fun q => vvalue (S q)) JR BR p))|]. lra.
Qed.

(** a field that is far from zero stays so *)
Lemma mid_clear S SR d m p : (p < M)%nat -> nears S -> within d S SR -> 2 * d + g + powerRZ 2 (-45) + powerRZ 2 (-100) <= m ->
  m <= norm (om M SR JR BR p) -> mid_range (omF (F64 L) M S J h p).
Proof.
  intros Hp HN HS Hd Hm. destruct (omF_close S p Hp HN) as (V & (C1 & C2 & C3) & _). pose proof (omF_off S SR d p Hp HN HS) as B.
  set (w := omF (F64 L) M S J h p) in *. split; [exact V|]. unfold len2. rewrite <- norm_sq.
  assert (N1 : norm (om M SR JR BR p) <= norm (vvalue w) + off w (om M SR JR BR p)).
  { unfold off. replace (om M SR JR BR p) with (vsub (vvalue w) (vsub (vvalue w) (om M SR JR BR p))) at 1 by (apply v3_ext; cbn; ring).
    apply norm_sub_le. }
  assert (N2 : norm (vvalue w) <= 2 * 12) by (apply norm_comp; split; [exact C1|split; [exact C2|exact C3]]).
  rewrite !pow_bpow in *. pose proof (bpow_gt_0 radix2 (-100)) as P.
  assert (N3 : bpow radix2 (-100) <= norm (vvalue w)) by lra. split.
  - apply Rle_trans with (bpow radix2 (-100) * bpow radix2 (-100)); [rewrite <- bpow_plus; apply bpow_le; lia|].
    apply Rmult_le_compat; lra.
  - apply Rle_trans with (24 * 24); [pose proof (norm_nonneg (vvalue w)); apply Rmult_le_compat; lra|].
    apply Rle_trans with (bpow radix2 10); [cbn; lra|apply bpow_le; lia].
Qed.

Definition c39 (x : R) : R := powerRZ 2 (-39) * (1 + 25 * x) + x * g.

Lemma stage_close b x S SR d : (forall p, (p < M)%nat -> (p mod 2 = b)%nat -> mid_range (omF (F64 L) M S J h p)) ->
  is_number x -> 0 <= value x <= 1 -> nears S -> units SR -> 0 <= d -> within d S SR ->
  nears (stageF (F64 L) M b J h x S) /\
  within ((1 + 2 * value x) * d + c39 (value x)) (stageF (F64 L) M b J h x S) (stageF RNum M b JR BR (value x) SR).
Proof.
  intros Hmid Vx Bx HN HU Hd HS.
  assert (P39 : 0 < powerRZ 2 (-39)) by (rewrite pow_bpow; apply bpow_gt_0).
  assert (Q : forall p, (p < M)%nat -> near_unit (powerRZ 2 (-50)) (stageF (F64 L) M b J h x S p) /\
    off (stageF (F64 L) M b J h x S p) (stageF RNum M b JR BR (value x) SR p) <= (1 + 2 * value x) * d + c39 (value x)).
  { intros p Hp. unfold stageF. destruct (onsub M b p) eqn:E.
    - apply onsub_spec in E. destruct (omF_close S p Hp HN) as (_ & (C1 & C2 & C3) & _).
      pose proof (Hmid p Hp (proj2 E)) as Mid. pose proof (omF_off S SR d p Hp HN HS) as O.
      set (w := omF (F64 L) M S J h p) in *.
      assert (N2 : norm (vvalue w) <= 2 * 12) by (apply norm_comp; split; [exact C1|split; [exact C2|exact C3]]).
      pose proof (norm_nonneg (vvalue w)) as N0.
      assert (TH : norm (vvalue w) * Rabs (value x) <= 24 * value x).
      { rewrite Rabs_pos_eq by lra. apply Rmult_le_compat_r; lra. }
      destruct (rotate_close L (S p) w x HL (HN p Hp) Mid Vx ltac:(lra)) as [NU A]. split; [exact NU|].
      rewrite omF_R, rotate_turn by (apply HU; exact Hp). set (W := om M SR JR BR p) in *.
      eapply Rle_trans; [apply (off_tri _ (turn (vvalue (S p)) (vvalue w) (value x)))|].
      assert (B1 : norm (vsub (turn (vvalue (S p)) (vvalue w) (value x)) (turn (SR p) (vvalue w) (value x))) <= d).
      { rewrite turn_sub, turn_norm. apply (HS p Hp). }
      assert (B2 : norm (vsub (turn (SR p) (vvalue w) (value x)) (turn (SR p) W (value x))) <= value x * (2 * d + g + powerRZ 2 (-45))).
      { eapply Rle_trans; [apply turn_axis|]. rewrite unit3_norm by (apply HU; exact Hp). rewrite Rmult_1_l, Rabs_pos_eq by lra.
        apply Rmult_le_compat_l; [lra|exact O]. }
      pose proof (norm_tri3 (turn (vvalue (S p)) (vvalue w) (value x)) (turn (SR p) (vvalue w) (value x)) (turn (SR p) W (value x))) as T3.
      assert (K : powerRZ 2 (-45) = / 64 * powerRZ 2 (-39)).
      { rewrite !pow_bpow. change (-45)%Z with (-6 + -39)%Z. rewrite bpow_plus. cbn [bpow]. reflexivity. }
      rewrite K in B2. set (e := powerRZ 2 (-39)) in *. unfold c39. fold e.
      assert (A' : off (rotate (F64 L) (S p) w x) (turn (vvalue (S p)) (vvalue w) (value x)) <= e * (1 + 24 * value x)).
      { eapply Rle_trans; [exact A|]. apply Rmult_le_compat_l; lra. }
      assert (0 <= value x * e) by (apply Rmult_le_pos; lra). clearbody e. nra.
    - split; [apply HN; exact Hp|]. eapply Rle_trans; [apply HS; exact Hp|]. unfold c39.
      assert (0 <= value x * d) by (apply Rmult_le_pos; lra).
      assert (0 <= powerRZ 2 (-39) * (1 + 25 * value x)) by (apply Rmult_le_pos; lra).
      assert (0 <= value x * g) by (apply Rmult_le_pos; lra). lra. }
  split; intros p Hp; apply Q; exact Hp.
Qed.


Lemma within_weak d e S SR : d <= e -> within d S SR -> within e S SR.
Proof. intros H A p Hp. eapply Rle_trans; [apply A; exact Hp|exact H]. Qed.

(** one whole update of the moving spins *)
Lemma trot_close m x2 x S SR d :
  (forall b S SR p, nears S -> units SR ->
     within (exp (4 * value x) * (d + powerRZ 2 (-39) * (3 + 50 * value x) + 2 * (value x * g))) S SR -> (p < M)%nat ->
     (p mod 2 = b)%nat -> m <= norm (om M SR JR BR p) -> mid_range (omF (F64 L) M S J h p)) ->
  far M JR BR m (value x / 2) (value x) SR ->
  is_number x -> is_number x2 -> value x2 = value x / 2 -> 0 <= value x <= 1 -> nears S -> units SR -> 0 <= d -> within d S SR ->
  nears (trotF (F64 L) M J h x2 x S) /\
  within (exp (4 * value x) * (d + powerRZ 2 (-39) * (3 + 50 * value x) + 2 * (value x * g))) (trotF (F64 L) M J h x2 x S)
    (trotF RNum M JR BR (value x / 2) (value x) SR).
Proof.
  intros Hmid (M0 & M1 & M2) Vx Vx2 E2 Bx HN HU Hd HS.
  set (E := exp (4 * value x) * (d + powerRZ 2 (-39) * (3 + 50 * value x) + 2 * (value x * g))) in *.
  assert (P39 : 0 < powerRZ 2 (-39)) by (rewrite pow_bpow; apply bpow_gt_0).
  assert (G0 : 0 <= value x * g) by (apply Rmult_le_pos; lra).
  set (e1 := (1 + 2 * value x2) * d + c39 (value x2)). set (e2 := (1 + 2 * value x) * e1 + c39 (value x)).
  set (e3 := (1 + 2 * value x2) * e2 + c39 (value x2)).
  assert (C0 : forall y, 0 <= y -> 0 <= c39 y).
  { intros y Hy. unfold c39. apply Rplus_le_le_0_compat; apply Rmult_le_pos; lra. }
  pose proof (C0 (value x) ltac:(lra)) as C1. pose proof (C0 (value x2) ltac:(lra)) as C2.
  assert (L1 : d <= e1). { unfold e1. assert (0 <= value x2 * d) by (apply Rmult_le_pos; lra). lra. }
  assert (L2 : e1 <= e2). { unfold e2. assert (0 <= value x * e1) by (apply Rmult_le_pos; lra). lra. }
  assert (L3 : e2 <= e3). { unfold e3. assert (0 <= value x2 * e2) by (apply Rmult_le_pos; lra). lra. }
  assert (LE : e3 <= E).
  { set (a := 1 + value x). set (b := 1 + 2 * value x). assert (Ha : 1 <= a) by (unfold a; lra). assert (Hb : 1 <= b) by (unfold b; lra).
    assert (e3 = a * a * b * d + a * b * c39 (value x2) + a * c39 (value x) + c39 (value x2)).
    { unfold e3, e2, e1. rewrite !E2. unfold a, b. field. }
    assert (A1 : 1 <= a * a * b) by nra. assert (A2 : a <= a * a * b) by nra. assert (A3 : a * b <= a * a * b) by nra.
    assert (K1 : a * b * c39 (value x2) <= a * a * b * c39 (value x2)) by (apply Rmult_le_compat_r; assumption).
    assert (K2 : a * c39 (value x) <= a * a * b * c39 (value x)) by (apply Rmult_le_compat_r; assumption).
    assert (K3 : 1 * c39 (value x2) <= a * a * b * c39 (value x2)) by (apply Rmult_le_compat_r; assumption).
    assert (Q : d + powerRZ 2 (-39) * (3 + 50 * value x) + 2 * (value x * g) = d + c39 (value x2) + c39 (value x) + c39 (value x2)).
    { unfold c39. rewrite E2. field. }
    assert (AE : a * a * b <= exp (4 * value x)).
    { replace (4 * value x) with (value x + value x + 2 * value x) by ring. rewrite !exp_plus.
      pose proof (exp_ineq1_le (value x)). pose proof (exp_ineq1_le (2 * value x)).
      apply Rmult_le_compat; [nra|lra| |unfold b; lra]. apply Rmult_le_compat; unfold a; lra. }
    unfold E. rewrite Q.
    apply Rle_trans with (a * a * b * (d + c39 (value x2) + c39 (value x) + c39 (value x2))); [|apply Rmult_le_compat_r; [lra|exact AE]].
    lra. }
  unfold trotF.
  destruct (stage_close 0 x2 S SR d) as [N1 W1]; auto; try lra.
  { intros p Hp Hb. apply (Hmid 0%nat S SR); auto. apply (within_weak d); [lra|exact HS]. }
  set (T1 := stageF (F64 L) M 0 J h x2 S) in *.
  assert (U1 : units (stageF RNum M 0 JR BR (value x2) SR)) by (intros p Hp; apply stage_unit; auto).
  rewrite E2 in U1, W1. set (R1 := stageF RNum M 0 JR BR (value x / 2) SR) in *.
  replace ((1 + 2 * (value x / 2)) * d + c39 (value x / 2)) with e1 in W1 by (unfold e1; rewrite E2; reflexivity).
  destruct (stage_close 1 x T1 R1 e1) as [N2 W2]; auto; try lra.
  { intros p Hp Hb. apply (Hmid 1%nat T1 R1); auto. apply (within_weak e1); [lra|exact W1]. }
  set (T2 := stageF (F64 L) M 1 J h x T1) in *.
  assert (U2 : units (stageF RNum M 1 JR BR (value x) R1)) by (intros p Hp; apply stage_unit; auto).
  set (R2 := stageF RNum M 1 JR BR (value x) R1) in *. fold e2 in W2.
  destruct (stage_close 0 x2 T2 R2 e2) as [N3 W3]; auto; try lra.
  { intros p Hp Hb. apply (Hmid 0%nat T2 R2); auto. apply (within_weak e2); [lra|exact W2]. }
  split; [exact N3|]. rewrite E2 in W3. intros p Hp. eapply Rle_trans; [apply W3; exact Hp|].
  replace ((1 + 2 * (value x / 2)) * e2 + c39 (value x / 2)) with e3 by (unfold e3; rewrite E2; reflexivity). exact LE.
Qed.
End Step.
