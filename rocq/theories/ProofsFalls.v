(** The mean energy falls with the inverse temperature (C83). *)
From Coq Require Import Reals List ZArith Lra Lia Arith Psatz.
From Verif Require Import Num Monad NumR Config Chain Fit SpecVec SpecChain SpecMC SpecFit SpecSampling SpecMean ProofsMean ProofsMean2 ProofsMean3.
Import ListNotations.
Local Open Scope R_scope.

Section Pairs.
Context {A : Type} (z : A) (l : list A) (n : nat).
Notation mean F := (gmean z l n F).
Lemma mean_minus F G : mean (fun x => F x - G x) = mean F - mean G.
Proof.
  replace (mean (fun x => F x - G x)) with (mean (fun x => F x + (-1) * G x)) by (apply gmean_ext; intros; ring).
  rewrite gmean_plus, gmean_scale. ring.
Qed.
Lemma mean_scale_r F k : mean (fun x => F x * k) = mean F * k.
Proof. replace (mean (fun x => F x * k)) with (mean (fun x => k * F x)) by (apply gmean_ext; intros; ring). rewrite gmean_scale. ring. Qed.
Lemma mean_pair F G : mean (fun x => mean (fun y => F x * G y)) = mean F * mean G.
Proof. rewrite <- mean_scale_r. apply gmean_ext. intros x _. apply gmean_scale. Qed.
Lemma mean_pair' F G : mean (fun x => mean (fun y => F y * G x)) = mean F * mean G.
Proof. rewrite Rmult_comm, <- mean_scale_r. apply gmean_ext. intros x _. rewrite mean_scale_r. ring. Qed.
Lemma diff (P W1 W2 : (nat -> A) -> R) :
  mean (fun x => W1 x * P x) * mean W2 - mean (fun x => W2 x * P x) * mean W1 =
  / 2 * mean (fun x => mean (fun y => (P x - P y) * (W1 x * W2 y - W2 x * W1 y))).
Proof.
  assert (E : mean (fun x => mean (fun y => (P x - P y) * (W1 x * W2 y - W2 x * W1 y))) =
    mean (fun x => mean (fun y => W1 x * P x * W2 y)) - mean (fun x => mean (fun y => W2 x * P x * W1 y))
    - mean (fun x => mean (fun y => W2 y * P y * W1 x)) + mean (fun x => mean (fun y => W1 y * P y * W2 x))).
  { rewrite <- !mean_minus, <- gmean_plus. apply gmean_ext. intros x _. rewrite <- !mean_minus, <- gmean_plus. apply gmean_ext. intros y _. ring. }
  rewrite E. rewrite (mean_pair (fun x => W1 x * P x) W2), (mean_pair (fun x => W2 x * P x) W1), (mean_pair' (fun x => W2 x * P x) W1), (mean_pair' (fun x => W1 x * P x) W2). field.
Qed.
End Pairs.

Lemma exp_le x y : x <= y -> exp x <= exp y.
Proof. intros [H| ->]; [left; apply exp_increasing, H|lra]. Qed.
(** The chord of the exponential *)
Lemma chord_up a b : Rabs (exp a - exp b) <= Rabs (a - b) * (exp a + exp b).
Proof.
  assert (H : forall a b, b <= a -> 0 <= exp a - exp b <= (a - b) * (exp a + exp b)).
  { clear. intros a b H. pose proof (exp_pos a) as Pa. pose proof (exp_pos b) as Pb. pose proof (exp_ineq1_le (b - a)) as Q. pose proof (exp_le b a H) as L. split; [lra|].
    assert (E : exp b = exp a * exp (b - a)) by (rewrite <- exp_plus; f_equal; ring). assert (exp a * (1 + (b - a)) <= exp b) by (rewrite E; apply Rmult_le_compat_l; lra).
    assert (0 <= (a - b) * exp b) by (apply Rmult_le_pos; lra). nra. }
  destruct (Rle_dec b a) as [L|L].
  - destruct (H a b L). rewrite !Rabs_pos_eq by lra. lra.
  - destruct (H b a ltac:(lra)). rewrite (Rabs_minus_sym (exp a)), (Rabs_minus_sym a), !Rabs_pos_eq by lra. lra.
Qed.
Lemma chord_low a b m : - m <= a -> - m <= b -> (a - b) * (a - b) * exp (- m) <= (a - b) * (exp a - exp b).
Proof.
  assert (H : forall a b, b <= a -> - m <= b -> (a - b) * (a - b) * exp (- m) <= (a - b) * (exp a - exp b)).
  { clear. intros a b L Hb. pose proof (exp_ineq1_le (a - b)) as Q. pose proof (exp_le _ _ Hb) as M. pose proof (exp_pos (- m)).
    assert (E : exp a = exp b * exp (a - b)) by (rewrite <- exp_plus; f_equal; ring). assert (exp b * (1 + (a - b)) <= exp a) by (rewrite E; apply Rmult_le_compat_l; lra).
    assert ((a - b) * exp (- m) <= exp a - exp b) by nra. rewrite Rmult_assoc. apply Rmult_le_compat_l; lra. }
  intros Ha Hb. destruct (Rle_dec b a) as [L|L]; [apply H; lra|].
  pose proof (H b a ltac:(lra) Ha). lra.
Qed.

Section Grid.
Context {A : Type} (z : A) (l : list A) (n : nat) (Hl : l <> []).
Notation mean F := (gmean z l n F).
Notation inl x := (forall i, (i < n)%nat -> In (x i) l).
Context (H P : (nat -> A) -> R).
Definition W (b : R) (x : nat -> A) : R := exp (- (b * H x)).
Definition av (b : R) (F : (nat -> A) -> R) : R := mean (fun x => W b x * F x) / mean (W b).
Lemma W_mean b : 0 < mean (W b).
Proof. apply gmean_pos; auto. intros. apply exp_pos. Qed.
Lemma av_diff b1 b2 F : (av b1 F - av b2 F) * (mean (W b1) * mean (W b2)) = / 2 * mean (fun x => mean (fun y => (F x - F y) * (W b1 x * W b2 y - W b2 x * W b1 y))).
Proof.
  rewrite <- diff. unfold av. pose proof (W_mean b1). pose proof (W_mean b2). field. lra.
Qed.
Lemma W_split b1 b2 x y : W b1 x * W b2 y - W b2 x * W b1 y = W b2 x * W b2 y * (exp ((b2 - b1) * H x) - exp ((b2 - b1) * H y)).
Proof. unfold W. rewrite Rmult_minus_distr_l, <- !exp_plus. f_equal; f_equal; ring. Qed.
Lemma W_pos b x : 0 < W b x. Proof. apply exp_pos. Qed.

Lemma av_falls b1 b2 : b1 <= b2 -> av b2 H <= av b1 H.
Proof.
  intros Hb. pose proof (W_mean b1) as P1. pose proof (W_mean b2) as P2.
  assert (Q : 0 <= (av b1 H - av b2 H) * (mean (W b1) * mean (W b2))).
  { rewrite av_diff. apply Rmult_le_pos; [lra|]. rewrite <- (gmean_const z l n 0 Hl). apply gmean_le. intros x _. rewrite <- (gmean_const z l n 0 Hl). apply gmean_le. intros y _.
    rewrite W_split. assert (0 <= (H x - H y) * (exp ((b2 - b1) * H x) - exp ((b2 - b1) * H y))).
    { destruct (Rle_dec (H y) (H x)) as [L|L].
      - pose proof (exp_le ((b2 - b1) * H y) ((b2 - b1) * H x) ltac:(apply Rmult_le_compat_l; lra)). apply Rmult_le_pos; lra.
      - pose proof (exp_le ((b2 - b1) * H x) ((b2 - b1) * H y) ltac:(apply Rmult_le_compat_l; lra)). assert (0 <= (H y - H x) * (exp ((b2 - b1) * H y) - exp ((b2 - b1) * H x))) by (apply Rmult_le_pos; lra). lra. }
    pose proof (Rmult_lt_0_compat _ _ (W_pos b2 x) (W_pos b2 y)). nra. }
  assert (0 < mean (W b1) * mean (W b2)) by (apply Rmult_lt_0_compat; assumption). nra.
Qed.
Lemma av_slope M B b1 b2 : (forall x, inl x -> Rabs (H x) <= M) -> (forall x, inl x -> Rabs (P x) <= B) -> Rabs (av b1 P - av b2 P) <= 4 * M * B * Rabs (b2 - b1).
Proof.
  intros HM HB. pose proof (W_mean b1) as P1. pose proof (W_mean b2) as P2. set (Z := mean (W b1) * mean (W b2)). assert (PZ : 0 < Z) by (apply Rmult_lt_0_compat; assumption).
  apply Rmult_le_reg_r with Z; [exact PZ|]. rewrite <- (Rabs_pos_eq Z) at 1 by lra. rewrite <- Rabs_mult. unfold Z. rewrite av_diff. fold Z.
  rewrite Rabs_mult, (Rabs_pos_eq (/ 2)) by lra.
  assert (Q : Rabs (mean (fun x => mean (fun y => (P x - P y) * (W b1 x * W b2 y - W b2 x * W b1 y)))) <=
    mean (fun x => mean (fun y => 4 * M * B * Rabs (b2 - b1) * (W b1 x * W b2 y + W b2 x * W b1 y)))).
  { eapply Rle_trans; [apply gmean_abs|]. apply gmean_le. intros x Hx. eapply Rle_trans; [apply gmean_abs|]. apply gmean_le. intros y Hy.
    rewrite W_split, !Rabs_mult, !(Rabs_pos_eq (W _ _)) by (left; apply W_pos).
    pose proof (chord_up ((b2 - b1) * H x) ((b2 - b1) * H y)) as C. rewrite <- Rmult_minus_distr_l, Rabs_mult in C.
    pose proof (HM x Hx) as Mx. pose proof (HM y Hy) as My. pose proof (HB x Hx) as Bx. pose proof (HB y Hy) as By.
    assert (D1 : Rabs (H x - H y) <= 2 * M) by (unfold Rminus; eapply Rle_trans; [apply Rabs_triang|]; rewrite Rabs_Ropp; lra).
    assert (D2 : Rabs (P x - P y) <= 2 * B) by (unfold Rminus; eapply Rle_trans; [apply Rabs_triang|]; rewrite Rabs_Ropp; lra).
    set (a := exp ((b2 - b1) * H x)) in *. set (b := exp ((b2 - b1) * H y)) in *. assert (Pa : 0 < a) by apply exp_pos. assert (Pb : 0 < b) by apply exp_pos.
    assert (E1 : W b1 x = W b2 x * a) by (unfold W, a; rewrite <- exp_plus; f_equal; ring). assert (E2 : W b1 y = W b2 y * b) by (unfold W, b; rewrite <- exp_plus; f_equal; ring).
    rewrite E1, E2. pose proof (W_pos b2 x) as Wx. pose proof (W_pos b2 y) as Wy. set (wx := W b2 x) in *. set (wy := W b2 y) in *.
    replace (wx * a * wy + wx * (wy * b)) with (wx * wy * (a + b)) by ring.
    assert (C' : Rabs (a - b) <= Rabs (b2 - b1) * (2 * M) * (a + b)).
    { eapply Rle_trans; [exact C|]. apply Rmult_le_compat_r; [lra|]. apply Rmult_le_compat_l; [apply Rabs_pos|exact D1]. }
    apply Rle_trans with (2 * B * (wx * wy * (Rabs (b2 - b1) * (2 * M) * (a + b)))); [|right; ring].
    apply Rmult_le_compat; [apply Rabs_pos| |exact D2|].
    - repeat apply Rmult_le_pos; try lra. apply Rabs_pos.
    - apply Rmult_le_compat_l; [nra|exact C']. }
  assert (E : mean (fun x => mean (fun y => 4 * M * B * Rabs (b2 - b1) * (W b1 x * W b2 y + W b2 x * W b1 y))) = 4 * M * B * Rabs (b2 - b1) * (2 * Z)).
  {
    transitivity (4 * M * B * Rabs (b2 - b1) * mean (fun x => mean (fun y => W b1 x * W b2 y + W b2 x * W b1 y))).
    - rewrite <- gmean_scale. apply gmean_ext. intros x _. apply gmean_scale.
    - f_equal. transitivity (mean (fun x => mean (fun y => W b1 x * W b2 y)) + mean (fun x => mean (fun y => W b2 x * W b1 y))).
      + rewrite <- gmean_plus. apply gmean_ext. intros x _. apply gmean_plus.
      + rewrite !mean_pair. unfold Z. ring. }
  rewrite E in Q. lra.
Qed.
Lemma av_steep M b1 b2 : (forall x, inl x -> Rabs (H x) <= M) -> 0 <= b1 -> b1 <= b2 ->
  (b2 - b1) * exp (- (4 * b2 * M)) * (av 0 (fun x => H x * H x) - av 0 H * av 0 H) <= av b1 H - av b2 H.
Proof.
  intros HM H1 Hb. pose proof (W_mean b1) as P1. pose proof (W_mean b2) as P2. set (Z := mean (W b1) * mean (W b2)). assert (PZ : 0 < Z) by (apply Rmult_lt_0_compat; assumption).
  apply Rmult_le_reg_r with Z; [exact PZ|]. unfold Z at 2. rewrite av_diff.
  assert (W0 : forall F, av 0 F = mean F).
  { intros F. unfold av. replace (mean (W 0)) with 1; [replace (mean (fun x => W 0 x * F x)) with (mean F); [field|]|].
    - apply gmean_ext. intros x _. unfold W. rewrite Rmult_0_l, Ropp_0, exp_0. ring.
    - rewrite <- (gmean_const z l n 1 Hl). apply gmean_ext. intros x _. unfold W. rewrite Rmult_0_l, Ropp_0, exp_0. reflexivity. }
  rewrite !W0.
  assert (V : mean (fun x => mean (fun y => (H x - H y) * (H x - H y))) = 2 * (mean (fun x => H x * H x) - mean H * mean H)).
  { transitivity (mean (fun x => mean (fun y => H x * H x)) - 2 * mean (fun x => mean (fun y => H x * H y)) + mean (fun x => mean (fun y => H y * H y))).
    - rewrite <- gmean_scale, <- mean_minus, <- gmean_plus. apply gmean_ext. intros x _. rewrite <- gmean_scale, <- mean_minus, <- gmean_plus. apply gmean_ext. intros y _. ring.
    - rewrite mean_pair. assert (Q : mean (fun x => mean (fun _ => H x * H x)) = mean (fun x => H x * H x)) by (apply gmean_ext; intros x _; apply gmean_const, Hl).
      rewrite Q, gmean_const by exact Hl. ring. }
  assert (M0 : 0 <= b2 * M).
  { assert (0 <= M); [|apply Rmult_le_pos; lra]. destruct l as [|a l']; [congruence|]. eapply Rle_trans; [apply Rabs_pos|apply (HM (fun _ => a)); intros; left; reflexivity]. }
  assert (Q : mean (fun x => mean (fun y => (b2 - b1) * exp (- (b2 - b1) * M - 2 * (b2 * M)) * ((H x - H y) * (H x - H y)))) <= mean (fun x => mean (fun y => (H x - H y) * (W b1 x * W b2 y - W b2 x * W b1 y)))).
  { apply gmean_le. intros x Hx. apply gmean_le. intros y Hy. rewrite W_split.
    assert (bnd : forall u, inl u -> - ((b2 - b1) * M) <= (b2 - b1) * H u /\ exp (- (b2 * M)) <= W b2 u).
    { intros u Hu. pose proof (HM u Hu) as Q. assert (- M <= H u <= M) by (unfold Rabs in Q; destruct (Rcase_abs (H u)); lra). split; [nra|]. apply exp_le. nra. }
    destruct (bnd x Hx) as [X1 X2]. destruct (bnd y Hy) as [Y1 Y2]. pose proof (chord_low _ _ _ X1 Y1) as C.
    rewrite <- Rmult_minus_distr_l in C. set (D := exp ((b2 - b1) * H x) - exp ((b2 - b1) * H y)) in *. set (h := H x - H y) in *.
    destruct (Req_dec b1 b2) as [->|Hne].
    { assert (D0 : D = 0) by (unfold D; replace (b2 - b2) with 0 by ring; rewrite !Rmult_0_l; ring). rewrite D0. right. ring. }
    assert (db : 0 < b2 - b1) by lra.
    assert (C' : (b2 - b1) * (h * h) * exp (- ((b2 - b1) * M)) <= h * D) by (apply Rmult_le_reg_l with (b2 - b1); [exact db|]; nra).
    assert (WW : exp (- 2 * (b2 * M)) <= W b2 x * W b2 y).
    { replace (- 2 * (b2 * M)) with (- (b2 * M) + - (b2 * M)) by ring. rewrite exp_plus. apply Rmult_le_compat; try assumption; left; apply exp_pos. }
    replace (exp (- (b2 - b1) * M - 2 * (b2 * M))) with (exp (- ((b2 - b1) * M)) * exp (- 2 * (b2 * M))) by (rewrite <- exp_plus; f_equal; ring).
    pose proof (exp_pos (- ((b2 - b1) * M))) as e1. pose proof (exp_pos (- 2 * (b2 * M))) as e2. pose proof (Rle_0_sqr h) as hh. unfold Rsqr in hh.
    assert (0 <= (b2 - b1) * (h * h) * exp (- ((b2 - b1) * M))) by (apply Rmult_le_pos; [apply Rmult_le_pos; lra|lra]).
    apply Rle_trans with ((b2 - b1) * (h * h) * exp (- ((b2 - b1) * M)) * exp (- 2 * (b2 * M))); [right; ring|].
    apply Rle_trans with (h * D * (W b2 x * W b2 y)); [|right; ring]. apply Rmult_le_compat; try lra. }
  assert (E : mean (fun x => mean (fun y => (b2 - b1) * exp (- (b2 - b1) * M - 2 * (b2 * M)) * ((H x - H y) * (H x - H y)))) =
    (b2 - b1) * exp (- (b2 - b1) * M - 2 * (b2 * M)) * (2 * (mean (fun x => H x * H x) - mean H * mean H))).
  { rewrite <- V, <- gmean_scale. apply gmean_ext. intros x _. apply gmean_scale. }
  rewrite E in Q. set (v := mean (fun x => H x * H x) - mean H * mean H) in *.
  assert (v0 : 0 <= v).
  { assert (0 <= mean (fun x => mean (fun y => (H x - H y) * (H x - H y)))); [|lra]. rewrite <- (gmean_const z l n 0 Hl). apply gmean_le. intros x _. rewrite <- (gmean_const z l n 0 Hl). apply gmean_le. intros y _. apply Rle_0_sqr. }
  assert (Zup : Z <= exp (b1 * M + b2 * M)).
  { unfold Z. rewrite exp_plus. assert (up : forall b, 0 <= b -> mean (W b) <= exp (b * M)).
    { intros b B0. rewrite <- (gmean_const z l n (exp (b * M)) Hl). apply gmean_le. intros x Hx. apply exp_le. pose proof (HM x Hx) as q. assert (- M <= H x <= M) by (unfold Rabs in q; destruct (Rcase_abs (H x)); lra). nra. }
    apply Rmult_le_compat; try lra; apply up; lra. }
  assert (Ex : exp (- (4 * b2 * M)) * exp (b1 * M + b2 * M) = exp (- (b2 - b1) * M - 2 * (b2 * M))) by (rewrite <- exp_plus; f_equal; ring).
  pose proof (exp_pos (- (4 * b2 * M))) as e4.
  apply Rle_trans with ((b2 - b1) * exp (- (4 * b2 * M)) * v * exp (b1 * M + b2 * M)).
  - apply Rmult_le_compat_l; [|exact Zup]. apply Rmult_le_pos; [apply Rmult_le_pos; lra|exact v0].
  - replace ((b2 - b1) * exp (- (4 * b2 * M)) * v * exp (b1 * M + b2 * M)) with ((b2 - b1) * (exp (- (4 * b2 * M)) * exp (b1 * M + b2 * M)) * v) by ring. rewrite Ex. lra.
Qed.
End Grid.
