(** A rotation in binary64 about a field of any size: close to the exact one, or NaN. *)
From Coq Require Import ZArith Reals List Lia Lra Psatz Bool.
From Coq Require Import Floats.SpecFloat.
From Flocq Require Import Core Relative BinarySingleNaN.
From Verif Require Import Num Monad NumR NumF64 SpecVec Spin SpecRound SpecClose ProofsFlocq ProofsRound ProofsF64
  ProofsSpin ProofsEnergy ProofsDrive ProofsOrder ProofsOrder2 ProofsTurn ProofsClose.
Import ListNotations.
Local Open Scope R_scope.

(** infinities and NaN *)
Definition nonfin (x : f64) : Prop := f_finite x = false.
Lemma add_nonfin x y : nonfin x \/ nonfin y -> nonfin (f_add x y).
Proof. unfold nonfin. destruct x as [[]|[]| |[] ? ?], y as [[]|[]| |[] ? ?]; cbn; intros [H|H]; try discriminate; reflexivity. Qed.
Lemma sub_nonfin x y : nonfin x \/ nonfin y -> nonfin (f_sub x y).
Proof. unfold nonfin. destruct x as [[]|[]| |[] ? ?], y as [[]|[]| |[] ? ?]; cbn; intros [H|H]; try discriminate; reflexivity. Qed.
Lemma mul_nonfin x y : nonfin x \/ nonfin y -> nonfin (f_mul x y).
Proof. unfold nonfin. destruct x as [[]|[]| |[] ? ?], y as [[]|[]| |[] ? ?]; cbn; intros [H|H]; try discriminate; reflexivity. Qed.
Lemma sqrt_nonfin x : nonfin x -> nonfin (f_sqrt x).
Proof. unfold nonfin. destruct x as [[]|[]| |[] ? ?]; cbn; intro H; try discriminate; reflexivity. Qed.
Lemma div_nonfin x y : nonfin x -> nonfin y -> f_div x y = S754_nan.
Proof. unfold nonfin. destruct x as [[]|[]| |[] ? ?], y as [[]|[]| |[] ? ?]; cbn; intros H1 H2; try discriminate; reflexivity. Qed.
Lemma div_zero x y : vfin y -> fval y = 0 -> nonfin (f_div x y).
Proof.
  intros [_ V] E. destruct y as [sy|sy| |sy my ey]; try discriminate V.
  - destruct x as [[]|[]| |[] ? ?], sy; reflexivity.
  - exfalso. rewrite <- value_fval in E. unfold value in E. rewrite pow_bpow in E. pose proof (bpow_gt_0 radix2 ey) as P.
    assert (0 < IZR (Z.pos my)) by (apply IZR_lt; lia). assert (0 < IZR (Z.pos my) * bpow radix2 ey) by (apply Rmult_lt_0_compat; assumption).
    destruct sy; nra.
Qed.

(** a direction with an infinite or NaN component *)
Lemma unnorm_nonfin s f dc ds : nonfin (vx f) -> nonfin (vy f) -> nonfin (vz f) ->
  let w := unnorm s f dc ds in nonfin (vx w) /\ nonfin (vy w) /\ nonfin (vz w).
Proof.
  intros Hx Hy Hz. unfold unnorm, comp_, axp_. cbv zeta. cbn [vx vy vz].
  repeat split; apply sub_nonfin; left; apply add_nonfin; right; apply mul_nonfin; left; apply mul_nonfin; left; assumption.
Qed.

Section Tiny.
Context (L : libm) (v : v3 f64) (Hv : is_vector v) (Hl : len2 v <= powerRZ 2 (-900)).
Lemma tiny_comp x : Rabs x <= bpow radix2 (-450) -> Rabs (x * x) <= bpow radix2 (-900).
Proof.
  intro H. rewrite Rabs_mult. apply Rle_trans with (bpow radix2 (-450) * bpow radix2 (-450)).
  - apply Rmult_le_compat; auto using Rabs_pos.
  - rewrite <- bpow_plus. apply bpow_le. lia.
Qed.
Lemma tiny_comps : Rabs (fval (vx v)) <= bpow radix2 (-450) /\ Rabs (fval (vy v)) <= bpow radix2 (-450) /\ Rabs (fval (vz v)) <= bpow radix2 (-450).
Proof.
  rewrite len2_fval, pow_bpow in Hl. assert (E : bpow radix2 (-900) = bpow radix2 (-450) * bpow radix2 (-450)) by (rewrite <- bpow_plus; f_equal).
  rewrite E in Hl. pose proof (bpow_gt_0 radix2 (-450)). repeat split; apply abs_of_sq; nra.
Qed.
Lemma eta_tiny : eta <= bpow radix2 (-900). Proof. apply bpow_le. lia. Qed.
Lemma small_big r : Rabs r <= 100 * bpow radix2 (-900) -> Rabs (rnd r) < fmax.
Proof.
  intro H. apply fmax_big. eapply Rle_trans; [exact H|]. apply Rle_trans with (bpow radix2 7 * bpow radix2 (-900)).
  - pose proof (bpow_gt_0 radix2 (-900)). assert (E : bpow radix2 7 = 128) by (cbn; lra). rewrite E. lra.
  - rewrite <- bpow_plus. apply bpow_le. lia.
Qed.
Lemma tiny_sum : exists q, sum_sq (F64 L) [vx v; vy v; vz v] = q /\ vfin q /\ 0 <= fval q <= 100 * bpow radix2 (-900) /\
  (forall w, w = vx v \/ w = vy v \/ w = vz v -> fval w * fval w * (1 - u) - eta <= fval q).
Proof.
  unfold sum_sq; cbn [fold_left nadd nmul nofZ F64]. destruct Hv as (Vx & Vy & Vz). destruct tiny_comps as (Tx & Ty & Tz).
  apply tiny_comp in Tx, Ty, Tz. pose proof (bpow_gt_0 radix2 (-900)) as P. pose proof eta_tiny as ET. pose proof eta_pos as EP. set (B := bpow radix2 (-900)) in *.
  destruct (mul_val (vx v) (vx v) Vx Vx) as [V1 E1]; [apply small_big; fold B; lra|].
  destruct (mul_val (vy v) (vy v) Vy Vy) as [V2 E2]; [apply small_big; fold B; lra|].
  destruct (mul_val (vz v) (vz v) Vz Vz) as [V3 E3]; [apply small_big; fold B; lra|].
  destruct (ofZ_val 0 ltac:(lia)) as [V0 E0].
  set (a := fval (vx v)) in *. set (b := fval (vy v)) in *. set (c := fval (vz v)) in *.
  assert (a2 : 0 <= a * a) by nra. assert (b2 : 0 <= b * b) by nra. assert (c2 : 0 <= c * c) by nra.
  rewrite Rabs_pos_eq in Tx, Ty, Tz by assumption.
  assert (B1 := rnd_pos (a * a) a2). assert (B2 := rnd_pos (b * b) b2). assert (B3 := rnd_pos (c * c) c2).
  assert (G1 := rnd_ge0 (a * a) a2). assert (G2 := rnd_ge0 (b * b) b2). assert (G3 := rnd_ge0 (c * c) c2).
  assert (U := u_val).
  assert (K1 : rnd (a * a) <= 3 * B) by (rewrite U in B1; lra). assert (K2 : rnd (b * b) <= 3 * B) by (rewrite U in B2; lra).
  assert (K3 : rnd (c * c) <= 3 * B) by (rewrite U in B3; lra).
  destruct (add_val (f_ofZ 0) (f_mul (vx v) (vx v)) V0 V1) as [V4 E4].
  { apply small_big. rewrite E0, Rplus_0_l, E1, Rabs_pos_eq by lra. fold B. lra. }
  assert (E1' : rnd (fval (f_ofZ 0) + fval (f_mul (vx v) (vx v))) = fval (f_mul (vx v) (vx v))) by (rewrite E0, Rplus_0_l; apply rnd_fval; exact V1).
  rewrite E1', E1 in E4.
  destruct (add_val (f_add (f_ofZ 0) (f_mul (vx v) (vx v))) (f_mul (vy v) (vy v)) V4 V2) as [V5 E5].
  { apply small_big. rewrite E4, E2, Rabs_pos_eq by lra. fold B. lra. }
  rewrite E4, E2 in E5.
  assert (M : forall x y, vfin x -> 0 <= y -> fval x <= rnd (fval x + y)).
  { intros x y Hx Hy. rewrite <- (rnd_fval x Hx) at 1. apply round_le; [apply ffexp_valid|apply valid_rnd_N|lra]. }
  assert (B5 := rnd_pos (rnd (a * a) + rnd (b * b)) ltac:(lra)). assert (G5 := rnd_ge0 (rnd (a * a) + rnd (b * b)) ltac:(lra)).
  assert (M5 : rnd (a * a) <= rnd (rnd (a * a) + rnd (b * b))) by (rewrite <- E1; apply M; [exact V1|lra]).
  assert (M5' : rnd (b * b) <= rnd (rnd (a * a) + rnd (b * b))) by (rewrite Rplus_comm, <- E2; apply M; [exact V2|lra]).
  assert (K5 : rnd (rnd (a * a) + rnd (b * b)) <= 10 * B) by (rewrite U in B5; lra).
  destruct (add_val _ (f_mul (vz v) (vz v)) V5 V3) as [V6 E6].
  { apply small_big. rewrite E5, E3, Rabs_pos_eq by lra. fold B. lra. }
  rewrite E5, E3 in E6.
  assert (B6 := rnd_pos (rnd (rnd (a * a) + rnd (b * b)) + rnd (c * c)) ltac:(lra)).
  assert (M6 : rnd (rnd (a * a) + rnd (b * b)) <= rnd (rnd (rnd (a * a) + rnd (b * b)) + rnd (c * c))) by (rewrite <- E5 at 1 2; apply M; [exact V5|lra]).
  assert (M6' : rnd (c * c) <= rnd (rnd (rnd (a * a) + rnd (b * b)) + rnd (c * c))) by (rewrite Rplus_comm, <- E3 at 1; rewrite <- E3; apply M; [exact V3|lra]).
  eexists. split; [reflexivity|]. split; [exact V6|]. rewrite E6. split; [rewrite U in B6; lra|].
  intros w [-> | [-> | ->]]; fold a b c; lra.
Qed.

Lemma tiny_dir : exists n, nsqrt (F64 L) (sum_sq (F64 L) [vx v; vy v; vz v]) = n /\ vfin n /\ 0 <= fval n <= bpow radix2 (-400) /\
  ((nonfin (f_div (vx v) n) /\ nonfin (f_div (vy v) n) /\ nonfin (f_div (vz v) n)) \/
   (app (f_div (vx v) n) 0 (3 / 2) /\ app (f_div (vy v) n) 0 (3 / 2) /\ app (f_div (vz v) n) 0 (3 / 2))).
Proof.
  destruct tiny_sum as (q & -> & Vq & Bq & Hq). cbn [nsqrt F64]. destruct (sqrt_val q Vq (proj1 Bq)) as [Vn En].
  set (r := sqrt (fval q)) in *. assert (R2 : r * r = fval q) by (apply sqrt_sqrt, Bq). assert (R0 : 0 <= r) by apply sqrt_pos.
  assert (Rn := rnd_pos r R0). assert (Gn := rnd_ge0 r R0). assert (U := u_val). rewrite <- En in Rn, Gn.
  exists (f_sqrt q). split; [reflexivity|]. split; [exact Vn|].
  assert (RB : r <= bpow radix2 (-440)).
  { apply Rnot_lt_le. intro K. pose proof (bpow_gt_0 radix2 (-440)) as P. assert (bpow radix2 (-440) * bpow radix2 (-440) < r * r) by nra.
    rewrite <- bpow_plus in H. rewrite R2 in H. change (-440 + -440)%Z with (20 + -900)%Z in H. rewrite bpow_plus in H.
    pose proof (bpow_gt_0 radix2 (-900)). assert (E20 : bpow radix2 20 = 1048576) by (cbn; lra). rewrite E20 in H. lra. }
  assert (E4 : eta <= bpow radix2 (-440)) by (apply bpow_le; lia).
  split.
  { split; [exact Gn|]. apply Rle_trans with (bpow radix2 2 * bpow radix2 (-440)); [pose proof (bpow_gt_0 radix2 (-440)); assert (E2 : bpow radix2 2 = 4) by (cbn; lra); rewrite E2; rewrite U in Rn; lra|].
    rewrite <- bpow_plus. apply bpow_le. lia. }
  destruct (Req_dec (fval q) 0) as [Z|Z].
  - left. assert (r = 0) by (unfold r; rewrite Z; apply sqrt_0). assert (fval (f_sqrt q) = 0).
    { rewrite En, H. apply round_0, valid_rnd_N. }
    repeat split; apply div_zero; assumption.
  - right. assert (Q1 : bpow radix2 (-1074) <= fval q).
    { apply (generic_format_ge_bpow radix2 (FLT_exp (-1074) 53)); [intro e; unfold FLT_exp; lia|lra|].
      destruct (vfin_B q Vq) as (b & -> & _). rewrite B_fval. apply generic_format_B2R. }
    assert (Q2 : 2 * eta <= fval q).
    { eapply Rle_trans; [|exact Q1]. unfold eta. change 2 with (bpow radix2 1). rewrite <- bpow_plus. apply bpow_le. lia. }
    assert (R1 : bpow radix2 (-540) <= r).
    { apply Rnot_lt_le. intro K. pose proof (bpow_gt_0 radix2 (-540)) as P. assert (r * r < bpow radix2 (-540) * bpow radix2 (-540)) by nra.
      rewrite <- bpow_plus, R2 in H. assert (bpow radix2 (-540 + -540) <= bpow radix2 (-1074)) by (apply bpow_le; lia). lra. }
    assert (ER : eta <= u * r).
    { apply Rle_trans with (u * bpow radix2 (-540)).
      - rewrite U. replace (/ 9007199254740992) with (bpow radix2 (-53)) by (cbn; lra). rewrite <- bpow_plus. apply bpow_le. lia.
      - apply Rmult_le_compat_l; [rewrite U; lra|exact R1]. }
    pose proof (bpow_gt_0 radix2 (-540)) as P540.
    assert (N1 : r * (1 - 2 * u) <= fval (f_sqrt q)) by lra.
    assert (N0 : 0 < fval (f_sqrt q)) by (rewrite U in N1; lra).
    assert (Q : forall w, vfin w -> (w = vx v \/ w = vy v \/ w = vz v) -> app (f_div w (f_sqrt q)) 0 (3 / 2)).
    { intros w Vw Hw. specialize (Hq w Hw). assert (W2 : fval w * fval w <= 16 / 10 * (r * r)) by (rewrite R2; rewrite U in Hq; nra).
      assert (W1 : Rabs (fval w) <= 13 / 10 * r) by (apply abs_of_sq; [lra|nra]).
      assert (D : Rabs (fval w / fval (f_sqrt q)) <= 14 / 10).
      { unfold Rdiv. rewrite Rabs_mult, Rabs_inv, (Rabs_pos_eq (fval (f_sqrt q))) by lra.
        apply Rmult_le_reg_r with (fval (f_sqrt q)); [exact N0|]. rewrite Rmult_assoc, Rinv_l, Rmult_1_r by lra. rewrite U in N1. lra. }
      destruct (comp_val w (f_sqrt q) Vw Vn N0 ltac:(lra)) as [V E]. split; [exact V|]. rewrite E, Rminus_0_r.
      pose proof (rnd_err (fval w / fval (f_sqrt q))) as Er. pose proof (Rabs_triang (rnd (fval w / fval (f_sqrt q)) - fval w / fval (f_sqrt q)) (fval w / fval (f_sqrt q))) as T.
      replace (rnd (fval w / fval (f_sqrt q)) - fval w / fval (f_sqrt q) + fval w / fval (f_sqrt q)) with (rnd (fval w / fval (f_sqrt q))) in T by ring.
      pose proof eta_u. rewrite U in *. lra. }
    destruct Hv as (Vx & Vy & Vz). split; [|split]; apply Q; auto.
Qed.
End Tiny.

(** the components of a spin that is hardly turned *)
Section Still.
Context (s1 s2 s3 f1 f2 f3 dc ds : f64).
Context (Vs1 : vfin s1) (Vs2 : vfin s2) (Vs3 : vfin s3).
Context (Af1 : app f1 0 (3 / 2)) (Af2 : app f2 0 (3 / 2)) (Af3 : app f3 0 (3 / 2)) (Ac : app dc 1 (ee / 2)) (Ad : app ds 0 (ee / 2)).
Context (B1 : Rabs (fval s1) <= 11 / 10) (B2 : Rabs (fval s2) <= 11 / 10) (B3 : Rabs (fval s3) <= 11 / 10).
Lemma still_mul s f : vfin s -> Rabs (fval s) <= 11 / 10 -> app f 0 (3 / 2) -> app (f_mul s f) 0 (17 / 10) /\ app (f_mul f s) 0 (17 / 10).
Proof.
  intros V B A. pose proof ee_small as E. rewrite <- (Rmult_0_r (fval s)) at 1. rewrite <- (Rmult_0_l (fval s)) at 2. split.
  - apply (app_mul _ _ _ _ 0 (3 / 2) (11 / 10) 0); auto using app_exact; rewrite ?Rabs_R0; rewrite ?ee_val; lra.
  - apply (app_mul _ _ _ _ (3 / 2) 0 0 (11 / 10)); auto using app_exact; rewrite ?Rabs_R0; rewrite ?ee_val; lra.
Qed.
Lemma still_axp : app (axp_ s1 s2 s3 f1 f2 f3) 0 (52 / 10).
Proof.
  pose proof ee_small as E.
  destruct (still_mul s1 f1 Vs1 B1 Af1) as [P1 _]. destruct (still_mul s2 f2 Vs2 B2 Af2) as [P2 _]. destruct (still_mul s3 f3 Vs3 B3 Af3) as [P3 _].
  destruct (ofZ_val 0 ltac:(lia)) as [V0 E0].
  assert (A0 : app (f_ofZ 0) 0 0) by (rewrite <- E0; now apply app_exact).
  assert (X1 := app_add _ _ _ _ _ _ A0 P1 ltac:(rewrite Rabs_R0; lra)). rewrite Rplus_0_l in X1.
  assert (X2 := app_add _ _ _ _ _ _ X1 P2 ltac:(rewrite Rabs_R0, ?ee_val; lra)). rewrite Rplus_0_l in X2.
  assert (X3 := app_add _ _ _ _ _ _ X2 P3 ltac:(rewrite Rabs_R0, ?ee_val; lra)). rewrite Rplus_0_l in X3.
  apply (app_weak _ _ _ _ X3). rewrite ee_val. lra.
Qed.
Lemma still_comp s f fa sb fb sa : vfin s -> app f 0 (3 / 2) -> app fa 0 (3 / 2) -> vfin sb -> app fb 0 (3 / 2) -> vfin sa ->
  Rabs (fval s) <= 11 / 10 -> Rabs (fval sb) <= 11 / 10 -> Rabs (fval sa) <= 11 / 10 ->
  app (comp_ s1 s2 s3 f1 f2 f3 dc ds s f fa sb fb sa) (fval s) (20 * ee).
Proof.
  intros Vs Af Afa Vsb Afb Vsa Bs Bsb Bsa. pose proof ee_small as E. pose proof still_axp as AX.
  assert (T1 : app (f_mul s dc) (fval s * 1) (2 * ee)).
  { apply (app_mul _ _ _ _ 0 (ee / 2) (11 / 10) 1); auto using app_exact; rewrite ?Rabs_R1; rewrite ?ee_val; lra. }
  assert (T2 : app (f_mul f (axp_ s1 s2 s3 f1 f2 f3)) (0 * 0) 8).
  { apply (app_mul _ _ _ _ (3 / 2) (52 / 10) 0 0); auto; rewrite ?Rabs_R0; rewrite ?ee_val; lra. }
  rewrite Rmult_0_l in T2.
  destruct (ofZ_val 1 ltac:(lia)) as [V1 E1].
  assert (A1 : app (f_ofZ 1) 1 0) by (rewrite <- E1; now apply app_exact).
  assert (T3 : app (f_sub (f_ofZ 1) dc) (1 - 1) (0 + ee / 2 + ee)).
  { apply app_sub; auto. rewrite Rabs_R1. lra. }
  rewrite Rminus_diag_eq in T3 by reflexivity.
  assert (T4 : app (f_mul (f_mul f (axp_ s1 s2 s3 f1 f2 f3)) (f_sub (f_ofZ 1) dc)) (0 * 0) (13 * ee)).
  { apply (app_mul _ _ _ _ 8 (0 + ee / 2 + ee) 0 0); auto; rewrite ?Rabs_R0; rewrite ?ee_val; lra. }
  rewrite Rmult_0_l in T4.
  assert (T5 := app_add _ _ _ _ _ _ T1 T4 ltac:(rewrite Rmult_1_r, Rabs_R0, ee_val; lra)).
  destruct (still_mul sb fa Vsb Bsb Afa) as [_ P1]. destruct (still_mul sa fb Vsa Bsa Afb) as [_ P2].
  assert (T6 := app_sub _ _ _ _ _ _ P1 P2 ltac:(rewrite Rabs_R0; lra)). rewrite Rminus_diag_eq in T6 by reflexivity.
  assert (T7 : app (f_mul (f_sub (f_mul fa sb) (f_mul fb sa)) ds) (0 * 0) (3 * ee)).
  { apply (app_mul _ _ _ _ (17 / 10 + 17 / 10 + ee) (ee / 2) 0 0); auto; rewrite ?Rabs_R0; rewrite ?ee_val; lra. }
  rewrite Rmult_0_l in T7.
  assert (T8 := app_sub _ _ _ _ _ _ T5 T7 ltac:(rewrite Rmult_1_r, Rplus_0_r, Rabs_R0, ee_val; lra)).
  replace (fval s * 1 + 0 - 0) with (fval s) in T8 by ring.
  apply (app_weak _ _ _ _ T8). lra.
Qed.
End Still.

Lemma rotate_tiny L s field dt : accurate L -> near_unit (powerRZ 2 (-50)) s -> is_vector field -> len2 field <= powerRZ 2 (-900) -> is_number dt ->
  Rabs (value dt) <= 1 ->
  (near_unit (powerRZ 2 (-50)) (rotate (F64 L) s field dt) /\ off (rotate (F64 L) s field dt) (vvalue s) <= powerRZ 2 (-40)) \/
  rotate (F64 L) s field dt = nan3f.
Proof.
  intros HL ((Vs1 & Vs2 & Vs3) & Hs) Hf Hl Vdt Hdt. rewrite value_fval in Hdt.
  destruct (tiny_dir L field Hf Hl) as (n & En & Vn & Bn & D). assert (U := u_val).
  destruct D as [(N1 & N2 & N3)|(F1 & F2 & F3)].
  - right. set (f := mk3 (f_div (vx field) n) (f_div (vy field) n) (f_div (vz field) n)).
    destruct (unnorm_nonfin s f (l_cos L (f_mul n dt)) (l_sin L (f_mul n dt)) N1 N2 N3) as (W1 & W2 & W3). cbv zeta in W1, W2, W3.
    set (w := unnorm s f (l_cos L (f_mul n dt)) (l_sin L (f_mul n dt))) in *.
    rewrite (rotate_unnorm L s field dt n _ En eq_refl). fold f. fold w.
    assert (Q : nonfin (nsqrt (F64 L) (sum_sq (F64 L) [vx w; vy w; vz w]))).
    { cbn [nsqrt F64]. apply sqrt_nonfin. unfold sum_sq; cbn [fold_left nadd nmul nofZ F64]. apply add_nonfin. right. apply mul_nonfin. left. exact W3. }
    rewrite !div_nonfin by assumption. reflexivity.
  - left.
    assert (Bd : Rabs (fval n * fval dt) <= bpow radix2 (-400)).
    { rewrite Rabs_mult, (Rabs_pos_eq (fval n)) by lra. rewrite <- (Rmult_1_r (bpow radix2 (-400))). apply Rmult_le_compat; try lra. apply Rabs_pos. }
    destruct (mul_val n dt Vn Vdt) as [Vd Ed].
    { apply fmax_big. eapply Rle_trans; [exact Bd|]. apply bpow_le. lia. }
    assert (P400 : bpow radix2 (-400) <= / 1000 * u).
    { rewrite U. apply Rle_trans with (bpow radix2 (-70)); [apply bpow_le; lia|cbn; lra]. }
    assert (Da : Rabs (fval (f_mul n dt)) <= / 100 * u).
    { rewrite Ed. pose proof (rnd_err (fval n * fval dt)) as Er. pose proof (Rabs_triang (rnd (fval n * fval dt) - fval n * fval dt) (fval n * fval dt)) as T.
      replace (rnd (fval n * fval dt) - fval n * fval dt + fval n * fval dt) with (rnd (fval n * fval dt)) in T by ring. pose proof eta_u. rewrite U in *. lra. }
    destruct (HL _ Vd) as (Vc & Vsn & Hc & Hsn & Ec & Es). rewrite u50, !value_fval in Ec, Es.
    set (dc := l_cos L (f_mul n dt)) in *. set (ds := l_sin L (f_mul n dt)) in *.
    assert (E32 : ee = 32 * u) by (rewrite ee_val, U; lra).
    assert (Ac : app dc 1 (ee / 2)).
    { split; [exact Vc|]. pose proof (cos_lip (fval (f_mul n dt)) 0) as C. rewrite cos_0, Rminus_0_r in C.
      replace (fval dc - 1) with ((fval dc - cos (fval (f_mul n dt))) + (cos (fval (f_mul n dt)) - 1)) by ring.
      eapply Rle_trans; [apply Rabs_triang|]. rewrite E32, U in *. lra. }
    assert (As : app ds 0 (ee / 2)).
    { split; [exact Vsn|]. pose proof (sin_lip (fval (f_mul n dt)) 0) as C. rewrite sin_0, !Rminus_0_r in C.
      replace (fval ds - 0) with ((fval ds - sin (fval (f_mul n dt))) + sin (fval (f_mul n dt))) by ring.
      eapply Rle_trans; [apply Rabs_triang|]. rewrite E32, U in *. lra. }
    rewrite u50, len2_fval in Hs.
    assert (Hs' : fval (vx s) * fval (vx s) + fval (vy s) * fval (vy s) + fval (vz s) * fval (vz s) <= 101 / 100) by (apply Rabs_le_inv in Hs; rewrite U in Hs; lra).
    assert (SB : Rabs (fval (vx s)) <= 11 / 10 /\ Rabs (fval (vy s)) <= 11 / 10 /\ Rabs (fval (vz s)) <= 11 / 10) by (repeat split; apply abs_of_sq; nra).
    destruct SB as (B1 & B2 & B3).
    pose (CA := still_comp (vx s) (vy s) (vz s) _ _ _ dc ds Vs1 Vs2 Vs3 F1 F2 F3 Ac As B1 B2 B3).
    pose (w := unnorm s (mk3 (f_div (vx field) n) (f_div (vy field) n) (f_div (vz field) n)) dc ds).
    pose (h := 20 * ee).
    assert (A1 : app (vx w) (vx (vvalue s)) h) by (cbn [vvalue vx]; rewrite value_fval; apply CA; auto).
    assert (A2 : app (vy w) (vy (vvalue s)) h) by (cbn [vvalue vy]; rewrite value_fval; apply CA; auto).
    assert (A3 : app (vz w) (vz (vvalue s)) h) by (cbn [vvalue vz]; rewrite value_fval; apply CA; auto).
    assert (Hh : 0 <= h <= / 100000) by (unfold h; rewrite ee_val; lra).
    assert (HV : Rabs (dot (vvalue s) (vvalue s) - 1) <= 8 * u) by (unfold dot, vvalue; cbn [vx vy vz]; rewrite !value_fval; exact Hs).
    destruct (last_close L w (vvalue s) h A1 A2 A3 Hh HV) as (m & Em & NU & O).
    pose proof (rotate_unnorm L s field dt n m En Em) as Rt. rewrite Rt.
    split; [exact NU|]. eapply Rle_trans; [exact O|]. rewrite pow_bpow. unfold h. rewrite ee_val, U.
    replace (bpow radix2 (-40)) with (/ 1099511627776) by (cbn; lra). lra.
Qed.
Lemma rotate_any L s field dt : accurate L -> near_unit (powerRZ 2 (-50)) s -> is_vector field -> len2 field <= powerRZ 2 900 -> is_number dt ->
  Rabs (value dt) <= 1 -> norm (vvalue field) * Rabs (value dt) <= 1000000 ->
  (near_unit (powerRZ 2 (-50)) (rotate (F64 L) s field dt) /\
   off (rotate (F64 L) s field dt) (turn (vvalue s) (vvalue field) (value dt)) <= powerRZ 2 (-39) * (1 + norm (vvalue field) * Rabs (value dt))) \/
  rotate (F64 L) s field dt = nan3f.
Proof.
  intros HL HS Hf Hl Vdt Hdt Hb. set (T := norm (vvalue field) * Rabs (value dt)) in *.
  assert (T0 : 0 <= T) by (apply Rmult_le_pos; [apply norm_nonneg|apply Rabs_pos]).
  destruct (Rle_dec (powerRZ 2 (-900)) (len2 field)) as [H|H].
  - left. destruct (rotate_close L s field dt HL HS (conj Hf (conj H Hl)) Vdt Hb) as [A B]. split; [exact A|]. fold T in B.
    exact B.
  - destruct (rotate_tiny L s field dt HL HS Hf ltac:(lra) Vdt Hdt) as [[A B]|N]; [left|right; exact N]. split; [exact A|].
    set (r := rotate (F64 L) s field dt) in *.
    assert (D : off r (turn (vvalue s) (vvalue field) (value dt)) <= off r (vvalue s) + norm (vsub (vvalue s) (turn (vvalue s) (vvalue field) (value dt)))).
    { unfold off. apply norm_tri3. }
    eapply Rle_trans; [exact D|].
    assert (X : norm (vsub (vvalue s) (turn (vvalue s) (vvalue field) (value dt))) <= 2 * T).
    { rewrite <- (turn_zero (vvalue s) (value dt)) at 1. eapply Rle_trans; [apply turn_axis|].
      replace (norm (vsub vzero (vvalue field))) with (norm (vvalue field)) by (unfold norm; f_equal; unfold dot; cbn; ring).
      assert (N : norm (vvalue s) <= 2).
      { destruct HS as [_ HS]. unfold len2 in HS. rewrite u50, u_val in HS. apply Rabs_le_inv in HS. pose proof (norm_sq (vvalue s)). pose proof (norm_nonneg (vvalue s)). nra. }
      unfold T. pose proof (Rabs_pos (value dt)). pose proof (norm_nonneg (vvalue field)).
      assert (norm (vvalue s) * norm (vvalue field) <= 2 * norm (vvalue field)) by (apply Rmult_le_compat_r; lra).
      assert (Rabs (value dt) * (norm (vvalue s) * norm (vvalue field)) <= Rabs (value dt) * (2 * norm (vvalue field))) by (apply Rmult_le_compat_l; lra). lra. }
    assert (X2 : T <= bpow radix2 (-450)).
    { assert (NF : norm (vvalue field) <= bpow radix2 (-450)).
      { apply Rnot_lt_le. intro K. pose proof (bpow_gt_0 radix2 (-450)) as P.
        assert (bpow radix2 (-450) * bpow radix2 (-450) < norm (vvalue field) * norm (vvalue field)) by nra.
        rewrite <- bpow_plus, norm_sq in H0. apply H. rewrite pow_bpow. unfold len2. apply Rlt_le. exact H0. }
      unfold T. pose proof (Rabs_pos (value dt)). pose proof (norm_nonneg (vvalue field)). rewrite <- (Rmult_1_r (bpow radix2 (-450))). apply Rmult_le_compat; lra. }
    assert (X3 : bpow radix2 (-450) <= bpow radix2 (-43)) by (apply bpow_le; lia).
    rewrite !pow_bpow in *. set (e := bpow radix2 (-43)) in *.
    assert (E38 : bpow radix2 (-40) = 8 * e) by (unfold e; cbn; lra). assert (E37 : bpow radix2 (-39) = 16 * e) by (unfold e; cbn; lra).
    assert (0 < e) by (unfold e; apply bpow_gt_0). rewrite E38 in B. rewrite E37. nra.
Qed.
