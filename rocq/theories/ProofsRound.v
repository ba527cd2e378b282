(** Rounding-error analysis of normalisation and rotation in binary64. *)
From Coq Require Import ZArith Reals List Lia Lra Psatz Bool.
From Coq Require Import Floats.SpecFloat.
From Flocq Require Import Core Relative BinarySingleNaN.
From Verif Require Import Num Monad NumF64 SpecVec Spin SpecRound ProofsFlocq.
Import ListNotations.
Local Open Scope R_scope.

Lemma value_fval x : value x = fval x.
Proof.
  destruct x as [s|s| |s m e]; try reflexivity. unfold value, fval, SF2R, F2R; cbn [Fnum Fexp].
  rewrite bpow_powerRZ. destruct s; cbn [cond_Zopp].
  - change (Z.neg m) with (- Z.pos m)%Z. rewrite opp_IZR. change (IZR radix2) with 2. ring.
  - change (IZR radix2) with 2. ring.
Qed.
Lemma number_vfin x : is_number x <-> vfin x. Proof. reflexivity. Qed.

Definition u : R := / 2 ^ 53.
Definition eta : R := bpow radix2 (-1075).
Lemma u_val : u = / 9007199254740992. Proof. unfold u. f_equal. lra. Qed.
Lemma eta_pos : 0 < eta. Proof. apply bpow_gt_0. Qed.

Lemma rnd_err r : Rabs (rnd r - r) <= u * Rabs r + eta.
Proof.
  destruct (error_N_FLT radix2 (-1074) 53 (eq_refl) (fun x => negb (Z.even x)) r) as (e & h & He & Hh & _ & E).
  change (round radix2 (FLT_exp (-1074) 53) (Znearest (fun x => negb (Z.even x))) r) with (rnd r) in E.
  rewrite E. replace (r * (1 + e) + h - r) with (r * e + h) by ring.
  eapply Rle_trans; [apply Rabs_triang|]. rewrite Rabs_mult.
  assert (E1 : / 2 * bpow radix2 (Z.opp 53 + 1) = u).
  { unfold u. change (bpow radix2 (Z.opp 53 + 1)) with (/ 4503599627370496). lra. }
  assert (E2 : / 2 * bpow radix2 (-1074) = eta).
  { unfold eta. change (/ 2) with (bpow radix2 (-1)). rewrite <- bpow_plus. reflexivity. }
  rewrite E1 in He. rewrite E2 in Hh.
  pose proof (Rmult_le_compat_l _ _ _ (Rabs_pos r) He). lra.
Qed.
Lemma rnd_bounds r : r - u * Rabs r - eta <= rnd r <= r + u * Rabs r + eta.
Proof. pose proof (rnd_err r) as H. apply Rabs_le_inv in H || (unfold Rabs in H at 1; destruct (Rcase_abs (rnd r - r))); lra. Qed.

Lemma fmax_big r : Rabs r <= bpow radix2 1000 -> Rabs (rnd r) < fmax.
Proof.
  intro H. pose proof (rnd_err r) as E. pose proof (Rabs_triang (rnd r - r) r) as T.
  replace (rnd r - r + r) with (rnd r) in T by ring.
  assert (He : eta <= bpow radix2 1000) by (unfold eta; apply bpow_le; lia).
  assert (Hf : fmax = 16777216 * bpow radix2 1000).
  { unfold fmax. change femax with (24 + 1000)%Z. rewrite bpow_plus. reflexivity. }
  pose proof (Rabs_pos r). pose proof (bpow_gt_0 radix2 1000). rewrite u_val in E. rewrite Hf. lra.
Qed.

(** bounds for a nonnegative argument *)
Lemma rnd_pos r : 0 <= r -> r * (1 - u) - eta <= rnd r <= r * (1 + u) + eta.
Proof. intro H. pose proof (rnd_bounds r) as B. rewrite Rabs_pos_eq in B by assumption. lra. Qed.
Lemma rnd_ge0 r : 0 <= r -> 0 <= rnd r.
Proof. intro H. unfold rnd. apply round_ge_generic; [apply ffexp_valid|apply valid_rnd_N|apply generic_format_0|assumption]. Qed.
Lemma rnd_fval x : vfin x -> rnd (fval x) = fval x.
Proof.
  intros (b & -> & F)%vfin_B. rewrite B_fval. apply round_generic; [apply valid_rnd_N|]. apply generic_format_B2R.
Qed.

Section Normalise.
Context (L : libm) (x y z : f64) (Vx : vfin x) (Vy : vfin y) (Vz : vfin z).
Notation a := (fval x). Notation b := (fval y). Notation c := (fval z).
Notation A := (a * a + b * b + c * c).
Context (Hlo : bpow radix2 (-900) <= A) (Hhi : A <= bpow radix2 900).

Lemma nP : bpow radix2 900 <= bpow radix2 1000 * u.
Proof.
  rewrite u_val. replace 1000%Z with (900 + 100)%Z by lia. rewrite bpow_plus.
  pose proof (bpow_gt_0 radix2 900). assert (9007199254740992 <= bpow radix2 100).
  { change 9007199254740992 with (bpow radix2 53). apply bpow_le. lia. }
  pose proof (Rmult_le_compat_l _ _ _ (Rlt_le _ _ H) H0). lra.
Qed.
Lemma nEta : eta <= u * u * A.
Proof.
  unfold eta. replace (-1075)%Z with (-175 + -900)%Z by lia. rewrite bpow_plus.
  assert (bpow radix2 (-175) <= u * u).
  { rewrite u_val. replace (/ 9007199254740992 * / 9007199254740992) with (bpow radix2 (-106)) by (cbn; lra). apply bpow_le. lia. }
  pose proof (bpow_gt_0 radix2 (-900)). pose proof (bpow_gt_0 radix2 (-175)). nra.
Qed.
Lemma nEta1 : eta <= u * u * u.
Proof.
  unfold eta. rewrite u_val. replace (/ 9007199254740992 * / 9007199254740992 * / 9007199254740992) with (bpow radix2 (-159)) by (cbn; lra).
  apply bpow_le. lia.
Qed.
Lemma nApos : 0 < A. Proof. pose proof (bpow_gt_0 radix2 (-900)). lra. Qed.

Lemma sq_le v : v * v <= bpow radix2 900 -> Rabs (v * v) <= bpow radix2 1000.
Proof. intro H. rewrite Rabs_pos_eq by nra. pose proof (bpow_gt_0 radix2 1000). pose proof nP as P. rewrite u_val in P. lra. Qed.

Lemma sumsq_val : exists q, vfin q /\ sum_sq (F64 L) [x; y; z] = q /\
  A * (1 - 31 / 10 * u) <= fval q <= A * (1 + 31 / 10 * u).
Proof.
  unfold sum_sq; cbn [fold_left nadd nmul nofZ F64]. pose proof nP as P. pose proof nEta as Heta. pose proof nApos as Apos.
  assert (Ha : a * a <= A) by nra. assert (Hb : b * b <= A) by nra. assert (Hc : c * c <= A) by nra.
  destruct (mul_val x x Vx Vx) as [V1 E1]; [apply fmax_big, sq_le; lra|].
  destruct (mul_val y y Vy Vy) as [V2 E2]; [apply fmax_big, sq_le; lra|].
  destruct (mul_val z z Vz Vz) as [V3 E3]; [apply fmax_big, sq_le; lra|].
  destruct (ofZ_val 0 ltac:(lia)) as [V0 E0].
  assert (B1 := rnd_pos (a * a) ltac:(nra)). assert (B2 := rnd_pos (b * b) ltac:(nra)). assert (B3 := rnd_pos (c * c) ltac:(nra)).
  assert (G1 := rnd_ge0 (a * a) ltac:(nra)). assert (G2 := rnd_ge0 (b * b) ltac:(nra)). assert (G3 := rnd_ge0 (c * c) ltac:(nra)).
  assert (S1 : f_add (f_ofZ 0) (f_mul x x) = f_add (f_ofZ 0) (f_mul x x)) by reflexivity.
  assert (E1' : rnd (fval (f_ofZ 0) + fval (f_mul x x)) = fval (f_mul x x)).
  { rewrite E0, Rplus_0_l. apply rnd_fval. exact V1. }
  assert (M1000 : bpow radix2 900 * 9007199254740992 <= bpow radix2 1000) by (rewrite u_val in P; lra).
  rewrite u_val in *.
  destruct (add_val (f_ofZ 0) (f_mul x x) V0 V1) as [V4 E4].
  { apply fmax_big. rewrite E0, Rplus_0_l, E1, Rabs_pos_eq by lra. lra. }
  rewrite E1', E1 in E4.
  assert (B4 := rnd_pos (rnd (a * a) + rnd (b * b)) ltac:(lra)).
  assert (G4 := rnd_ge0 (rnd (a * a) + rnd (b * b)) ltac:(lra)).
  destruct (add_val (f_add (f_ofZ 0) (f_mul x x)) (f_mul y y) V4 V2) as [V5 E5].
  { apply fmax_big. rewrite E4, E2, Rabs_pos_eq by lra. lra. }
  rewrite E4, E2 in E5.
  assert (B5 := rnd_pos (rnd (rnd (a * a) + rnd (b * b)) + rnd (c * c)) ltac:(lra)).
  rewrite u_val in *.
  destruct (add_val _ (f_mul z z) V5 V3) as [V6 E6].
  { apply fmax_big. rewrite E5, E3, Rabs_pos_eq by lra. lra. }
  rewrite E5, E3 in E6.
  eexists. split; [exact V6|]. split; [reflexivity|]. rewrite E6.
  pose proof eta_pos. lra.
Qed.

Lemma norm_val : exists n, vfin n /\ nsqrt (F64 L) (sum_sq (F64 L) [x; y; z]) = n /\ 0 < fval n /\
  A * (1 - 52 / 10 * u) <= fval n * fval n <= A * (1 + 52 / 10 * u).
Proof.
  destruct sumsq_val as (q & Vq & Eq & B). rewrite Eq. cbn [nsqrt F64]. pose proof nApos as Apos. pose proof u_val as U.
  assert (Hq : A / 2 <= fval q) by (rewrite U in B; lra).
  destruct (sqrt_val q Vq ltac:(lra)) as [Vn En].
  set (r := sqrt (fval q)) in *. assert (R2 : r * r = fval q) by (apply sqrt_sqrt; lra).
  assert (Rp : 0 <= r) by apply sqrt_pos.
  assert (Rl : bpow radix2 (-451) <= r).
  { apply Rnot_lt_le. intro H. assert (r * r < bpow radix2 (-451) * bpow radix2 (-451)) by (pose proof (bpow_gt_0 radix2 (-451)); nra).
    rewrite <- bpow_plus in H0. replace (-900)%Z with (2 + (-451 + -451))%Z in Hlo by lia. rewrite bpow_plus in Hlo.
    change (bpow radix2 2) with 4 in Hlo. pose proof (bpow_gt_0 radix2 (-451 + -451)). lra. }
  assert (He : eta <= u * u * r).
  { apply Rle_trans with (u * u * bpow radix2 (-451)); [|apply Rmult_le_compat_l; [rewrite U; lra|assumption]].
    replace (u * u) with (bpow radix2 (-106)) by (rewrite U; cbn; lra). rewrite <- bpow_plus. unfold eta. apply bpow_le. lia. }
  pose proof (rnd_pos r Rp) as Bn. rewrite <- En in Bn. rewrite U in *.
  assert (0 < r) by (pose proof (bpow_gt_0 radix2 (-451)); lra).
  assert (B1 : r * (1 - 101 / 100 * / 9007199254740992) <= fval (f_sqrt q) <= r * (1 + 101 / 100 * / 9007199254740992)) by lra.
  exists (f_sqrt q). split; [exact Vn|]. split; [reflexivity|]. split; [lra|].
  clear Bn He Rl En. set (n := fval (f_sqrt q)) in *.
  assert (L1 : (r * (1 - 101 / 100 * / 9007199254740992)) * (r * (1 - 101 / 100 * / 9007199254740992)) <= n * n) by (apply Rmult_le_compat; lra).
  assert (L2 : n * n <= (r * (1 + 101 / 100 * / 9007199254740992)) * (r * (1 + 101 / 100 * / 9007199254740992))) by (apply Rmult_le_compat; lra).
  split.
  - eapply Rle_trans; [|exact L1]. replace (r * (1 - 101 / 100 * / 9007199254740992) * (r * (1 - 101 / 100 * / 9007199254740992)))
      with (fval q * ((1 - 101 / 100 * / 9007199254740992) * (1 - 101 / 100 * / 9007199254740992))) by (rewrite <- R2; ring). lra.
  - eapply Rle_trans; [exact L2|]. replace (r * (1 + 101 / 100 * / 9007199254740992) * (r * (1 + 101 / 100 * / 9007199254740992)))
      with (fval q * ((1 + 101 / 100 * / 9007199254740992) * (1 + 101 / 100 * / 9007199254740992))) by (rewrite <- R2; ring). lra.
Qed.

Lemma comp_err w : Rabs w <= 2 -> w * w - 2 * u * (w * w) - 8 * (u * u) <= rnd w * rnd w <= w * w + 2 * u * (w * w) + 8 * (u * u).
Proof.
  intro H. pose proof (rnd_err w) as E. pose proof nEta1 as N1. pose proof eta_pos as N0.
  set (d := rnd w - w) in *. replace (rnd w) with (w + d) by (unfold d; ring).
  assert (Hd : Rabs d <= u * Rabs w + u * u * u) by lra. clear E.
  assert (Q : Rabs ((w + d) * (w + d) - w * w) <= 2 * u * (w * w) + 8 * (u * u)).
  { replace ((w + d) * (w + d) - w * w) with (2 * (w * d) + d * d) by ring.
    eapply Rle_trans; [apply Rabs_triang|]. rewrite !Rabs_mult, (Rabs_pos_eq 2) by lra.
    replace (w * w) with (Rabs w * Rabs w) by (rewrite <- Rabs_mult; apply Rabs_pos_eq; nra).
    pose proof (Rabs_pos w) as W0. pose proof (Rabs_pos d) as D0. set (W := Rabs w) in *. set (D := Rabs d) in *. clearbody W D.
    assert (U := u_val). assert (W * D <= W * (u * W + u * u * u)) by (apply Rmult_le_compat_l; lra).
    assert (D * D <= (u * W + u * u * u) * (u * W + u * u * u)) by (apply Rmult_le_compat; lra).
    assert (u * W + u * u * u <= u * W + u * u) by (rewrite U; lra).
    assert (W * W <= 2 * W) by nra. rewrite U in *. nra. }
  unfold Rabs in Q. destruct (Rcase_abs _) in Q; lra.
Qed.

Lemma comp_val v n : vfin v -> vfin n -> 0 < fval n -> Rabs (fval v / fval n) <= 2 ->
  vfin (f_div v n) /\ fval (f_div v n) = rnd (fval v / fval n).
Proof.
  intros Vv Vn Hn H. apply div_val; auto; [lra|]. apply fmax_big. eapply Rle_trans; [exact H|].
  change 2 with (bpow radix2 1). apply bpow_le. lia.
Qed.

Lemma normalised : exists n, vfin n /\ nsqrt (F64 L) (sum_sq (F64 L) [x; y; z]) = n /\ 0 < fval n /\
  fval n * fval n <= A * (1 + 52 / 10 * u) /\
  vfin (f_div x n) /\ vfin (f_div y n) /\ vfin (f_div z n) /\
  1 - 8 * u <= fval (f_div x n) * fval (f_div x n) + fval (f_div y n) * fval (f_div y n)
             + fval (f_div z n) * fval (f_div z n) <= 1 + 8 * u.
Proof.
  destruct norm_val as (n & Vn & En & Pn & B). pose proof nApos as Apos. exists n. split; [exact Vn|]. split; [exact En|].
  set (T := A / (fval n * fval n)).
  assert (N2 : 0 < fval n * fval n) by nra.
  assert (ET : a / fval n * (a / fval n) + b / fval n * (b / fval n) + c / fval n * (c / fval n) = T) by (unfold T; field; lra).
  assert (BT : 1 - 52 / 10 * u <= T <= 1 + 53 / 10 * u).
  { assert (T * (fval n * fval n) = A) by (unfold T; field; lra). rewrite u_val in *. split; nra. }
  assert (Q : forall w, w * w <= T -> Rabs w <= 2).
  { intros w Hw. apply Rnot_lt_le. intro H. assert (2 * 2 < Rabs w * Rabs w) by nra.
    rewrite <- Rabs_mult, Rabs_pos_eq in H0 by nra. rewrite u_val in BT. lra. }
  assert (Q1 : Rabs (a / fval n) <= 2) by (apply Q; nra).
  assert (Q2 : Rabs (b / fval n) <= 2) by (apply Q; nra).
  assert (Q3 : Rabs (c / fval n) <= 2) by (apply Q; nra).
  destruct (comp_val x n Vx Vn Pn Q1) as [W1 E1]. destruct (comp_val y n Vy Vn Pn Q2) as [W2 E2].
  destruct (comp_val z n Vz Vn Pn Q3) as [W3 E3].
  split; [exact Pn|]. split; [apply B|]. split; [exact W1|]. split; [exact W2|]. split; [exact W3|]. rewrite E1, E2, E3.
  pose proof (comp_err _ Q1) as C1. pose proof (comp_err _ Q2) as C2. pose proof (comp_err _ Q3) as C3.
  clear Q Q1 Q2 Q3 E1 E2 E3 En B.
  rewrite u_val in *. split; lra.
Qed.
End Normalise.

(** ** new_xyz *)
Lemma len2_fval v : len2 v = fval (vx v) * fval (vx v) + fval (vy v) * fval (vy v) + fval (vz v) * fval (vz v).
Proof. unfold len2, vvalue, dot; cbn. rewrite !value_fval. reflexivity. Qed.
Lemma pow_bpow e : powerRZ 2 e = bpow radix2 e.
Proof. rewrite bpow_powerRZ. reflexivity. Qed.

Lemma u8 : 8 * u = powerRZ 2 (-50).
Proof. rewrite pow_bpow, u_val. cbn. lra. Qed.

Lemma new_xyz_near L v : mid_range v ->
  exists v', new_xyz (F64 L) [vx v; vy v; vz v] = Ok v' /\ near_unit (powerRZ 2 (-50)) v'.
Proof.
  intros ((Hx & Hy & Hz) & Hl). rewrite len2_fval, !pow_bpow in Hl.
  destruct (normalised L (vx v) (vy v) (vz v) Hx Hy Hz ltac:(lra) ltac:(lra)) as (n & Vn & En & Pn & _ & V1 & V2 & V3 & B).
  unfold new_xyz. rewrite En. cbn [idx nth_error bind ndiv F64]. eexists. split; [reflexivity|].
  split; [split; [exact V1|split; [exact V2|exact V3]]|]. rewrite len2_fval, <- u8. cbn [vx vy vz].
  apply Rabs_le. lra.
Qed.

(** ** one operation on moderate numbers *)
Definition ee : R := / 2 ^ 48.
Lemma ee_val : ee = / 281474976710656. Proof. unfold ee. f_equal. lra. Qed.
Definition app (x : f64) (r d : R) : Prop := vfin x /\ Rabs (fval x - r) <= d.

Lemma rnd_moderate r : Rabs r <= 16 -> Rabs (rnd r - r) <= ee /\ Rabs (rnd r) < fmax.
Proof.
  intro H. split.
  - eapply Rle_trans; [apply rnd_err|]. pose proof nEta1. rewrite u_val, ee_val in *. lra.
  - apply fmax_big. eapply Rle_trans; [exact H|]. change 16 with (bpow radix2 4). apply bpow_le. lia.
Qed.

Lemma app_bound x r d : app x r d -> Rabs (fval x) <= Rabs r + d.
Proof.
  intros [_ H]. replace (fval x) with ((fval x - r) + r) by ring. eapply Rle_trans; [apply Rabs_triang|]. lra.
Qed.
Lemma app_add x y r s dx dy : app x r dx -> app y s dy -> Rabs r + Rabs s + dx + dy <= 16 ->
  app (f_add x y) (r + s) (dx + dy + ee).
Proof.
  intros [Vx Hx] [Vy Hy] B.
  assert (M : Rabs (fval x + fval y) <= 16).
  { eapply Rle_trans; [apply Rabs_triang|]. pose proof (app_bound x r dx (conj Vx Hx)). pose proof (app_bound y s dy (conj Vy Hy)). lra. }
  destruct (rnd_moderate _ M) as [E F]. destruct (add_val x y Vx Vy F) as [V W]. split; [exact V|]. rewrite W.
  replace (rnd (fval x + fval y) - (r + s)) with ((rnd (fval x + fval y) - (fval x + fval y)) + ((fval x - r) + (fval y - s))) by ring.
  eapply Rle_trans; [apply Rabs_triang|]. pose proof (Rabs_triang (fval x - r) (fval y - s)). lra.
Qed.
Lemma app_sub x y r s dx dy : app x r dx -> app y s dy -> Rabs r + Rabs s + dx + dy <= 16 ->
  app (f_sub x y) (r - s) (dx + dy + ee).
Proof.
  intros [Vx Hx] [Vy Hy] B.
  assert (M : Rabs (fval x - fval y) <= 16).
  { unfold Rminus. eapply Rle_trans; [apply Rabs_triang|]. rewrite Rabs_Ropp.
    pose proof (app_bound x r dx (conj Vx Hx)). pose proof (app_bound y s dy (conj Vy Hy)). lra. }
  destruct (rnd_moderate _ M) as [E F]. destruct (sub_val x y Vx Vy F) as [V W]. split; [exact V|]. rewrite W.
  replace (rnd (fval x - fval y) - (r - s)) with ((rnd (fval x - fval y) - (fval x - fval y)) + ((fval x - r) + - (fval y - s))) by ring.
  eapply Rle_trans; [apply Rabs_triang|]. pose proof (Rabs_triang (fval x - r) (- (fval y - s))) as T. rewrite Rabs_Ropp in T. lra.
Qed.
Lemma app_mul x y r s dx dy Br Bs D : app x r dx -> app y s dy -> Rabs r <= Br -> Rabs s <= Bs ->
  (Br + dx) * (Bs + dy) <= 16 -> (Br + dx) * dy + Bs * dx + ee <= D ->
  app (f_mul x y) (r * s) D.
Proof.
  intros [Vx Hx] [Vy Hy] HBr HBs B HD.
  pose proof (app_bound x r dx (conj Vx Hx)) as Bx. pose proof (app_bound y s dy (conj Vy Hy)) as By.
  pose proof (Rabs_pos (fval x)) as P1. pose proof (Rabs_pos (fval y)) as P2. pose proof (Rabs_pos r) as P3. pose proof (Rabs_pos s) as P4.
  pose proof (Rabs_pos (fval x - r)) as P5. pose proof (Rabs_pos (fval y - s)) as P6.
  assert (M : Rabs (fval x * fval y) <= 16).
  { rewrite Rabs_mult. eapply Rle_trans; [|exact B]. apply Rmult_le_compat; lra. }
  destruct (rnd_moderate _ M) as [E F]. destruct (mul_val x y Vx Vy F) as [V W]. split; [exact V|]. rewrite W.
  replace (rnd (fval x * fval y) - r * s) with ((rnd (fval x * fval y) - fval x * fval y) + (fval x * (fval y - s) + s * (fval x - r))) by ring.
  eapply Rle_trans; [apply Rabs_triang|]. pose proof (Rabs_triang (fval x * (fval y - s)) (s * (fval x - r))) as T.
  rewrite !Rabs_mult in T.
  assert (Rabs (fval x) * Rabs (fval y - s) <= (Br + dx) * dy) by (apply Rmult_le_compat; lra).
  assert (Rabs s * Rabs (fval x - r) <= Bs * dx) by (apply Rmult_le_compat; lra). lra.
Qed.
Lemma app_exact x : vfin x -> app x (fval x) 0.
Proof. intro V. split; [exact V|]. rewrite Rminus_diag_eq by reflexivity. rewrite Rabs_R0. lra. Qed.
Lemma app_weak x r d d' : app x r d -> d <= d' -> app x r d'.
Proof. intros [V H] ?. split; [exact V|lra]. Qed.

Section Rot.
(** components of the spin and of the normalised field, cosine and sine *)
Context (s1 s2 s3 f1 f2 f3 dc ds : f64).
Notation S1 := (fval s1). Notation S2 := (fval s2). Notation S3 := (fval s3).
Notation F1 := (fval f1). Notation F2 := (fval f2). Notation F3 := (fval f3).
Notation C := (fval dc). Notation D := (fval ds).
Context (Vs1 : vfin s1) (Vs2 : vfin s2) (Vs3 : vfin s3) (Vf1 : vfin f1) (Vf2 : vfin f2) (Vf3 : vfin f3) (Vc : vfin dc) (Vd : vfin ds).
Context (Hs : 7 / 8 <= S1 * S1 + S2 * S2 + S3 * S3 <= 9 / 8) (Hf : 1 - 8 * u <= F1 * F1 + F2 * F2 + F3 * F3 <= 1 + 8 * u).
Context (HC : Rabs C <= 1) (HD : Rabs D <= 1) (HCD : 1 / 2 <= C * C + D * D).

Definition axp_ := f_add (f_add (f_add (f_ofZ 0) (f_mul s1 f1)) (f_mul s2 f2)) (f_mul s3 f3).
Definition SF : R := S1 * F1 + S2 * F2 + S3 * F3.

Lemma abs_of_sq v B : 0 <= B -> v * v <= B * B -> Rabs v <= B.
Proof. intros HB H. apply Rnot_lt_le. intro K. assert (B * B < Rabs v * Rabs v) by nra.
  rewrite <- Rabs_mult, Rabs_pos_eq in H0 by nra. lra. Qed.

Lemma SB : Rabs S1 <= 11 / 10 /\ Rabs S2 <= 11 / 10 /\ Rabs S3 <= 11 / 10.
Proof. repeat split; apply abs_of_sq; nra. Qed.
Lemma FB : Rabs F1 <= 101 / 100 /\ Rabs F2 <= 101 / 100 /\ Rabs F3 <= 101 / 100.
Proof. rewrite u_val in Hf. repeat split; apply abs_of_sq; nra. Qed.
Lemma prod_app s f : vfin s -> vfin f -> Rabs (fval s) <= 11 / 10 -> Rabs (fval f) <= 101 / 100 ->
  app (f_mul s f) (fval s * fval f) ee /\ Rabs (fval s * fval f) <= 12 / 10.
Proof.
  intros V1 V2 B1 B2. split.
  - apply (app_mul _ _ _ _ 0 0 (11 / 10) (101 / 100)); auto using app_exact; lra.
  - rewrite Rabs_mult. pose proof (Rabs_pos (fval s)). pose proof (Rabs_pos (fval f)). nra.
Qed.
Lemma ee_small : 0 < ee < / 1000000. Proof. rewrite ee_val. lra. Qed.

Lemma SF_bound : Rabs SF <= 12 / 10.
Proof.
  apply abs_of_sq; [lra|]. unfold SF. rewrite u_val in Hf.
  assert (CS : (S1 * F1 + S2 * F2 + S3 * F3) * (S1 * F1 + S2 * F2 + S3 * F3) <= (S1 * S1 + S2 * S2 + S3 * S3) * (F1 * F1 + F2 * F2 + F3 * F3)).
  { pose proof (Rle_0_sqr (S1 * F2 - S2 * F1)). pose proof (Rle_0_sqr (S1 * F3 - S3 * F1)). pose proof (Rle_0_sqr (S2 * F3 - S3 * F2)). unfold Rsqr in *. lra. }
  assert ((S1 * S1 + S2 * S2 + S3 * S3) * (F1 * F1 + F2 * F2 + F3 * F3) <= 9 / 8 * (1 + 8 * / 9007199254740992)) by (apply Rmult_le_compat; nra).
  lra.
Qed.

Lemma axp_app : app axp_ SF (6 * ee).
Proof.
  destruct SB as (B1 & B2 & B3). destruct FB as (G1 & G2 & G3). pose proof ee_small as E.
  destruct (prod_app s1 f1) as [P1 Q1]; auto. destruct (prod_app s2 f2) as [P2 Q2]; auto. destruct (prod_app s3 f3) as [P3 Q3]; auto.
  destruct (ofZ_val 0 ltac:(lia)) as [V0 E0].
  assert (A0 : app (f_ofZ 0) 0 0) by (rewrite <- E0; now apply app_exact).
  assert (A1 := app_add _ _ _ _ _ _ A0 P1 ltac:(rewrite Rabs_R0; lra)). rewrite Rplus_0_l in A1.
  assert (A2 := app_add _ _ _ _ _ _ A1 P2 ltac:(lra)).
  pose proof (Rabs_triang (S1 * F1) (S2 * F2)).
  assert (A3 := app_add _ _ _ _ _ _ A2 P3 ltac:(lra)).
  apply (app_weak _ _ _ _ A3). lra.
Qed.

(** one component of the rotated vector: spin component s, field component f, the two others crossed *)
Definition comp_ (s f fa sb fb sa : f64) : f64 :=
  f_sub (f_add (f_mul s dc) (f_mul (f_mul f axp_) (f_sub (f_ofZ 1) dc)))
        (f_mul (f_sub (f_mul fa sb) (f_mul fb sa)) ds).
Definition Rcomp (s f fa sb fb sa : R) : R := s * C + f * SF * (1 - C) - (fa * sb - fb * sa) * D.

Lemma comp_app s f fa sb fb sa : vfin s -> vfin f -> vfin fa -> vfin sb -> vfin fb -> vfin sa ->
  Rabs (fval s) <= 11 / 10 -> Rabs (fval f) <= 101 / 100 -> Rabs (fval fa) <= 101 / 100 -> Rabs (fval sb) <= 11 / 10 ->
  Rabs (fval fb) <= 101 / 100 -> Rabs (fval sa) <= 11 / 10 ->
  app (comp_ s f fa sb fb sa) (Rcomp (fval s) (fval f) (fval fa) (fval sb) (fval fb) (fval sa)) (40 * ee) /\
  Rabs (Rcomp (fval s) (fval f) (fval fa) (fval sb) (fval fb) (fval sa)) <= 7.
Proof.
  intros Vs Vf Vfa Vsb Vfb Vsa Bs Bf Bfa Bsb Bfb Bsa. pose proof ee_small as E.
  assert (T1 : app (f_mul s dc) (fval s * C) ee).
  { apply (app_mul _ _ _ _ 0 0 (11 / 10) 1); auto using app_exact; lra. }
  assert (T1b : Rabs (fval s * C) <= 11 / 10).
  { rewrite Rabs_mult. pose proof (Rabs_pos (fval s)). pose proof (Rabs_pos C). nra. }
  pose proof axp_app as AX. pose proof SF_bound as BX.
  assert (T2 : app (f_mul f axp_) (fval f * SF) (8 * ee)).
  { apply (app_mul _ _ _ _ 0 (6 * ee) (101 / 100) (12 / 10)); auto using app_exact; lra. }
  assert (T2b : Rabs (fval f * SF) <= 13 / 10).
  { rewrite Rabs_mult. pose proof (Rabs_pos (fval f)). pose proof (Rabs_pos SF). nra. }
  destruct (ofZ_val 1 ltac:(lia)) as [V1 E1].
  assert (A1 : app (f_ofZ 1) 1 0) by (rewrite <- E1; now apply app_exact).
  assert (T3 : app (f_sub (f_ofZ 1) dc) (1 - C) (0 + 0 + ee)).
  { apply app_sub; auto using app_exact. rewrite Rabs_R1. lra. }
  assert (T3b : Rabs (1 - C) <= 2).
  { unfold Rminus. eapply Rle_trans; [apply Rabs_triang|]. rewrite Rabs_R1, Rabs_Ropp. lra. }
  assert (T4 : app (f_mul (f_mul f axp_) (f_sub (f_ofZ 1) dc)) (fval f * SF * (1 - C)) (20 * ee)).
  { apply (app_mul _ _ _ _ (8 * ee) (0 + 0 + ee) (13 / 10) 2); auto; rewrite ee_val; lra. }
  assert (T4b : Rabs (fval f * SF * (1 - C)) <= 26 / 10).
  { rewrite Rabs_mult. pose proof (Rabs_pos (fval f * SF)). pose proof (Rabs_pos (1 - C)). nra. }
  assert (T5 := app_add _ _ _ _ _ _ T1 T4 ltac:(lra)).
  destruct (prod_app sb fa) as [P1 Q1]; auto. destruct (prod_app sa fb) as [P2 Q2]; auto.
  rewrite (Rmult_comm (fval sb)) in P1, Q1. rewrite (Rmult_comm (fval sa)) in P2, Q2.
  assert (P1' : app (f_mul fa sb) (fval fa * fval sb) ee).
  { apply (app_mul _ _ _ _ 0 0 (101 / 100) (11 / 10)); auto using app_exact; lra. }
  assert (P2' : app (f_mul fb sa) (fval fb * fval sa) ee).
  { apply (app_mul _ _ _ _ 0 0 (101 / 100) (11 / 10)); auto using app_exact; lra. }
  assert (T6 := app_sub _ _ _ _ _ _ P1' P2' ltac:(lra)).
  assert (T6b : Rabs (fval fa * fval sb - fval fb * fval sa) <= 24 / 10).
  { unfold Rminus. eapply Rle_trans; [apply Rabs_triang|]. rewrite Rabs_Ropp. lra. }
  assert (T7 : app (f_mul (f_sub (f_mul fa sb) (f_mul fb sa)) ds) ((fval fa * fval sb - fval fb * fval sa) * D) (4 * ee)).
  { apply (app_mul _ _ _ _ (ee + ee + ee) 0 (24 / 10) 1); auto using app_exact; lra. }
  assert (T7b : Rabs ((fval fa * fval sb - fval fb * fval sa) * D) <= 24 / 10).
  { rewrite Rabs_mult. pose proof (Rabs_pos (fval fa * fval sb - fval fb * fval sa)). pose proof (Rabs_pos D). nra. }
  pose proof (Rabs_triang (fval s * C) (fval f * SF * (1 - C))) as TT.
  assert (T8 := app_sub _ _ _ _ _ _ T5 T7 ltac:(lra)).
  split; [apply (app_weak _ _ _ _ T8); lra|].
  unfold Rcomp, Rminus at 1. eapply Rle_trans; [apply Rabs_triang|]. rewrite Rabs_Ropp. lra.
Qed.

Notation W1 := (Rcomp S1 F1 F2 S3 F3 S2).
Notation W2 := (Rcomp S2 F2 F3 S1 F1 S3).
Notation W3 := (Rcomp S3 F3 F1 S2 F2 S1).
Lemma W_len : 4 / 10 <= W1 * W1 + W2 * W2 + W3 * W3.
Proof.
  set (n := S1 * S1 + S2 * S2 + S3 * S3) in *. set (p := F1 * F1 + F2 * F2 + F3 * F3) in *. set (a := SF).
  assert (E : W1 * W1 + W2 * W2 + W3 * W3 = C * C * n + D * D * (p * n - a * a) + a * a * ((1 - C) * (1 - C) * p + 2 * C * (1 - C))).
  { unfold Rcomp, n, p, a, SF. ring. }
  rewrite E. pose proof SF_bound as Ba. fold a in Ba.
  assert (A2 : 0 <= a * a <= 144 / 100).
  { split; [nra|]. replace (a * a) with (Rabs a * Rabs a) by (rewrite <- Rabs_mult; apply Rabs_pos_eq; nra).
    pose proof (Rabs_pos a). nra. }
  assert (CS : a * a <= p * n).
  { unfold a, p, n, SF. pose proof (Rle_0_sqr (S1 * F2 - S2 * F1)). pose proof (Rle_0_sqr (S1 * F3 - S3 * F1)). pose proof (Rle_0_sqr (S2 * F3 - S3 * F2)). unfold Rsqr in *. lra. }
  assert (C1 : -1 <= C <= 1) by (unfold Rabs in HC; destruct (Rcase_abs C); lra).
  assert (D1 : -1 <= D <= 1) by (unfold Rabs in HD; destruct (Rcase_abs D); lra).
  clearbody n p a. set (h := p - 1). assert (Hh : -8 * u <= h <= 8 * u) by (unfold h; lra).
  assert (Ep : p = 1 + h) by (unfold h; ring). rewrite Ep in *. clearbody h.
  rewrite u_val in Hh.
  assert (E2 : C * C * n + D * D * ((1 + h) * n - a * a) + a * a * ((1 - C) * (1 - C) * (1 + h) + 2 * C * (1 - C))
    = (C * C + D * D) * (n - a * a) + a * a + h * (D * D * n + a * a * ((1 - C) * (1 - C)))) by ring.
  rewrite E2.
  assert (K0 : 0 <= D * D * n <= 9 / 8) by (split; [apply Rmult_le_pos; nra|]; assert (D * D <= 1) by nra; assert (0 <= D * D) by nra; nra).
  assert (K1 : 0 <= (1 - C) * (1 - C) <= 4) by nra.
  assert (K2 : 0 <= a * a * ((1 - C) * (1 - C)) <= 6) by (split; [apply Rmult_le_pos; lra|]; apply Rle_trans with (144 / 100 * 4); [apply Rmult_le_compat; lra|lra]).
  set (k := D * D * n + a * a * ((1 - C) * (1 - C))) in *. assert (Hk : 0 <= k <= 8) by (unfold k; lra). clearbody k.
  assert (HK : - / 1000000 <= h * k) by nra.
  assert (Q0 : C * C + D * D <= 2) by nra.
  assert (Q1 : n - a * a >= - / 100000) by nra.
  destruct (Rle_lt_dec 0 (n - a * a)) as [P|P].
  - assert ((C * C + D * D) * (n - a * a) >= 1 / 2 * (n - a * a)) by nra. lra.
  - assert ((C * C + D * D) * (n - a * a) >= 2 * (n - a * a)) by nra. lra.
Qed.

Lemma sq_app x r : app x r (40 * ee) -> Rabs r <= 7 -> r * r - / 100000 <= fval x * fval x <= 64.
Proof.
  intros [_ H] B. pose proof ee_small. assert (H' : Rabs (fval x - r) <= 40 * / 281474976710656) by (rewrite ee_val in H; exact H).
  apply Rabs_def2b in H' || idtac.
  assert (P : - (40 * / 281474976710656) <= fval x - r <= 40 * / 281474976710656) by (unfold Rabs in *; destruct (Rcase_abs (fval x - r)); lra).
  assert (Q : -7 <= r <= 7) by (unfold Rabs in B; destruct (Rcase_abs r); lra).
  set (d := fval x - r) in *. replace (fval x) with (r + d) by (unfold d; ring). clearbody d. split; nra.
Qed.

Lemma rot_range :
  let w1 := comp_ s1 f1 f2 s3 f3 s2 in let w2 := comp_ s2 f2 f3 s1 f1 s3 in let w3 := comp_ s3 f3 f1 s2 f2 s1 in
  vfin w1 /\ vfin w2 /\ vfin w3 /\ 1 / 4 <= fval w1 * fval w1 + fval w2 * fval w2 + fval w3 * fval w3 <= 192.
Proof.
  destruct SB as (B1 & B2 & B3). destruct FB as (G1 & G2 & G3). cbv zeta.
  destruct (comp_app s1 f1 f2 s3 f3 s2) as [A1 N1]; auto. destruct (comp_app s2 f2 f3 s1 f1 s3) as [A2 N2]; auto.
  destruct (comp_app s3 f3 f1 s2 f2 s1) as [A3 N3]; auto.
  split; [apply A1|]. split; [apply A2|]. split; [apply A3|].
  pose proof (sq_app _ _ A1 N1). pose proof (sq_app _ _ A2 N2). pose proof (sq_app _ _ A3 N3). pose proof W_len. lra.
Qed.
End Rot.


Definition unnorm (s f : v3 f64) (dc ds : f64) : v3 f64 :=
  let c := comp_ (vx s) (vy s) (vz s) (vx f) (vy f) (vz f) dc ds in
  mk3 (c (vx s) (vx f) (vy f) (vz s) (vz f) (vy s)) (c (vy s) (vy f) (vz f) (vx s) (vx f) (vz s))
      (c (vz s) (vz f) (vx f) (vy s) (vy f) (vx s)).
Lemma rotate_unnorm L s field dt n m :
  nsqrt (F64 L) (sum_sq (F64 L) [vx field; vy field; vz field]) = n ->
  let w := unnorm s (mk3 (f_div (vx field) n) (f_div (vy field) n) (f_div (vz field) n)) (l_cos L (f_mul n dt)) (l_sin L (f_mul n dt)) in
  nsqrt (F64 L) (sum_sq (F64 L) [vx w; vy w; vz w]) = m ->
  rotate (F64 L) s field dt = mk3 (f_div (vx w) m) (f_div (vy w) m) (f_div (vz w) m).
Proof.
  intros <- w <-. subst w. unfold rotate, unnorm, comp_, axp_, arr. cbv zeta. cbn [vx vy vz].
  cbn [num nadd nsub nmul ndiv ncos nsin nofZ F64]. reflexivity.
Qed.

Lemma rotate_near L s field dt : sane L -> near_unit (1 / 8) s -> mid_range field -> is_number dt ->
  Rabs (value dt) <= powerRZ 2 500 -> near_unit (powerRZ 2 (-50)) (rotate (F64 L) s field dt).
Proof.
  intros HL ((Vs1 & Vs2 & Vs3) & Hs) ((Vx & Vy & Vz) & Hl) Vdt Hdt.
  rewrite len2_fval, !pow_bpow in *. rewrite value_fval in Hdt.
  destruct (normalised L (vx field) (vy field) (vz field) Vx Vy Vz ltac:(lra) ltac:(lra)) as (n & Vn & En & Pn & Un & V1 & V2 & V3 & B).
  assert (Hn : fval n <= bpow radix2 451).
  { apply Rnot_lt_le. intro H. assert (bpow radix2 451 * bpow radix2 451 < fval n * fval n) by (pose proof (bpow_gt_0 radix2 451); nra).
    rewrite <- bpow_plus in H0. change (451 + 451)%Z with (2 + 900)%Z in H0. rewrite bpow_plus in H0. change (bpow radix2 2) with 4 in H0.
    rewrite u_val in Un. pose proof (bpow_gt_0 radix2 900). nra. }
  destruct (mul_val n dt Vn Vdt) as [Vd Ed].
  { apply fmax_big. rewrite Rabs_mult, (Rabs_pos_eq (fval n)) by lra.
    apply Rle_trans with (bpow radix2 451 * bpow radix2 500); [apply Rmult_le_compat; auto using Rabs_pos; lra|].
    rewrite <- bpow_plus. apply bpow_le. lia. }
  destruct (HL _ Vd) as (Vc & Vsn & Hc & Hsn & Hcs). rewrite (value_fval (l_cos L _)) in Hc, Hcs. rewrite (value_fval (l_sin L _)) in Hsn, Hcs.
  set (dc := l_cos L (f_mul n dt)) in *. set (ds := l_sin L (f_mul n dt)) in *.
  assert (Hs' : 7 / 8 <= fval (vx s) * fval (vx s) + fval (vy s) * fval (vy s) + fval (vz s) * fval (vz s) <= 9 / 8).
  { unfold Rabs in Hs. destruct (Rcase_abs _) in Hs; lra. }
  destruct (rot_range (vx s) (vy s) (vz s) _ _ _ dc ds Vs1 Vs2 Vs3 V1 V2 V3 Vc Vsn Hs' B Hc Hsn Hcs) as (W1 & W2 & W3 & HW).
  pose (w := unnorm s (mk3 (f_div (vx field) n) (f_div (vy field) n) (f_div (vz field) n)) dc ds).
  destruct (normalised L (vx w) (vy w) (vz w) W1 W2 W3) as (m & Vm & Em & Pm & _ & U1 & U2 & U3 & Bm).
  { eapply Rle_trans; [|exact (proj1 HW)]. apply Rle_trans with (bpow radix2 (-2)); [apply bpow_le; lia|cbn; lra]. }
  { eapply Rle_trans; [exact (proj2 HW)|]. apply Rle_trans with (bpow radix2 8); [cbn; lra|apply bpow_le; lia]. }
  pose proof (rotate_unnorm L s field dt n m En Em) as R. rewrite R.
  split; [split; [exact U1|split; [exact U2|exact U3]]|]. rewrite len2_fval.
  assert (X : forall r, 1 - 8 * u <= r <= 1 + 8 * u -> Rabs (r - 1) <= bpow radix2 (-50)).
  { intros r Hr. rewrite <- pow_bpow, <- u8. apply Rabs_le. lra. }
  apply X. exact Bm.
Qed.

Lemma near_weak d d' v : near_unit d v -> d <= d' -> near_unit d' v.
Proof. intros [H1 H2] H. split; [exact H1|lra]. Qed.
Lemma eps_small : powerRZ 2 (-50) <= 1 / 8.
Proof. rewrite <- u8, u_val. lra. Qed.

Lemma rotations_near L l : sane L ->
  Forall (fun p => mid_range (fst p) /\ is_number (snd p) /\ Rabs (value (snd p)) <= powerRZ 2 500) l ->
  forall s, near_unit (1 / 8) s ->
  let s' := fold_left (fun a p => rotate (F64 L) a (fst p) (snd p)) l s in
  near_unit (1 / 8) s' /\ (l <> [] -> near_unit (powerRZ 2 (-50)) s').
Proof.
  intros HL. induction l as [|p l IH] using rev_ind; intros Hf s Hs; cbv zeta.
  - split; [exact Hs|]. intros H; now elim H.
  - rewrite fold_left_app. cbn [fold_left]. apply Forall_app in Hf. destruct Hf as [Hl Hp]. inversion Hp; subst.
    destruct (IH Hl s Hs) as [I _]. cbv zeta in I.
    assert (N : near_unit (powerRZ 2 (-50)) (rotate (F64 L) (fold_left (fun a p => rotate (F64 L) a (fst p) (snd p)) l s) (fst p) (snd p))).
    { apply rotate_near; tauto. }
    split; [apply (near_weak _ _ _ N eps_small)|auto].
Qed.
