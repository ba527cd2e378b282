(** One rotation in binary64 is close to the exact one. *)
From Coq Require Import ZArith Reals List Lia Lra Psatz Bool.
From Coq Require Import Floats.SpecFloat.
From Flocq Require Import Core.
From Verif Require Import Num Monad NumR NumF64 SpecVec Spin SpecRound SpecClose ProofsFlocq ProofsRound
  ProofsSpin ProofsEnergy ProofsDrive ProofsOrder ProofsTurn.
Import ListNotations.
Local Open Scope R_scope.

Lemma u50 : powerRZ 2 (-50) = 8 * u. Proof. symmetry. apply u8. Qed.
Lemma eta_u : 0 < eta <= / 1000000 * u.
Proof. split; [apply eta_pos|]. pose proof nEta1. rewrite u_val in *. lra. Qed.

Lemma cos_lip x y : Rabs (cos x - cos y) <= Rabs (x - y).
Proof.
  pose proof (mvt_bound cos (fun c => - sin c) y x 1 derivable_pt_lim_cos) as H. rewrite Rmult_1_l in H. apply H.
  intro c. rewrite Rabs_Ropp. apply sin_abs1.
Qed.
Lemma cos_abs1 x : Rabs (cos x) <= 1.
Proof. apply Rabs_le. apply COS_bound. Qed.
Lemma sin_lip x y : Rabs (sin x - sin y) <= Rabs (x - y).
Proof.
  pose proof (mvt_bound sin cos y x 1 derivable_pt_lim_sin) as H. rewrite Rmult_1_l in H. apply H.
  intro c. apply cos_abs1.
Qed.

Lemma accurate_sane L : accurate L -> sane L.
Proof.
  intros H x Hx. destruct (H x Hx) as (A & B & C & D & E & F). repeat split; try apply A; try apply B; auto.
  rewrite u50, u_val in E, F. pose proof (sin2_cos2 (value x)) as P. unfold Rsqr in P.
  pose proof (cos_abs1 (value x)) as C1. pose proof (sin_abs1 (value x)) as S1.
  apply Rabs_le_inv in E, F, C1, S1, C, D. nra.
Qed.

(** the computed length of a vector and its computed direction *)
Section Dir.
Context (L : libm) (v : v3 f64) (Hv : mid_range v).
Notation a := (vvalue v).
Notation N := (norm a).

Lemma N_pos : 0 < N.
Proof.
  apply norm_pos. intro E. destruct Hv as [_ [H _]]. unfold len2 in H. rewrite E in H.
  replace (dot vzero vzero) with 0 in H by (unfold dot; cbn; ring). rewrite pow_bpow in H. pose proof (bpow_gt_0 radix2 (-900)). lra.
Qed.
Lemma dir_val : exists n, nsqrt (F64 L) (sum_sq (F64 L) [vx v; vy v; vz v]) = n /\ vfin n /\ 0 < fval n /\
  Rabs (fval n - N) <= 52 / 10 * u * N /\
  app (f_div (vx v) n) (vx a / N) ee /\ app (f_div (vy v) n) (vy a / N) ee /\ app (f_div (vz v) n) (vz a / N) ee.
Proof.
  pose proof N_pos as NP. destruct Hv as ((Hx & Hy & Hz) & Hl). rewrite len2_fval, !pow_bpow in Hl.
  destruct (norm_val L (vx v) (vy v) (vz v) Hx Hy Hz ltac:(lra) ltac:(lra)) as (n & Vn & En & Pn & B).
  assert (EA : fval (vx v) * fval (vx v) + fval (vy v) * fval (vy v) + fval (vz v) * fval (vz v) = N * N).
  { rewrite norm_sq, <- len2_fval. reflexivity. }
  rewrite EA in B.
  assert (D : Rabs (fval n - N) <= 52 / 10 * u * N).
  { assert (0 < u) by (rewrite u_val; lra). apply Rabs_le.
    assert (Q : - (52 / 10 * u * (N * N)) <= (fval n - N) * (fval n + N) <= 52 / 10 * u * (N * N)) by (split; lra).
    set (d := fval n - N) in *. assert (En' : fval n + N = d + 2 * N) by (unfold d; ring). assert (Dn : d + N > 0) by (unfold d; lra).
    rewrite En' in Q. replace (d * (d + 2 * N)) with (d * (d + N) + d * N) in Q by ring.
    assert (c0 : 0 < 52 / 10 * u * N) by (repeat apply Rmult_lt_0_compat; lra).
    split; apply Rnot_lt_le; intro K.
    - pose proof (Rmult_lt_compat_r N _ _ NP K). assert (d * (d + N) <= 0) by nra. lra.
    - pose proof (Rmult_lt_compat_r N _ _ NP K). assert (0 <= d * (d + N)) by (apply Rmult_le_pos; lra). lra. }
  exists n. split; [exact En|]. split; [exact Vn|]. split; [exact Pn|]. split; [exact D|].
  destruct (comp_le_norm a) as (Ca & Cb & Cc).
  assert (Q : forall w, vfin w -> Rabs (value w) <= N -> app (f_div w n) (value w / N) ee).
  { intros w Vw Bw. rewrite value_fval in *. set (r := fval w / N).
    assert (Er : fval w = r * N) by (unfold r; field; lra).
    assert (Rr : Rabs r <= 1).
    { apply Rmult_le_reg_r with N; [exact NP|]. rewrite <- (Rabs_pos_eq N) at 1 by lra. rewrite <- Rabs_mult, <- Er. lra. }
    assert (Eq : fval w / fval n - r = r * ((N - fval n) / fval n)) by (rewrite Er; field; lra).
    assert (Dn : Rabs ((N - fval n) / fval n) <= 53 / 10 * u).
    { unfold Rdiv at 1. rewrite Rabs_mult, Rabs_minus_sym, Rabs_inv, (Rabs_pos_eq (fval n)) by lra.
      apply Rmult_le_reg_r with (fval n); [exact Pn|]. rewrite Rmult_assoc, Rinv_l, Rmult_1_r by lra.
      eapply Rle_trans; [exact D|]. apply Rabs_le_inv in D. rewrite u_val in *. nra. }
    assert (D1 : Rabs (fval w / fval n - r) <= 53 / 10 * u).
    { rewrite Eq, Rabs_mult. pose proof (Rabs_pos ((N - fval n) / fval n)). pose proof (Rabs_pos r). nra. }
    assert (D2 : Rabs (fval w / fval n) <= 2).
    { replace (fval w / fval n) with ((fval w / fval n - r) + r) by ring. eapply Rle_trans; [apply Rabs_triang|]. rewrite u_val in D1. lra. }
    destruct (comp_val w n Vw Vn Pn D2) as [V E]. split; [exact V|]. rewrite E.
    replace (rnd (fval w / fval n) - r) with ((rnd (fval w / fval n) - fval w / fval n) + (fval w / fval n - r)) by ring.
    eapply Rle_trans; [apply Rabs_triang|]. pose proof (rnd_err (fval w / fval n)). pose proof eta_u. rewrite u_val, ee_val in *. lra. }
  split; [apply (Q (vx v) Hx Ca)|split; [apply (Q (vy v) Hy Cb)|apply (Q (vz v) Hz Cc)]].
Qed.
End Dir.

Section Comp.
(** exact spin components, approximate direction, cosine and sine *)
Context (s1 s2 s3 f1 f2 f3 dc ds : f64) (F1 F2 F3 C D g : R).
Notation S1 := (fval s1). Notation S2 := (fval s2). Notation S3 := (fval s3).
Context (Vs1 : vfin s1) (Vs2 : vfin s2) (Vs3 : vfin s3).
Context (Af1 : app f1 F1 ee) (Af2 : app f2 F2 ee) (Af3 : app f3 F3 ee) (Ac : app dc C g) (Ad : app ds D g).
Context (Hg : 0 <= g <= / 1000000).
Context (Hs : S1 * S1 + S2 * S2 + S3 * S3 <= 101 / 100) (Hf : F1 * F1 + F2 * F2 + F3 * F3 = 1).
Context (HC : Rabs C <= 1) (HD : Rabs D <= 1).

Lemma SBc : Rabs S1 <= 11 / 10 /\ Rabs S2 <= 11 / 10 /\ Rabs S3 <= 11 / 10.
Proof. repeat split; apply abs_of_sq; nra. Qed.
Lemma FBc : Rabs F1 <= 1 /\ Rabs F2 <= 1 /\ Rabs F3 <= 1.
Proof. repeat split; apply abs_of_sq; nra. Qed.
Definition SFc : R := S1 * F1 + S2 * F2 + S3 * F3.
Lemma SFc_bound : Rabs SFc <= 101 / 100.
Proof.
  apply abs_of_sq; [lra|]. unfold SFc.
  assert (CS : (S1 * F1 + S2 * F2 + S3 * F3) * (S1 * F1 + S2 * F2 + S3 * F3) <= (S1 * S1 + S2 * S2 + S3 * S3) * (F1 * F1 + F2 * F2 + F3 * F3)).
  { pose proof (Rle_0_sqr (S1 * F2 - S2 * F1)). pose proof (Rle_0_sqr (S1 * F3 - S3 * F1)). pose proof (Rle_0_sqr (S2 * F3 - S3 * F2)). unfold Rsqr in *. lra. }
  rewrite Hf in CS. lra.
Qed.
Lemma mul_bound x y bx by_ : Rabs x <= bx -> Rabs y <= by_ -> Rabs (x * y) <= bx * by_.
Proof. intros. rewrite Rabs_mult. apply Rmult_le_compat; auto using Rabs_pos. Qed.
Lemma sf_app s f F : vfin s -> app f F ee -> Rabs (fval s) <= 11 / 10 -> Rabs F <= 1 -> app (f_mul s f) (fval s * F) (3 * ee) /\ Rabs (fval s * F) <= 11 / 10.
Proof.
  intros V A B1 B2. pose proof ee_small as E. split.
  - apply (app_mul _ _ _ _ 0 ee (11 / 10) 1); auto using app_exact; lra.
  - pose proof (mul_bound _ _ _ _ B1 B2). lra.
Qed.
Lemma fs_app s f F : vfin s -> app f F ee -> Rabs (fval s) <= 11 / 10 -> Rabs F <= 1 -> app (f_mul f s) (F * fval s) (3 * ee) /\ Rabs (F * fval s) <= 11 / 10.
Proof.
  intros V A B1 B2. pose proof ee_small as E. split.
  - apply (app_mul _ _ _ _ ee 0 1 (11 / 10)); auto using app_exact; lra.
  - pose proof (mul_bound _ _ _ _ B2 B1). lra.
Qed.
Lemma axp_appc : app (axp_ s1 s2 s3 f1 f2 f3) SFc (12 * ee).
Proof.
  destruct SBc as (B1 & B2 & B3). destruct FBc as (G1 & G2 & G3). pose proof ee_small as E.
  destruct (sf_app s1 f1 F1) as [P1 Q1]; auto. destruct (sf_app s2 f2 F2) as [P2 Q2]; auto. destruct (sf_app s3 f3 F3) as [P3 Q3]; auto.
  destruct (ofZ_val 0 ltac:(lia)) as [V0 E0].
  assert (A0 : app (f_ofZ 0) 0 0) by (rewrite <- E0; now apply app_exact).
  assert (A1 := app_add _ _ _ _ _ _ A0 P1 ltac:(rewrite Rabs_R0; lra)). rewrite Rplus_0_l in A1.
  assert (A2 := app_add _ _ _ _ _ _ A1 P2 ltac:(lra)).
  pose proof (Rabs_triang (S1 * F1) (S2 * F2)).
  assert (A3 := app_add _ _ _ _ _ _ A2 P3 ltac:(lra)).
  apply (app_weak _ _ _ _ A3). lra.
Qed.

Definition Rcompc (s f fa sb fb sa : R) : R := s * C + f * SFc * (1 - C) - (fa * sb - fb * sa) * D.
Lemma comp_appc s f fa sb fb sa F Fa Fb : vfin s -> app f F ee -> app fa Fa ee -> vfin sb -> app fb Fb ee -> vfin sa ->
  Rabs (fval s) <= 11 / 10 -> Rabs F <= 1 -> Rabs Fa <= 1 -> Rabs (fval sb) <= 11 / 10 -> Rabs Fb <= 1 -> Rabs (fval sa) <= 11 / 10 ->
  app (comp_ s1 s2 s3 f1 f2 f3 dc ds s f fa sb fb sa) (Rcompc (fval s) F Fa (fval sb) Fb (fval sa)) (5 * g + 50 * ee).
Proof.
  intros Vs Vf Vfa Vsb Vfb Vsa Bs Bf Bfa Bsb Bfb Bsa. pose proof ee_small as E.
  assert (T1 : app (f_mul s dc) (fval s * C) (11 / 10 * g + ee)).
  { apply (app_mul _ _ _ _ 0 g (11 / 10) 1); auto using app_exact; lra. }
  assert (T1b := mul_bound _ _ _ _ Bs HC).
  pose proof axp_appc as AX. pose proof SFc_bound as BX.
  assert (T2 : app (f_mul f (axp_ s1 s2 s3 f1 f2 f3)) (F * SFc) (16 * ee)).
  { apply (app_mul _ _ _ _ ee (12 * ee) 1 (101 / 100)); auto; rewrite ee_val; lra. }
  assert (T2b := mul_bound _ _ _ _ Bf BX).
  destruct (ofZ_val 1 ltac:(lia)) as [V1 E1].
  assert (A1 : app (f_ofZ 1) 1 0) by (rewrite <- E1; now apply app_exact).
  assert (T3 : app (f_sub (f_ofZ 1) dc) (1 - C) (0 + g + ee)).
  { apply app_sub; auto. rewrite Rabs_R1. lra. }
  assert (T3b : Rabs (1 - C) <= 2).
  { unfold Rminus. eapply Rle_trans; [apply Rabs_triang|]. rewrite Rabs_R1, Rabs_Ropp. lra. }
  assert (T4 : app (f_mul (f_mul f (axp_ s1 s2 s3 f1 f2 f3)) (f_sub (f_ofZ 1) dc)) (F * SFc * (1 - C)) (13 / 10 * g + 35 * ee)).
  { apply (app_mul _ _ _ _ (16 * ee) (0 + g + ee) (12 / 10) 2); auto; try lra; rewrite ee_val; lra. }
  assert (T4b := mul_bound _ _ _ _ T2b T3b).
  assert (T5 := app_add _ _ _ _ _ _ T1 T4 ltac:(lra)).
  destruct (fs_app sb fa Fa) as [P1 Q1]; auto. destruct (fs_app sa fb Fb) as [P2 Q2]; auto.
  assert (T6 := app_sub _ _ _ _ _ _ P1 P2 ltac:(lra)).
  assert (T6b : Rabs (Fa * fval sb - Fb * fval sa) <= 22 / 10).
  { unfold Rminus. eapply Rle_trans; [apply Rabs_triang|]. rewrite Rabs_Ropp. lra. }
  assert (T7 : app (f_mul (f_sub (f_mul fa sb) (f_mul fb sa)) ds) ((Fa * fval sb - Fb * fval sa) * D) (23 / 10 * g + 9 * ee)).
  { apply (app_mul _ _ _ _ (3 * ee + 3 * ee + ee) g (22 / 10) 1); auto; try lra; rewrite ee_val; lra. }
  assert (T7b := mul_bound _ _ _ _ T6b HD).
  pose proof (Rabs_triang (fval s * C) (F * SFc * (1 - C))) as TT.
  assert (T8 := app_sub _ _ _ _ _ _ T5 T7 ltac:(lra)).
  apply (app_weak _ _ _ _ T8). lra.
Qed.
End Comp.

(** normalising a vector that is nearly a unit vector *)
Section Last.
Context (L : libm) (w : v3 f64) (V : vec) (h : R).
Context (A1 : app (vx w) (vx V) h) (A2 : app (vy w) (vy V) h) (A3 : app (vz w) (vz V) h).
Context (Hh : 0 <= h <= / 100000) (HV : Rabs (dot V V - 1) <= 8 * u).

Lemma last_mid : mid_range w /\ Rabs (dot (vvalue w) (vvalue w) - dot V V) <= 4 * h.
Proof.
  destruct A1 as [W1 B1], A2 as [W2 B2], A3 as [W3 B3].
  assert (HV' : 99 / 100 <= dot V V <= 101 / 100) by (apply Rabs_le_inv in HV; rewrite u_val in HV; lra).
  set (p := fval (vx w) - vx V) in *. set (q := fval (vy w) - vy V) in *. set (r := fval (vz w) - vz V) in *.
  assert (Ex : fval (vx w) = vx V + p) by (unfold p; ring). assert (Ey : fval (vy w) = vy V + q) by (unfold q; ring).
  assert (Ez : fval (vz w) = vz V + r) by (unfold r; ring).
  assert (D : Rabs (dot (vvalue w) (vvalue w) - dot V V) <= 4 * h).
  { unfold dot, vvalue; cbn [vx vy vz]. rewrite !value_fval, Ex, Ey, Ez.
    replace ((vx V + p) * (vx V + p) + (vy V + q) * (vy V + q) + (vz V + r) * (vz V + r) - (vx V * vx V + vy V * vy V + vz V * vz V))
      with (2 * (vx V * p + vy V * q + vz V * r) + (p * p + q * q + r * r)) by ring.
    apply Rabs_le_inv in B1, B2, B3. unfold dot in HV'.
    assert (P2 : p * p <= h * h) by nra. assert (Q2 : q * q <= h * h) by nra. assert (R2 : r * r <= h * h) by nra.
    assert (CS : (vx V * p + vy V * q + vz V * r) * (vx V * p + vy V * q + vz V * r) <=
                 (vx V * vx V + vy V * vy V + vz V * vz V) * (p * p + q * q + r * r)).
    { pose proof (Rle_0_sqr (vx V * q - vy V * p)). pose proof (Rle_0_sqr (vx V * r - vz V * p)). pose proof (Rle_0_sqr (vy V * r - vz V * q)). unfold Rsqr in *. lra. }
    set (c := vx V * p + vy V * q + vz V * r) in *. set (k := p * p + q * q + r * r) in *.
    assert (K : 0 <= k <= 3 * (h * h)) by (unfold k; nra).
    assert (C2 : c * c <= 19 / 10 * h * (19 / 10 * h)).
    { eapply Rle_trans; [exact CS|]. apply Rle_trans with (101 / 100 * (3 * (h * h))); [apply Rmult_le_compat; lra|]. nra. }
    assert (C3 : Rabs c <= 19 / 10 * h) by (apply abs_of_sq; [lra|exact C2]).
    apply Rabs_le_inv in C3. assert (h * h <= / 100000 * h) by nra. apply Rabs_le. lra. }
  split; [|exact D]. split; [split; [exact W1|split; [exact W2|exact W3]]|]. unfold len2. rewrite !pow_bpow.
  apply Rabs_le_inv in D. split.
  - apply Rle_trans with (bpow radix2 (-1)); [apply bpow_le; lia|cbn; lra].
  - apply Rle_trans with (bpow radix2 1); [cbn; lra|apply bpow_le; lia].
Qed.

Lemma last_close : exists n, nsqrt (F64 L) (sum_sq (F64 L) [vx w; vy w; vz w]) = n /\
  let v := mk3 (f_div (vx w) n) (f_div (vy w) n) (f_div (vz w) n) in
  near_unit (powerRZ 2 (-50)) v /\ off v V <= 8 * h + 26 * u.
Proof.
  destruct last_mid as [M D]. destruct (new_xyz_near L w M) as (v' & E & NU).
  assert (M' := M). destruct M as ((W1 & W2 & W3) & Hl). rewrite len2_fval, !pow_bpow in Hl.
  destruct (norm_val L _ _ _ W1 W2 W3 ltac:(lra) ltac:(lra)) as (n & Vn & En & Pn & B).
  exists n. split; [exact En|]. cbv zeta. unfold new_xyz in E. rewrite En in E. cbn [idx nth_error bind ndiv F64] in E.
  injection E as <-. split; [exact NU|].
  rewrite <- len2_fval in B. unfold len2 in B. set (W := dot (vvalue w) (vvalue w)) in *.
  apply Rabs_le_inv in D, HV.
  assert (U := u_val).
  assert (N2 : - (4 * h + 14 * u) <= fval n * fval n - 1 <= 4 * h + 14 * u) by (rewrite U in *; nra).
  assert (N1 : 99 / 100 <= fval n <= 101 / 100) by (rewrite U in N2; split; nra).
  assert (N3 : Rabs (fval n - 1) <= 211 / 100 * h + 74 / 10 * u).
  { apply Rabs_le. set (m := fval n - 1) in *. assert (Em : fval n = 1 + m) by (unfold m; ring). rewrite Em in *.
    replace ((1 + m) * (1 + m) - 1) with (m * (2 + m)) in N2 by ring. rewrite U in *. split; nra. }
  assert (Q : forall x r, vfin x -> Rabs (fval x - r) <= h -> Rabs r <= 101 / 100 -> Rabs (value (f_div x n) - r) <= 4 * h + 13 * u).
  { intros x r Vx Bx Br. rewrite value_fval.
    assert (Bx' : Rabs (fval x) <= 102 / 100).
    { replace (fval x) with ((fval x - r) + r) by ring. eapply Rle_trans; [apply Rabs_triang|]. lra. }
    assert (Eq : fval x / fval n - fval x = fval x * ((1 - fval n) * / fval n)) by (field; lra).
    assert (I : 0 < / fval n <= 102 / 100).
    { split; [apply Rinv_0_lt_compat; lra|]. apply Rmult_le_reg_r with (fval n); [lra|]. rewrite Rinv_l by lra. lra. }
    assert (Dq : Rabs (fval x / fval n - fval x) <= 106 / 100 * (211 / 100 * h + 74 / 10 * u)).
    { rewrite Eq, !Rabs_mult, (Rabs_minus_sym 1), (Rabs_pos_eq (/ fval n)) by lra. set (z := Rabs (fval n - 1)) in *.
      assert (0 <= z) by apply Rabs_pos. pose proof (Rabs_pos (fval x)).
      assert (z * / fval n <= (211 / 100 * h + 74 / 10 * u) * (102 / 100)) by (apply Rmult_le_compat; lra).
      apply Rle_trans with (102 / 100 * ((211 / 100 * h + 74 / 10 * u) * (102 / 100))).
      - apply Rmult_le_compat; try lra. apply Rmult_le_pos; lra.
      - rewrite U. lra. }
    assert (D2 : Rabs (fval x / fval n) <= 2).
    { replace (fval x / fval n) with ((fval x / fval n - fval x) + fval x) by ring. eapply Rle_trans; [apply Rabs_triang|]. rewrite U in *. lra. }
    destruct (comp_val x n Vx Vn Pn D2) as [_ E]. rewrite E.
    pose proof (rnd_err (fval x / fval n)) as Er. pose proof eta_u as Et.
    replace (rnd (fval x / fval n) - r) with ((rnd (fval x / fval n) - fval x / fval n) + ((fval x / fval n - fval x) + (fval x - r))) by ring.
    eapply Rle_trans; [apply Rabs_triang|].
    pose proof (Rabs_triang (fval x / fval n - fval x) (fval x - r)) as Tr.
    rewrite U in *. lra. }
  assert (VB : Rabs (vx V) <= 101 / 100 /\ Rabs (vy V) <= 101 / 100 /\ Rabs (vz V) <= 101 / 100).
  { unfold dot in HV. rewrite U in HV. repeat split; apply abs_of_sq; nra. }
  destruct VB as (VB1 & VB2 & VB3).
  unfold off. replace (8 * h + 26 * u) with (2 * (4 * h + 13 * u)) by ring. apply norm_comp.
  split; [|split]; cbn [vsub vvalue vx vy vz]; apply Q; auto; [apply A1|apply A2|apply A3].
Qed.
End Last.

Lemma rotate_close L s field dt : accurate L -> near_unit (powerRZ 2 (-50)) s -> mid_range field -> is_number dt ->
  norm (vvalue field) * Rabs (value dt) <= 1000000 ->
  near_unit (powerRZ 2 (-50)) (rotate (F64 L) s field dt) /\
  off (rotate (F64 L) s field dt) (turn (vvalue s) (vvalue field) (value dt)) <=
    powerRZ 2 (-39) * (1 + norm (vvalue field) * Rabs (value dt)).
Proof.
  intros HL ((Vs1 & Vs2 & Vs3) & Hs) Hf Vdt Hth. set (a := vvalue field) in *. set (N := norm a) in *.
  pose proof (N_pos field Hf) as NP. fold a N in NP.
  destruct (dir_val L field Hf) as (n & En & Vn & Pn & Dn & F1 & F2 & F3). fold a N in Dn, F1, F2, F3.
  rewrite !(value_fval dt) in *. set (th := N * Rabs (fval dt)) in *.
  assert (th0 : 0 <= th) by (unfold th; apply Rmult_le_pos; [lra|apply Rabs_pos]).
  assert (U := u_val).
  assert (Dd : Rabs (fval n * fval dt - N * fval dt) <= 52 / 10 * u * th).
  { replace (fval n * fval dt - N * fval dt) with ((fval n - N) * fval dt) by ring. rewrite Rabs_mult.
    unfold th. rewrite <- Rmult_assoc. apply Rmult_le_compat_r; [apply Rabs_pos|exact Dn]. }
  assert (Bd : Rabs (fval n * fval dt) <= 2 * th).
  { replace (fval n * fval dt) with ((fval n * fval dt - N * fval dt) + N * fval dt) by ring. eapply Rle_trans; [apply Rabs_triang|].
    assert (Rabs (N * fval dt) = th) by (unfold th; rewrite Rabs_mult, (Rabs_pos_eq N) by lra; reflexivity). rewrite U in Dd. lra. }
  destruct (mul_val n dt Vn Vdt) as [Vd Ed].
  { apply fmax_big. apply Rle_trans with (bpow radix2 40); [cbn; lra|apply bpow_le; lia]. }
  assert (Da : Rabs (fval (f_mul n dt) - N * fval dt) <= 73 / 10 * u * th + eta).
  { rewrite Ed. replace (rnd (fval n * fval dt) - N * fval dt) with ((rnd (fval n * fval dt) - fval n * fval dt) + (fval n * fval dt - N * fval dt)) by ring.
    eapply Rle_trans; [apply Rabs_triang|]. pose proof (rnd_err (fval n * fval dt)). rewrite U in *. lra. }
  destruct (HL _ Vd) as (Vc & Vsn & Hc & Hsn & Ec & Es). rewrite u50, !value_fval in Ec, Es.
  set (dc := l_cos L (f_mul n dt)) in *. set (ds := l_sin L (f_mul n dt)) in *.
  pose (g := 9 * u * (1 + th)).
  assert (Ac : app dc (cos (N * fval dt)) g).
  { split; [exact Vc|]. replace (fval dc - cos (N * fval dt)) with ((fval dc - cos (fval (f_mul n dt))) + (cos (fval (f_mul n dt)) - cos (N * fval dt))) by ring.
    eapply Rle_trans; [apply Rabs_triang|]. pose proof (cos_lip (fval (f_mul n dt)) (N * fval dt)). pose proof eta_u. unfold g. rewrite U in *. lra. }
  assert (As : app ds (sin (N * fval dt)) g).
  { split; [exact Vsn|]. replace (fval ds - sin (N * fval dt)) with ((fval ds - sin (fval (f_mul n dt))) + (sin (fval (f_mul n dt)) - sin (N * fval dt))) by ring.
    eapply Rle_trans; [apply Rabs_triang|]. pose proof (sin_lip (fval (f_mul n dt)) (N * fval dt)). pose proof eta_u. unfold g. rewrite U in *. lra. }
  assert (Hg : 0 <= g <= / 1000000) by (unfold g; rewrite U; lra).
  rewrite u50 in Hs. rewrite len2_fval in Hs.
  assert (Hs' : fval (vx s) * fval (vx s) + fval (vy s) * fval (vy s) + fval (vz s) * fval (vz s) <= 101 / 100) by (apply Rabs_le_inv in Hs; rewrite U in Hs; lra).
  assert (UN : unit3 (nrm a)) by (apply nrm_unit; intro Z; unfold N in NP; rewrite Z, norm_vzero in NP; lra).
  assert (Hf1 : vx a / N * (vx a / N) + vy a / N * (vy a / N) + vz a / N * (vz a / N) = 1) by exact UN.
  pose proof (cos_abs1 (N * fval dt)) as HC. pose proof (sin_abs1 (N * fval dt)) as HD.
  destruct (SBc _ _ _ Hs') as (B1 & B2 & B3). destruct (FBc _ _ _ Hf1) as (G1 & G2 & G3).
  pose (CA := comp_appc (vx s) (vy s) (vz s) _ _ _ dc ds _ _ _ _ _ g Vs1 Vs2 Vs3 F1 F2 F3 Ac As Hg Hs' Hf1 HC HD).
  pose (w := unnorm s (mk3 (f_div (vx field) n) (f_div (vy field) n) (f_div (vz field) n)) dc ds).
  set (V := turn (vvalue s) a (fval dt)).
  pose (h := 5 * g + 50 * ee).
  assert (A1 : app (vx w) (vx V) h).
  { replace (vx V) with (Rcompc (vx s) (vy s) (vz s) (vx a / N) (vy a / N) (vz a / N) (cos (N * fval dt)) (sin (N * fval dt))
      (fval (vx s)) (vx a / N) (vy a / N) (fval (vz s)) (vz a / N) (fval (vy s))).
    - apply CA; auto.
    - unfold V, turn, rodr, Rcompc, SFc, dot, cross, nrm, vvalue; cbn [vx vy vz]. rewrite !value_fval. reflexivity. }
  assert (A2 : app (vy w) (vy V) h).
  { replace (vy V) with (Rcompc (vx s) (vy s) (vz s) (vx a / N) (vy a / N) (vz a / N) (cos (N * fval dt)) (sin (N * fval dt))
      (fval (vy s)) (vy a / N) (vz a / N) (fval (vx s)) (vx a / N) (fval (vz s))).
    - apply CA; auto.
    - unfold V, turn, rodr, Rcompc, SFc, dot, cross, nrm, vvalue; cbn [vx vy vz]. rewrite !value_fval. reflexivity. }
  assert (A3 : app (vz w) (vz V) h).
  { replace (vz V) with (Rcompc (vx s) (vy s) (vz s) (vx a / N) (vy a / N) (vz a / N) (cos (N * fval dt)) (sin (N * fval dt))
      (fval (vz s)) (vz a / N) (vx a / N) (fval (vy s)) (vy a / N) (fval (vx s))).
    - apply CA; auto.
    - unfold V, turn, rodr, Rcompc, SFc, dot, cross, nrm, vvalue; cbn [vx vy vz]. rewrite !value_fval. reflexivity. }
  assert (Hh : 0 <= h <= / 100000).
  { unfold h. rewrite ee_val. lra. }
  assert (HV : Rabs (dot V V - 1) <= 8 * u).
  { unfold V. rewrite turn_dot. unfold dot, vvalue; cbn [vx vy vz]. rewrite !value_fval. exact Hs. }
  destruct (last_close L w V h A1 A2 A3 Hh HV) as (m & Em & NU & O).
  pose proof (rotate_unnorm L s field dt n m En Em) as Rt. rewrite Rt.
  split; [exact NU|]. eapply Rle_trans; [exact O|]. rewrite pow_bpow. unfold h, g. rewrite ee_val, U.
  replace (bpow radix2 (-39)) with (/ 549755813888) by (cbn; lra). lra.
Qed.
