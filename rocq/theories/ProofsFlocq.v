(** The binary64 operations of NumF64 (SpecFloat) related to real arithmetic through Flocq. *)
From Coq Require Import ZArith Reals Lia Lra Bool.
From Coq Require Import Floats.SpecFloat.
From Flocq Require Import Core.Core IEEE754.BinarySingleNaN.
From Verif Require Import Num NumF64.
Local Open Scope R_scope.

#[export] Instance fprec_gt_0 : Prec_gt_0 fprec := eq_refl.
#[export] Instance fprec_lt_emax : Prec_lt_emax fprec femax := eq_refl.

Notation bf := (binary_float fprec femax).
Definition fval (x : f64) : R := SF2R radix2 x.
Definition fvalid (x : f64) : Prop := valid_binary fprec femax x = true.
Definition vfin (x : f64) : Prop := fvalid x /\ f_finite x = true.
Notation ffexp := (SpecFloat.fexp fprec femax).
Definition rnd (r : R) : R := round radix2 ffexp ZnearestE r.
Definition fmax : R := bpow radix2 femax.

#[export] Instance ffexp_valid : Valid_exp ffexp := fexp_correct fprec femax _.
#[export] Instance ffexp_mono : Monotone_exp ffexp := fexp_monotone fprec femax.

(** every valid number is the image of a Flocq number *)
Lemma fvalid_B x : fvalid x -> exists b : bf, x = B2SF b.
Proof. intro H. exists (SF2B x H). symmetry. apply B2SF_SF2B. Qed.
Lemma B_fvalid (b : bf) : fvalid (B2SF b).
Proof. apply valid_binary_B2SF. Qed.
Lemma B_fval (b : bf) : fval (B2SF b) = B2R b.
Proof. apply SF2R_B2SF. Qed.
Lemma B_fin (b : bf) : f_finite (B2SF b) = is_finite b.
Proof. destruct b; reflexivity. Qed.
Lemma B_vfin (b : bf) : is_finite b = true -> vfin (B2SF b).
Proof. split; [apply B_fvalid|]. now rewrite B_fin. Qed.

(** rounding functions agree *)
Lemma rne_eq s m l : round_nearest_even m l = choice_mode mode_NE s m l.
Proof. destruct l as [|c]; [reflexivity|]. destruct c; try reflexivity. cbn. unfold Round.cond_incr. now destruct (Z.even m). Qed.
Lemma round_aux_eq sx mx ex lx :
  SpecFloat.binary_round_aux fprec femax sx mx ex lx = binary_round_aux fprec femax mode_NE sx mx ex lx.
Proof.
  unfold SpecFloat.binary_round_aux, binary_round_aux. destruct (shr_fexp _ _ _ _ _) as [a b].
  now rewrite (rne_eq sx).
Qed.
Lemma round_eq s m e : SpecFloat.binary_round fprec femax s m e = binary_round fprec femax mode_NE s m e.
Proof. unfold SpecFloat.binary_round, binary_round, shl_align_fexp. destruct (shl_align _ _ _). apply round_aux_eq. Qed.
Lemma normalize_eq m e z :
  SpecFloat.binary_normalize fprec femax m e z =
  B2SF (binary_normalize fprec femax fprec_gt_0 fprec_lt_emax mode_NE m e z).
Proof. destruct m; cbn; [reflexivity| |]; rewrite B2SF_SF2B; apply round_eq. Qed.

Lemma mul_B (x y : bf) : f_mul (B2SF x) (B2SF y) = B2SF (Bmult mode_NE x y).
Proof.
  destruct x, y; try reflexivity. cbn. rewrite B2SF_SF2B. apply round_aux_eq.
Qed.
Lemma add_B (x y : bf) : f_add (B2SF x) (B2SF y) = B2SF (Bplus mode_NE x y).
Proof.
  destruct x as [sx|sx| |sx mx ex Hx], y as [sy|sy| |sy my ey Hy]; try reflexivity;
    try (destruct sx, sy; reflexivity). apply normalize_eq.
Qed.
Lemma sub_B (x y : bf) : f_sub (B2SF x) (B2SF y) = B2SF (Bminus mode_NE x y).
Proof.
  destruct x as [sx|sx| |sx mx ex Hx], y as [sy|sy| |sy my ey Hy]; try reflexivity;
    try (destruct sx, sy; reflexivity).
  unfold f_sub, SFsub. cbn [B2SF Bminus].
  unfold Zminus. rewrite <- cond_Zopp_negb. apply normalize_eq.
Qed.
Lemma div_B (x y : bf) : f_div (B2SF x) (B2SF y) = B2SF (Bdiv mode_NE x y).
Proof.
  destruct x as [sx|sx| |sx mx ex Hx], y as [sy|sy| |sy my ey Hy]; try reflexivity.
  unfold f_div, SFdiv. cbn [B2SF Bdiv]. rewrite B2SF_SF2B.
  destruct (SFdiv_core_binary _ _ _ _ _ _) as [[mz ez] lz]. apply round_aux_eq.
Qed.
Lemma sqrt_B (x : bf) : f_sqrt (B2SF x) = B2SF (Bsqrt mode_NE x).
Proof.
  destruct x as [sx|sx| |sx mx ex Hx]; try (destruct sx; reflexivity); try reflexivity.
  destruct sx; [reflexivity|]. unfold f_sqrt, SFsqrt. cbn [B2SF Bsqrt]. rewrite B2SF_SF2B.
  destruct (SFsqrt_core_binary _ _ _ _) as [[mz ez] lz]. apply round_aux_eq.
Qed.
Lemma opp_B (x : bf) : SFopp (B2SF x) = B2SF (Bopp x).
Proof. destruct x; reflexivity. Qed.

Lemma vfin_B x : vfin x -> exists b : bf, x = B2SF b /\ is_finite b = true.
Proof. intros [V F]. destruct (fvalid_B x V) as [b ->]. exists b. split; [reflexivity|]. now rewrite <- B_fin. Qed.

Lemma not_fin_overflow m s : f_finite (binary_overflow fprec femax m s) = true -> m <> mode_NE.
Proof. intros H ->. discriminate H. Qed.

Ltac rl H := match type of H with
  | if Rlt_bool ?a ?b then _ else _ => destruct (Rlt_bool_spec a b) end.

Section Ops.
Implicit Types x y : f64.
Lemma add_val x y : vfin x -> vfin y -> Rabs (rnd (fval x + fval y)) < fmax ->
  vfin (f_add x y) /\ fval (f_add x y) = rnd (fval x + fval y).
Proof.
  intros (a & -> & Fa)%vfin_B (b & -> & Fb)%vfin_B. rewrite !B_fval, add_B.
  pose proof (Bplus_correct fprec femax _ _ mode_NE a b Fa Fb) as H. intro L.
  rl H; [|exfalso; unfold rnd, fmax in *; cbn [round_mode] in *; lra].
  destruct H as (E & F & _). split; [now apply B_vfin|]. rewrite B_fval. exact E.
Qed.
Lemma add_fin x y : vfin x -> vfin y -> f_finite (f_add x y) = true ->
  vfin (f_add x y) /\ fval (f_add x y) = rnd (fval x + fval y).
Proof.
  intros (a & -> & Fa)%vfin_B (b & -> & Fb)%vfin_B. rewrite !B_fval, add_B.
  pose proof (Bplus_correct fprec femax _ _ mode_NE a b Fa Fb) as H. intro L.
  rl H.
  - destruct H as (E & F & _). split; [now apply B_vfin|]. rewrite B_fval. exact E.
  - destruct H as [H _]. rewrite H in L. now apply not_fin_overflow in L.
Qed.
Lemma sub_val x y : vfin x -> vfin y -> Rabs (rnd (fval x - fval y)) < fmax ->
  vfin (f_sub x y) /\ fval (f_sub x y) = rnd (fval x - fval y).
Proof.
  intros (a & -> & Fa)%vfin_B (b & -> & Fb)%vfin_B. rewrite !B_fval, sub_B.
  pose proof (Bminus_correct fprec femax _ _ mode_NE a b Fa Fb) as H. intro L.
  rl H; [|exfalso; unfold rnd, fmax in *; cbn [round_mode] in *; lra].
  destruct H as (E & F & _). split; [now apply B_vfin|]. rewrite B_fval. exact E.
Qed.
Lemma mul_val x y : vfin x -> vfin y -> Rabs (rnd (fval x * fval y)) < fmax ->
  vfin (f_mul x y) /\ fval (f_mul x y) = rnd (fval x * fval y).
Proof.
  intros (a & -> & Fa)%vfin_B (b & -> & Fb)%vfin_B. rewrite !B_fval, mul_B.
  pose proof (Bmult_correct fprec femax _ _ mode_NE a b) as H. intro L.
  rl H; [|exfalso; unfold rnd, fmax in *; cbn [round_mode] in *; lra].
  destruct H as (E & F & _). rewrite Fa, Fb in F. split; [now apply B_vfin|]. rewrite B_fval. exact E.
Qed.
Lemma div_val x y : vfin x -> vfin y -> fval y <> 0 -> Rabs (rnd (fval x / fval y)) < fmax ->
  vfin (f_div x y) /\ fval (f_div x y) = rnd (fval x / fval y).
Proof.
  intros (a & -> & Fa)%vfin_B (b & -> & Fb)%vfin_B. rewrite !B_fval, div_B. intro Hy.
  pose proof (Bdiv_correct fprec femax _ _ mode_NE a b Hy) as H. intro L.
  rl H; [|exfalso; unfold rnd, fmax in *; cbn [round_mode] in *; lra].
  destruct H as (E & F & _). rewrite Fa in F. split; [now apply B_vfin|]. rewrite B_fval. exact E.
Qed.
Lemma sqrt_val x : vfin x -> 0 <= fval x -> vfin (f_sqrt x) /\ fval (f_sqrt x) = rnd (sqrt (fval x)).
Proof.
  intros (a & -> & Fa)%vfin_B. rewrite B_fval, sqrt_B. intro Hy.
  destruct (Bsqrt_correct fprec femax _ _ mode_NE a) as (E & F & _).
  assert (is_finite (Bsqrt mode_NE a) = true).
  { rewrite F. destruct a as [s|s| |s mm e He]; try reflexivity; try discriminate Fa.
    destruct s; [|reflexivity]. exfalso.
    apply (Rlt_not_le _ _ (F2R_lt_0 radix2 (Float radix2 (Z.neg mm) e) ltac:(cbn; lia))). exact Hy. }
  split; [now apply B_vfin|]. rewrite B_fval. exact E.
Qed.
Lemma ltb_val x y : vfin x -> vfin y -> (SFltb x y = true <-> fval x < fval y).
Proof.
  intros (a & -> & Fa)%vfin_B (b & -> & Fb)%vfin_B. rewrite !B_fval.
  change (SFltb (B2SF a) (B2SF b)) with (Bltb a b). rewrite Bltb_correct by assumption.
  destruct (Rlt_bool_spec (B2R a) (B2R b)); split; intro; auto; try discriminate. lra.
Qed.
Lemma opp_val x : vfin x -> vfin (SFopp x) /\ fval (SFopp x) = - fval x.
Proof.
  intros (a & -> & Fa)%vfin_B. rewrite opp_B, !B_fval, B2R_Bopp. split; [|reflexivity].
  apply B_vfin. now rewrite is_finite_Bopp.
Qed.
Lemma abs_val x : vfin x -> vfin (SFabs x) /\ fval (SFabs x) = Rabs (fval x).
Proof.
  intros (a & -> & Fa)%vfin_B. assert (E : SFabs (B2SF a) = B2SF (Babs a)) by (destruct a; reflexivity).
  rewrite E, !B_fval, B2R_Babs. split; [|reflexivity]. apply B_vfin. now rewrite is_finite_Babs.
Qed.
(** validity is preserved by every operation *)
Lemma valid_add x y : fvalid x -> fvalid y -> fvalid (f_add x y).
Proof. intros [a ->]%fvalid_B [b ->]%fvalid_B. rewrite add_B. apply B_fvalid. Qed.
Lemma valid_sub x y : fvalid x -> fvalid y -> fvalid (f_sub x y).
Proof. intros [a ->]%fvalid_B [b ->]%fvalid_B. rewrite sub_B. apply B_fvalid. Qed.
Lemma valid_mul x y : fvalid x -> fvalid y -> fvalid (f_mul x y).
Proof. intros [a ->]%fvalid_B [b ->]%fvalid_B. rewrite mul_B. apply B_fvalid. Qed.
Lemma valid_div x y : fvalid x -> fvalid y -> fvalid (f_div x y).
Proof. intros [a ->]%fvalid_B [b ->]%fvalid_B. rewrite div_B. apply B_fvalid. Qed.
Lemma valid_sqrt x : fvalid x -> fvalid (f_sqrt x).
Proof. intros [a ->]%fvalid_B. rewrite sqrt_B. apply B_fvalid. Qed.
Lemma valid_ofZ z : fvalid (f_ofZ z).
Proof. unfold f_ofZ. rewrite normalize_eq. apply B_fvalid. Qed.
End Ops.

(** exact cases *)
Lemma rnd_exact (m e : Z) : (Z.abs m < 2 ^ 53)%Z -> (-1074 <= e)%Z -> rnd (F2R (Float radix2 m e)) = F2R (Float radix2 m e).
Proof.
  intros Hm He. apply round_generic; [apply valid_rnd_N|].
  apply (generic_format_FLT radix2 (-1074) 53). exists (Float radix2 m e); auto.
Qed.
Lemma rnd_IZR z : (Z.abs z < 2 ^ 53)%Z -> rnd (IZR z) = IZR z.
Proof.
  intro H. pose proof (rnd_exact z 0 H ltac:(lia)) as E. unfold F2R in E; cbn in E. rewrite Rmult_1_r in E. exact E.
Qed.
Lemma IZR_lt_fmax z : (Z.abs z < 2 ^ 53)%Z -> Rabs (IZR z) < fmax.
Proof.
  intro H. rewrite <- abs_IZR. unfold fmax. apply Rlt_trans with (bpow radix2 53).
  - rewrite <- IZR_Zpower by lia. now apply IZR_lt.
  - apply bpow_lt. reflexivity.
Qed.
Lemma ofZ_val z : (Z.abs z < 2 ^ 53)%Z -> vfin (f_ofZ z) /\ fval (f_ofZ z) = IZR z.
Proof.
  intro H. unfold f_ofZ. rewrite normalize_eq.
  pose proof (binary_normalize_correct fprec femax _ _ mode_NE z 0 false) as C. cbv zeta in C.
  assert (Ez : F2R (Float radix2 z 0) = IZR z) by (unfold F2R; cbn; ring). rewrite Ez in C.
  assert (R : round radix2 ffexp (round_mode mode_NE) (IZR z) = IZR z) by exact (rnd_IZR z H).
  rewrite R in C. pose proof (IZR_lt_fmax z H) as L. rl C; [|unfold fmax in *; lra].
  destruct C as (E & F & _). split; [now apply B_vfin|]. now rewrite B_fval.
Qed.

(** truncation *)
Lemma tou64_val x : vfin x -> 0 <= fval x -> fval x < IZR (2 ^ 64) -> f_tou64 x = Zfloor (fval x).
Proof.
  intros [V F] Hp Hl. destruct x as [s|s| |s m e]; try discriminate F.
  - cbn. unfold fval; cbn. now rewrite Zfloor_IZR.
  - destruct s.
    + exfalso. apply (Rlt_not_le _ _ (F2R_lt_0 radix2 (Float radix2 (Z.neg m) e) ltac:(cbn; lia))). exact Hp.
    + unfold f_tou64.
      assert (E : Zfloor (fval (S754_finite false m e)) =
        match e with Z.neg p => (Z.pos m / 2 ^ Z.pos p)%Z | _ => (Z.pos m * 2 ^ e)%Z end).
      { unfold fval, SF2R, F2R; cbn [Fnum Fexp cond_Zopp]. destruct e as [|p|p].
        - rewrite Z.pow_0_r, Z.mul_1_r. change (bpow radix2 0) with 1. rewrite Rmult_1_r. apply Zfloor_IZR.
        - rewrite <- IZR_Zpower by lia. rewrite <- mult_IZR. apply Zfloor_IZR.
        - rewrite <- (Zfloor_div (Z.pos m) (2 ^ Z.pos p)) by (pose proof (Z.pow_pos_nonneg 2 (Z.pos p)); lia).
          reflexivity. }
      rewrite <- E. apply Z.min_r. apply Zlt_succ_le. replace (Z.succ (2 ^ 64 - 1))%Z with (2 ^ 64)%Z by lia.
      apply lt_IZR. eapply Rle_lt_trans; [apply Zfloor_lb|exact Hl].
Qed.
