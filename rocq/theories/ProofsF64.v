(** Facts about the binary64 operations of SpecFloat: NaN absorbs, zero vectors, comparison. *)
From Coq Require Import ZArith List Bool Lia.
From Coq Require Import Floats.SpecFloat.
From Verif Require Import Num Monad NumF64 Spin.
Import ListNotations.

Notation NaN := S754_nan.

Lemma f_add_nan_l x : f_add NaN x = NaN. Proof. reflexivity. Qed.
Lemma f_add_nan_r x : f_add x NaN = NaN. Proof. destruct x; reflexivity. Qed.
Lemma f_sub_nan_l x : f_sub NaN x = NaN. Proof. reflexivity. Qed.
Lemma f_sub_nan_r x : f_sub x NaN = NaN. Proof. destruct x; reflexivity. Qed.
Lemma f_mul_nan_l x : f_mul NaN x = NaN. Proof. reflexivity. Qed.
Lemma f_mul_nan_r x : f_mul x NaN = NaN. Proof. destruct x; reflexivity. Qed.
Lemma f_div_nan_l x : f_div NaN x = NaN. Proof. reflexivity. Qed.
Lemma f_div_nan_r x : f_div x NaN = NaN. Proof. destruct x; reflexivity. Qed.
Lemma f_sqrt_nan : f_sqrt NaN = NaN. Proof. reflexivity. Qed.

#[export] Hint Rewrite f_add_nan_l f_add_nan_r f_sub_nan_l f_sub_nan_r f_mul_nan_l f_mul_nan_r
  f_div_nan_l f_div_nan_r f_sqrt_nan : nan.

Definition nan3f : v3 f64 := mk3 NaN NaN NaN.

(** a spin of which one component is NaN *)
Definition some_nan (s : v3 f64) : Prop := vx s = NaN \/ vy s = NaN \/ vz s = NaN.

Lemma rotate_F64_nan_spin L s field dt : some_nan s -> rotate (F64 L) s field dt = nan3f.
Proof.
  intro H. unfold rotate; cbv zeta.
  cbn [nadd nsub nmul ndiv nsqrt ncos nsin nofZ F64 vx vy vz].
  assert (A : forall fx fy fz, f_add (f_add (f_add (f_ofZ 0) (f_mul (vx s) fx)) (f_mul (vy s) fy)) (f_mul (vz s) fz) = NaN).
  { intros. destruct H as [H|[H|H]]; rewrite H; autorewrite with nan; reflexivity. }
  rewrite A. autorewrite with nan. reflexivity.
Qed.

(** a vector of (signed) zeros *)
Definition zero3 (f : v3 f64) : Prop :=
  exists a b c, f = mk3 (S754_zero a) (S754_zero b) (S754_zero c).

Lemma rotate_F64_zero_field L s field dt : zero3 field -> rotate (F64 L) s field dt = nan3f.
Proof.
  intros (a & b & c & ->).
  unfold rotate; cbv zeta.
  assert (E : exists z, nsqrt (F64 L) (sum_sq (F64 L) (arr (F64 L) (mk3 (S754_zero a) (S754_zero b) (S754_zero c))))
              = S754_zero z) by (destruct a, b, c; eexists; reflexivity).
  destruct E as [z ->].
  cbn [nadd nsub nmul ndiv nsqrt ncos nsin nofZ F64 vx vy vz].
  change (f_div (S754_zero a) (S754_zero z)) with NaN.
  change (f_div (S754_zero b) (S754_zero z)) with NaN.
  change (f_div (S754_zero c) (S754_zero z)) with NaN.
  autorewrite with nan. reflexivity.
Qed.

Lemma rotations_F64_nan L (l : list (v3 f64 * f64)) s :
  some_nan s -> l <> [] ->
  fold_left (fun a p => rotate (F64 L) a (fst p) (snd p)) l s = nan3f.
Proof.
  intros H Hl. destruct l as [|[f dt] l]; [congruence|]. cbn [fold_left fst snd]. clear Hl.
  rewrite rotate_F64_nan_spin by assumption.
  induction l as [|[f' dt'] l IH]; [reflexivity|]. cbn [fold_left fst snd].
  rewrite rotate_F64_nan_spin by (left; reflexivity). exact IH.
Qed.

(** x - x = +0 for finite x *)
Lemma f_sub_diag x : f_finite x = true -> f_sub x x = S754_zero false.
Proof.
  destruct x as [s| | |s m e]; cbn; try discriminate; intros _.
  - destruct s; reflexivity.
  - unfold f_sub, SFsub. rewrite Z.min_id.
    assert (E : (cond_Zopp s (Z.pos (fst (shl_align m e e))) - cond_Zopp s (Z.pos (fst (shl_align m e e))) = 0)%Z) by lia.
    rewrite E. reflexivity.
Qed.

Lemma f_sub_diag_not x : f_finite x = false -> f_sub x x = NaN.
Proof. destruct x as [s|s| |s m e]; cbn; try discriminate; intros _; try destruct s; reflexivity. Qed.

Lemma spin_eqb_F64_refl L a :
  spin_eqb (F64 L) a a = true <->
  f_finite (vx a) = true /\ f_finite (vy a) = true /\ f_finite (vz a) = true.
Proof.
  unfold spin_eqb. cbn [nsub nabs nltb nlit F64].
  assert (A : forall x, SFltb (SFabs (f_sub x x)) (f_lit 1 3) = f_finite x).
  { intro x. destruct (f_finite x) eqn:E.
    - rewrite f_sub_diag by assumption. vm_compute. reflexivity.
    - rewrite f_sub_diag_not by assumption. reflexivity. }
  rewrite !A. rewrite !andb_true_iff. tauto.
Qed.

(** azimuth of a spin in the y-z plane *)
Definition f_pi2 : f64 := S754_finite false 7074237752028440 (-52).   (* binary64 of pi/2 *)
Definition f_3pi2 : f64 := f_add f_pi2 f_pi.

Lemma theta_F64_plus_y L y z m e :
  y = S754_finite false m e -> l_atan L (S754_infinity false) = f_pi2 ->
  theta (F64 L) (mk3 (S754_zero false) y z) = f_3pi2.
Proof.
  intros -> H. unfold theta. cbn [vx vy vz ndiv natan nltb nadd npi nofZ F64].
  change (f_div (S754_finite false m e) (S754_zero false)) with (S754_infinity false).
  rewrite H. vm_compute. reflexivity.
Qed.

Lemma theta_F64_minus0_y L y z m e :
  y = S754_finite false m e -> l_atan L (S754_infinity true) = SFopp f_pi2 ->
  theta (F64 L) (mk3 (S754_zero true) y z) = f_pi2.
Proof.
  intros -> H. unfold theta. cbn [vx vy vz ndiv natan nltb nadd npi nofZ F64].
  change (f_div (S754_finite false m e) (S754_zero true)) with (S754_infinity true).
  rewrite H. vm_compute. reflexivity.
Qed.
