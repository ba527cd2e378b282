(** An accurate maths library and chains that meet the hypotheses. *)
From Coq Require Import ZArith Reals List Lia Lra Psatz Bool Arith String.
From Coq Require Import Floats.SpecFloat.
From Flocq Require Import Core.
From Verif Require Import Num Monad NumR NumF64 Spin Config Chain SpecVec SpecChain SpecRound SpecClose SpecOrder Samples
  ProofsFlocq ProofsRound ProofsOrderSamples ProofsClose.
Import ListNotations.
Local Open Scope R_scope.

(** 2^-52 times the integer below 2^52 r *)
Definition p52 : f64 := S754_finite false 4503599627370496 (-104).
Definition down (r : R) : f64 := f_mul (f_ofZ (Zfloor (r * 4503599627370496))) p52.
Lemma p52_val : vfin p52 /\ fval p52 = / 4503599627370496.
Proof. split; [split; vm_compute; reflexivity|]. rewrite <- value_fval. unfold p52, value. rewrite pow_bpow. cbn. lra. Qed.
Lemma down_ok r : -1 <= r <= 1 -> is_number (down r) /\ Rabs (value (down r)) <= 1 /\ Rabs (value (down r) - r) <= powerRZ 2 (-50).
Proof.
  intro H. set (m := Zfloor (r * 4503599627370496)). assert (F := Zfloor_lb (r * 4503599627370496)). assert (G := Zfloor_ub (r * 4503599627370496)). fold m in F, G.
  assert (M1 : (- 4503599627370496 <= m)%Z) by (apply le_IZR; apply IZR_le, Zfloor_lub; lra).
  assert (M2 : (m <= 4503599627370496)%Z) by (apply le_IZR; lra).
  destruct (ofZ_val m ltac:(lia)) as [Vm Em]. destruct p52_val as [Vp Ep].
  assert (R : rnd (fval (f_ofZ m) * fval p52) = IZR m * / 4503599627370496).
  { rewrite Em, Ep. apply round_generic; [apply valid_rnd_N|]. apply (generic_format_FLT radix2 (-1074) 53).
    exists (Float radix2 m (-52)); [|cbn; lia|cbn; lia]. unfold F2R; cbn. lra. }
  assert (B : -1 <= IZR m * / 4503599627370496 <= 1) by (apply IZR_le in M1, M2; lra).
  destruct (mul_val (f_ofZ m) p52 Vm Vp) as [V E].
  { rewrite R. apply Rle_lt_trans with 1; [apply Rabs_le; lra|]. apply (bpow_lt radix2 0 femax). reflexivity. }
  rewrite R in E. unfold down. fold m. rewrite !value_fval. split; [exact V|]. rewrite E. split; [apply Rabs_le; lra|].
  rewrite pow_bpow. cbn. apply Rabs_le. lra.
Qed.
Definition good_libm : libm := mkLibm (fun x => down (cos (value x))) (fun x => down (sin (value x))) (fun x => x) (fun x => x) (fun x => x)
  (fun x => x) (fun x => x) (fun l i => (nth i l S754_nan, S754_nan)).
Lemma good_accurate : accurate good_libm.
Proof.
  intros x _. cbn [l_cos l_sin good_libm].
  destruct (down_ok (cos (value x)) (COS_bound _)) as (A1 & A2 & A3). destruct (down_ok (sin (value x)) (SIN_bound _)) as (B1 & B2 & B3). tauto.
Qed.

Ltac fnum_tac := split; vm_compute; reflexivity.
Ltac fval_tac :=
  repeat match goal with |- context [value ?x] => let y := eval vm_compute in x in progress change (value x) with (value y) end;
  unfold value; rewrite ?pow_bpow; cbn; unfold Rabs;
  repeat match goal with |- context [Rcase_abs ?r] => destruct (Rcase_abs r) end; try lra.

Lemma vv_eq x y z a b d : value x = a -> value y = b -> value z = d -> vvalue (mk3 x y z) = mk3 a b d.
Proof. intros <- <- <-. reflexivity. Qed.

(** three driven spins in a strong z field *)
Definition eighth : f64 := f_div (f_ofZ 1) (f_ofZ 8).
Definition drivenF : chain f64 :=
  mkChain [mk3 (f_ofZ 1) (f_ofZ (-1)) (f_lit 5 1); mk3 (f_ofZ 1) (f_ofZ 1) (f_ofZ 0); mk3 (f_ofZ 1) (f_ofZ 1) (f_ofZ 1)]
    [mk3 (f_ofZ 1) (f_ofZ 0) (f_ofZ 4); mk3 (f_ofZ 0) (f_ofZ 6) (f_ofZ (-5)); mk3 (f_ofZ 0) (f_ofZ 0) (f_ofZ 6)]
    [mk3 (f_ofZ 1) (f_ofZ 0) (f_ofZ 0); mk3 (f_ofZ 0) (f_ofZ (-1)) (f_ofZ 0); mk3 (f_ofZ 0) (f_ofZ 0) (f_ofZ 1)]
    (f_ofZ 0) (mkConfig 3 2 (f_ofZ 256) eighth 2 (f_ofZ 0) 2 (f_ofZ 10) (f_ofZ 1) [] [f_ofZ 1; f_ofZ 0; f_ofZ 0]
    (f_ofZ 0) (f_ofZ 0) 2 (f_ofZ 0) "log"%string false 0 (f_ofZ 2) 1000 (f_ofZ 1) Dxyelliptic true) true.
Definition driven : chain R :=
  mkChain [mk3 1 (-1) (1/2); mk3 1 1 0; mk3 1 1 1] [mk3 1 0 4; mk3 0 6 (-5); mk3 0 0 6] [mk3 1 0 0; mk3 0 (-1) 0; mk3 0 0 1] 0
    (mkConfig 3 2 256 (1/8) 2 0 2 10 1 [] [1; 0; 0] 0 0 2 0 "log"%string false 0 2 1000 1 Dxyelliptic true) true.

Lemma off_0 v w : vvalue v = w -> off v w <= 0.
Proof. intros <-. unfold off, norm. replace (dot _ _) with 0 by (unfold dot; cbn; ring). rewrite sqrt_0. lra. Qed.

Lemma driven_ok : wf 3 2 drivenF /\ wf 3 2 driven /\ same_model drivenF driven /\ mild_sites drivenF /\ mild_drive drivenF /\ strong_z drivenF /\
  plain_dt (c_dt (vars drivenF)) /\ Forall (near_unit (powerRZ 2 (-50))) (spins drivenF) /\ unit_spins driven /\ spins_within 3 0 drivenF driven.
Proof.
  split; [constructor; cbn; auto; lia|]. split; [constructor; cbn; auto; lia|].
  split; [|split; [|split; [|split; [|split; [|split; [|split]]]]]].
  - unfold same_model. cbn [drivenF driven j_couple static_h vars t c_dt drive tau c_e map].
    repeat split; repeat apply (f_equal2 cons); try reflexivity; try apply vv_eq; fval_tac.
  - split; cbn [drivenF j_couple static_h]; repeat first [apply Forall_nil | apply Forall_cons | split]; cbn [vx vy vz]; try (vm_compute; reflexivity); cbn [vx vy vz]; fval_tac.
  - unfold mild_drive. cbn [drivenF vars drive tau c_e t].
    split; [split; [fnum_tac|]|split; [split; [fnum_tac|fval_tac]|split; [fnum_tac|]]].
    + apply Rle_trans with 1; [rewrite pow_bpow; apply (bpow_le radix2 (-100) 0); lia|fval_tac].
    + apply Rle_trans with 1; [fval_tac|rewrite pow_bpow; apply (bpow_le radix2 0 100); lia].
  - split; [discriminate|]. cbn [drivenF static_h]. repeat first [apply Forall_nil | apply Forall_cons]; cbn [vz]; fval_tac.
  - split; [fnum_tac|]. cbn [drivenF vars c_dt]. split; [|fval_tac].
    apply Rle_trans with (bpow radix2 (-3)); [rewrite pow_bpow; apply bpow_le; lia|cbn [bpow]; fval_tac].
  - rewrite pow_bpow. cbn [drivenF spins]. pose proof (bpow_gt_0 radix2 (-50)) as P.
    repeat first [apply Forall_nil | apply Forall_cons]; (split; [repeat split; vm_compute; reflexivity|]).
    all: replace (len2 _) with 1; [rewrite Rminus_diag_eq, Rabs_R0 by reflexivity; lra|unfold len2, dot, vvalue; cbn [vx vy vz]; fval_tac].
  - unfold unit_spins; cbn. repeat constructor; unfold unit3, dot; cbn; lra.
  - intros i Hi. apply off_0. destruct i as [|[|[|i]]]; [| | |lia]; apply vv_eq; fval_tac.
Qed.

(** the precessing pair of C72, with a time step of an eighth *)
Definition pairF (x : f64) : chain f64 :=
  mkChain [mk3 (f_ofZ 1) (f_ofZ 1) (f_ofZ 1); mk3 (f_ofZ 1) (f_ofZ 1) (f_ofZ 1)]
    [mk3 (f_ofZ 0) (f_ofZ 0) (f_ofZ 0); mk3 (f_ofZ 0) (f_ofZ 0) (f_ofZ 0)]
    [mk3 (f_ofZ 1) (f_ofZ 0) (f_ofZ 0); mk3 (f_ofZ 0) (f_ofZ 1) (f_ofZ 0)]
    (f_ofZ 0) (mkConfig 2 1 (f_ofZ 256) x 2 (f_ofZ 0) 2 (f_ofZ 10) (f_ofZ 1) [] [f_ofZ 1; f_ofZ 0; f_ofZ 0]
    (f_ofZ 0) (f_ofZ 0) 2 (f_ofZ 0) "log"%string false 0 (f_ofZ 2) 1000 (f_ofZ 1) Dnone true) true.
Lemma pairF_ok x : plain_dt x -> wf 2 1 (pairF x) /\ same_model (pairF x) (with_dt pair_chain (value x)) /\ mild_sites (pairF x) /\ mild_drive (pairF x) /\
  plain_dt (c_dt (vars (pairF x))) /\ Forall (near_unit (powerRZ 2 (-50))) (spins (pairF x)) /\ spins_within 2 0 (pairF x) pair_chain.
Proof.
  intro Hx. split; [constructor; cbn; auto; lia|].
  split; [|split; [|split; [exact I|split; [exact Hx|split]]]].
  - unfold same_model. split; [|split; [|split; [reflexivity|split; [reflexivity|split; [|exact I]]]]].
    + cbn [pairF j_couple map pair_chain with_dt set_vars]. repeat apply (f_equal2 cons); try reflexivity; apply vv_eq; fval_tac.
    + cbn [pairF static_h map pair_chain with_dt set_vars]. repeat apply (f_equal2 cons); try reflexivity; apply vv_eq; fval_tac.
    + cbn [pairF t pair_chain with_dt set_vars]. fval_tac.
  - split; cbn [pairF j_couple static_h]; repeat first [apply Forall_nil | apply Forall_cons | split]; cbn [vx vy vz]; try (vm_compute; reflexivity); cbn [vx vy vz]; fval_tac.
  - rewrite pow_bpow. cbn [pairF spins]. pose proof (bpow_gt_0 radix2 (-50)) as P.
    repeat first [apply Forall_nil | apply Forall_cons]; (split; [repeat split; vm_compute; reflexivity|]).
    all: replace (len2 _) with 1; [rewrite Rminus_diag_eq, Rabs_R0 by reflexivity; lra|unfold len2, dot, vvalue; cbn [vx vy vz]; fval_tac].
  - intros i Hi. apply off_0. destruct i as [|[|i]]; [| |lia]; apply vv_eq; fval_tac.
Qed.
