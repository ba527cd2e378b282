(** A maths library, configurations and random numbers that meet the hypotheses of C90. *)
From Coq Require Import ZArith Reals List Lia Lra Psatz Bool Arith String.
From Coq Require Import Floats.SpecFloat.
From Flocq Require Import Core.
From Verif Require Import Num Monad NumR NumF64 Spin Config Chain SpecVec SpecChain SpecRound SpecClose SpecKeep SpecMC SpecMade
  ProofsFlocq ProofsRound ProofsClose ProofsCloseSamples ProofsMade2 ProofsMade3.
Import ListNotations.
Local Open Scope R_scope.

Definition nanly (f : f64 -> f64) (x : f64) : f64 := match x with S754_nan => S754_nan | _ => f x end.
(** the cosine and sine of C86, the logarithm of 1, an exponential that overflows above 709 and constants *)
Definition plain_libm : libm := mkLibm (nanly (fun x => down (cos (value x)))) (nanly (fun x => down (sin (value x)))) (nanly (fun _ => f_ofZ 1))
  (nanly (fun x => if SFltb (f_ofZ 1) x || SFltb x (f_ofZ (-1)) then S754_nan else f_ofZ 1)) (nanly (fun x => if SFltb (f_ofZ 709) x then S754_infinity false else f_ofZ 1))
  (nanly (fun _ => f_ofZ 0)) (nanly (fun x => x)) (fun l i => (nth i l S754_nan, S754_nan)).
Lemma nanly_num f x : is_number x -> nanly f x = f x.
Proof. intros [_ F]. destruct x; try discriminate F; reflexivity. Qed.
Lemma one_num : is_number (f_ofZ 1). Proof. split; vm_compute; reflexivity. Qed.
Lemma plain_proper : proper plain_libm.
Proof.
  assert (ONE := one_num). unfold proper.
  split; [|split; [reflexivity|split; [reflexivity|split; [reflexivity|split; [reflexivity|split; [reflexivity|split; [|split]]]]]]].
  - intros x Hx. cbn [l_cos l_sin plain_libm]. rewrite !nanly_num by exact Hx. exact (good_accurate x Hx).
  - intro x. cbn [l_acos plain_libm]. destruct x; unfold nanly; try (right; reflexivity); (destruct (SFltb _ _ || SFltb _ _); [right; reflexivity|left; exact ONE]).
  - intro x. cbn [l_atan plain_libm]. assert (Rabs (value (f_ofZ 1)) <= 2) by (destruct (ofZ_val 1 ltac:(lia)) as [_ E]; rewrite value_fval, E, Rabs_R1; lra).
    destruct x; unfold nanly; try (right; reflexivity); left; auto.
  - intros x Hx Bx. cbn [l_acos plain_libm]. rewrite nanly_num by exact Hx. rewrite value_fval in Bx. apply Rabs_le_inv in Bx.
    destruct (ofZ_val 1 ltac:(lia)) as [V1 E1]. destruct (ofZ_val (-1) ltac:(lia)) as [V2 E2].
    destruct (SFltb (f_ofZ 1) x) eqn:Q; [apply (ltb_val _ _ V1 Hx) in Q; lra|].
    destruct (SFltb x (f_ofZ (-1))) eqn:Q2; [apply (ltb_val _ _ Hx V2) in Q2; lra|]. exact ONE.
Qed.

(** random numbers that are all 1/2, and the corresponding Monte Carlo moves *)
Definition halfF : f64 := f_div (f_ofZ 1) (f_ofZ 2).
Definition half_draws : newdraw (F64 plain_libm) :=
  @mkNewDraw (F64 plain_libm) (fun _ => (halfF, halfF, halfF)) (fun _ => mk3 halfF halfF halfF) (fun _ => mk3 halfF halfF halfF).
Definition half_move (i : nat) : mcdraw (F64 plain_libm) := @mkDraw (F64 plain_libm) i halfF halfF halfF.
Lemma half_val : is_number halfF /\ value halfF = 1 / 2.
Proof. split; [fnum_tac|]. change halfF with (S754_finite false 4503599627370496 (-53)). unfold value. rewrite pow_bpow. cbn. lra. Qed.
Lemma half_plain : plain_draws plain_libm half_draws.
Proof.
  destruct half_val as [V E]. assert (U : uniform halfF) by (split; [exact V|lra]).
  assert (B : Rabs (value halfF) <= 32) by (rewrite E, Rabs_pos_eq; lra).
  intro k. repeat split; try apply U; try apply V; exact B.
Qed.
Lemma half_moves l : Forall (fun kd => uniform_draw plain_libm (snd kd)) (map (fun i => (if Nat.even i then Plain else Magnus, half_move i)) l).
Proof.
  destruct half_val as [V E]. assert (U : uniform halfF) by (split; [exact V|lra]). rewrite Forall_map. apply Forall_forall. intros x _. cbn. repeat split; apply U.
Qed.

(** the default configuration, and the same with another temperature *)
Definition defaultF : config f64 := config_default (F64 plain_libm).
Lemma mild_default b : mild_conf (set_beta defaultF b).
Proof.
  unfold mild_conf, small. cbn [set_beta defaultF config_default hsize ssize jvar hvar lambda hfield hs c_dt tau c_e trel nofZ nlit F64].
  split; [lia|]. split; [lia|].
  split; [split; [fnum_tac|fval_tac]|]. split; [split; [fnum_tac|fval_tac]|]. split; [split; [fnum_tac|fval_tac]|].
  split; [cbn; lia|]. split; [repeat first [apply Forall_nil|apply Forall_cons]; (split; [fnum_tac|fval_tac])|].
  split; [cbn; lia|]. split; [repeat first [apply Forall_nil|apply Forall_cons]; (split; [fnum_tac|fval_tac])|].
  split; [split; [fnum_tac|split; [|fval_tac]]|].
  { apply Rle_trans with (bpow radix2 (-10)); [rewrite pow_bpow; apply bpow_le; lia|cbn [bpow]; fval_tac]. }
  split; [fnum_tac|]. split.
  { apply Rle_trans with 1; [rewrite pow_bpow; apply (bpow_le radix2 (-100) 0); lia|fval_tac]. }
  split; [split; [fnum_tac|fval_tac]|]. split; [fnum_tac|].
  apply Rle_trans with 1; [fval_tac|rewrite pow_bpow; apply (bpow_le radix2 0 100); lia].
Qed.
Lemma default_ok : proper plain_libm /\ mild_conf defaultF /\ plain_draws plain_libm half_draws.
Proof. split; [exact plain_proper|]. split; [exact (mild_default (beta defaultF))|exact half_plain]. Qed.
Lemma cold_ok : mild_conf (set_beta defaultF (f_ofZ 710)) /\ no_temperature plain_libm (f_ofZ 710).
Proof. split; [apply mild_default|]. left. vm_compute. reflexivity. Qed.
Lemma hot_ok : mild_conf (set_beta defaultF (f_ofZ 0)) /\ no_temperature plain_libm (f_ofZ 0).
Proof.
  split; [apply mild_default|]. right. left. split; [fnum_tac|]. split; [fval_tac|]. split; [vm_compute; reflexivity|]. split; [fnum_tac|fval_tac].
Qed.
