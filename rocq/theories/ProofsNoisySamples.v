(** Configurations and random numbers that meet the hypotheses of C91. *)
From Coq Require Import ZArith Reals List Lia Lra Psatz Bool Arith.
From Coq Require Import Floats.SpecFloat.
From Flocq Require Import Core.
From Verif Require Import Num Monad NumR NumF64 Spin Config Chain Langevin SpecVec SpecChain SpecRound SpecClose SpecKeep SpecMC SpecMade SpecNoisy
  ProofsFlocq ProofsRound ProofsClose ProofsCloseSamples ProofsMade2 ProofsMade3 ProofsMadeSamples.
Import ListNotations.
Local Open Scope R_scope.

Definition some_noise : v3 f64 := mk3 halfF (f_ofZ 3) (f_ofZ (-2)).
Definition SFopp3 (v : v3 f64) : v3 f64 := v3map SFopp v.
Lemma noisy_default k l : proper plain_libm /\ mild_conf defaultF /\ mild_bath defaultF (f_ofZ 1) /\ plain_draws plain_libm half_draws /\
  Forall (fun kd => uniform_draw plain_libm (snd kd)) (map (fun i => (Nat.even i, half_move i)) l) /\ Forall plain_noise (repeat (some_noise, SFopp3 some_noise) k).
Proof.
  split; [exact plain_proper|]. split; [exact (mild_default (beta defaultF))|]. split; [|split; [exact half_plain|split]].
  - unfold mild_bath. cbn [beta c_dt defaultF config_default nofZ nlit F64]. split; [fnum_tac|]. split; [fval_tac|]. split; [fnum_tac|]. split; [fval_tac|].
    apply Rle_trans with (bpow radix2 (-10)); [rewrite pow_bpow; apply bpow_le; lia|cbn [bpow]; fval_tac].
  - destruct half_val as [V E]. assert (U : uniform halfF) by (split; [exact V|lra]). rewrite Forall_map. apply Forall_forall. intros x _. cbn. repeat split; apply U.
  - apply Forall_forall. intros z Hz. apply repeat_spec in Hz. subst z. destruct half_val as [V E]. destruct (opp_val _ V) as [Vo Eo].
    unfold plain_noise, SFopp3, some_noise, is_vector, comp_le; cbn [fst snd v3map vx vy vz].
    assert (B : Rabs (value halfF) <= 32) by (rewrite E, Rabs_pos_eq; lra). assert (B' : Rabs (value (SFopp halfF)) <= 32) by (rewrite value_fval, Eo, Rabs_Ropp, <- value_fval; exact B).
    repeat split; try apply V; try exact B; try exact B'; try apply Vo; try (vm_compute; reflexivity); fval_tac.
Qed.
Lemma hot_default : mild_conf (set_beta defaultF (f_ofZ 0)) /\ is_number (beta (set_beta defaultF (f_ofZ 0))) /\ value (beta (set_beta defaultF (f_ofZ 0))) = 0.
Proof. split; [apply mild_default|]. split; [fnum_tac|reflexivity]. Qed.
