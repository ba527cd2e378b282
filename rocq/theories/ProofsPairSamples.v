(** The hypotheses of C99 are met. *)
From Coq Require Import String ZArith Reals List Lia Lra Bool Arith.
From Coq Require Import Floats.SpecFloat.
From Flocq Require Import Core.
From Verif Require Import Num Monad NumF64 Config Chain Fit Files Average Runs Main SpecVec SpecChain SpecToml SpecTotal SpecRuns SpecRound SpecClose SpecKeep SpecMC SpecMade SpecPage SpecSession SpecClock SpecPair
  ProofsFlocq ProofsRound ProofsTotal ProofsRunTotal ProofsCloseSamples ProofsMadeSamples ProofsReadySamples ProofsHistorySamples ProofsPageSamples ProofsClockSamples ProofsPair.
Import ListNotations.
Local Open Scope R_scope.

(** The default configuration with the steps -1/4, 0, 1/4, 1/2 *)
Definition quarterF : config f64 :=
  mkConfig 512 8 (quarters 2) (quarters 1) 2 (quarters 1) 2 (f_ofZ 10) (f_ofZ 1)
    [f_ofZ 0; f_ofZ 0; f_ofZ 0] [f_ofZ 0; f_ofZ 0; f_ofZ 0]
    (f_lit 1 3) (f_ofZ 0) 2 (SFopp (f_lit 66 2)) "log"%string false 0
    (f_lit 288 2) 1000 (f_lit 9 1) Dxyplane true.
Lemma quarter_pair : let f := (mkFs Missing [] : fs f64) in let ts := [quarters 0; quarters 1; quarters 2] in
  exists rg, proper plain_libm /\ mild_conf quarterF /\ (2 <= ssize quarterF)%Z /\ (forall i, plain_run plain_libm (r_draws (F64 plain_libm) rg i)) /\
  c_log quarterF = true /\ in_range quarterF /\ (1 <= runs quarterF < 2 ^ 26)%Z /\ tidy f /\ (forall nm, stands_for (c_file quarterF) nm -> contents f nm = None) /\
  (exists r, run_sim (F64 plain_libm) ex_fuel rg quarterF f = Ok r) /\
  timetable (F64 plain_libm) (nopp (F64 plain_libm) (trel (quarterF : config (num (F64 plain_libm))))) (c_dt quarterF) (c_t quarterF) (kept_plain (F64 plain_libm) quarterF) ts /\
  exists x, In x ts /\ at_zero x.
Proof.
  intros f ts. exists half_rng. split; [exact plain_proper|]. split.
  { unfold mild_conf, small, quarterF, quarters. cbn [hsize ssize jvar hvar lambda hfield hs c_dt tau c_e trel].
    split; [lia|]. split; [lia|].
    split; [split; [fnum_tac|fval_tac]|]. split; [split; [fnum_tac|fval_tac]|]. split; [split; [fnum_tac|fval_tac]|].
    split; [cbn; lia|]. split; [repeat first [apply Forall_nil|apply Forall_cons]; (split; [fnum_tac|fval_tac])|].
    split; [cbn; lia|]. split; [repeat first [apply Forall_nil|apply Forall_cons]; (split; [fnum_tac|fval_tac])|].
    split; [split; [fnum_tac|split; [|fval_tac]]|].
    { apply Rle_trans with (bpow radix2 (-10)); [rewrite pow_bpow; apply bpow_le; lia|cbn [bpow]; fval_tac]. }
    split; [fnum_tac|]. split.
    { apply Rle_trans with 1; [rewrite pow_bpow; apply (bpow_le radix2 (-100) 0); lia|fval_tac]. }
    split; [split; [fnum_tac|fval_tac]|]. split; [fnum_tac|].
    apply Rle_trans with 1; [fval_tac|]. rewrite pow_bpow. apply (bpow_le radix2 0 100). lia. }
  split; [cbn; lia|]. split.
  { intro i. split; [exact half_plain|]. intro k. destruct half_val as [V E]. assert (U : uniform halfF) by (split; [exact V|lra]). repeat split; apply U. }
  split; [reflexivity|]. split; [unfold in_range; cbn; lia|]. split; [cbn; lia|]. split; [constructor|]. split; [intros nm _; reflexivity|]. split.
  { apply (run_sim_total (F64 plain_libm) ex_fuel half_rng quarterF f (quarter_F64 plain_libm)).
    - split; [|unfold SpecToml.in_range; cbn; repeat split; lia].
      assert (A : nfinite (F64 plain_libm) (f_lit 1 3) = true) by (vm_compute; reflexivity).
      assert (B : nfinite (F64 plain_libm) (f_ofZ 0) = true) by (vm_compute; reflexivity).
      unfold conf_ok, quarterF. cbn [hsize ssize runs threads mc_points jvar hvar hfield hs length]. repeat split; try exact A; try exact B; lia.
    - intros H; discriminate H.
    - apply (endsb_ends (F64 plain_libm) _ _ _ 3 30000). vm_compute. reflexivity. }
  split.
  { exists 3%nat. split; [|split; [vm_compute; reflexivity|vm_compute; reflexivity]]. intros [|[|[|k]]] H; [vm_compute; reflexivity..|lia]. }
  exists (quarters 0). split; [left; reflexivity|vm_compute; reflexivity].
Qed.
