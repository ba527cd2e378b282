(** The Monte-Carlo modes meet the hypotheses of C95. *)
From Coq Require Import ZArith Reals List Lia Lra Bool Arith String.
From Coq Require Import Floats.SpecFloat.
From Verif Require Import Num Monad NumF64 Config Chain Fit Files Runs SpecVec SpecChain SpecRound SpecMC SpecMade SpecPage SpecTally ProofsMadeSamples ProofsPageSamples.
Import ListNotations.
Local Open Scope R_scope.

Lemma default_tally : exists rg, proper plain_libm /\ mild_conf defaultF /\ (1 <= ssize defaultF)%Z /\ (1 <= threads defaultF)%Z /\ (1 <= mc_points defaultF < 2 ^ 31)%Z /\
  (forall i, plain_run plain_libm (r_draws (F64 plain_libm) rg i)) /\ sent_only (r_file (F64 plain_libm) rg).
Proof.
  exists half_rng. split; [exact plain_proper|]. split; [exact (mild_default (beta defaultF))|]. split; [cbn; lia|]. split; [cbn; lia|]. split; [cbn; lia|]. split.
  - intro i. split; [exact half_plain|]. intro k. destruct half_val as [V E]. assert (U : uniform halfF) by (split; [exact V|lra]). repeat split; apply U.
  - intros l x H. exact H.
Qed.
