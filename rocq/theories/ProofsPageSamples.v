(** The default mode meets the hypotheses of C92. *)
From Coq Require Import ZArith Reals List Lia Lra Bool Arith String.
From Coq Require Import Floats.SpecFloat.
From Verif Require Import Num Monad NumF64 Config Chain Fit Files Runs SpecVec SpecChain SpecToml SpecRuns SpecRound SpecMC SpecMade SpecPage
  ProofsMadeSamples ProofsReadySamples ProofsHistorySamples.
Import ListNotations.
Local Open Scope R_scope.

Definition half_rng : rng (F64 plain_libm) := @mkRng (F64 plain_libm) (fun _ => @mkDraws (F64 plain_libm) half_draws half_move)
  (fun _ _ => (mk3 halfF halfF halfF, mk3 halfF halfF halfF)) (@List.concat _) (@List.concat _) (@List.concat _) (fun _ => EmptyString).
Lemma default_page f : exists rg, proper plain_libm /\ mild_conf defaultF /\ (2 <= ssize defaultF)%Z /\ (forall i, plain_run plain_libm (r_draws (F64 plain_libm) rg i)) /\
  c_log defaultF = true /\ in_range defaultF /\ (1 <= runs defaultF)%Z /\ exists r, run_sim (F64 plain_libm) ex_fuel rg defaultF f = Ok r.
Proof.
  exists half_rng. split; [exact plain_proper|]. split; [exact (mild_default (beta defaultF))|]. split; [cbn; lia|]. split; [|split; [reflexivity|split; [|split; [cbn; lia|]]]].
  - intro i. split; [exact half_plain|]. intro k. destruct half_val as [V E]. assert (U : uniform halfF) by (split; [exact V|lra]). repeat split; apply U.
  - unfold in_range. cbn. lia.
  - exact (ex_sim_runs plain_libm half_rng f).
Qed.
