(** The hypotheses of C100 are met. *)
From Coq Require Import String ZArith Reals List Lia Lra Bool Arith.
From Coq Require Import Floats.SpecFloat.
From Verif Require Import Num Monad NumF64 Config Chain Langevin Fit Files Average Runs Main SpecVec SpecChain SpecToml SpecRuns SpecRound SpecClose SpecKeep SpecMade SpecNoisy SpecPage SpecLeaf SpecSession
  ProofsAverage ProofsMadeSamples ProofsReadySamples ProofsLeafSamples ProofsPoolSamples.
Import ListNotations.
Local Open Scope R_scope.

Lemma default_crop : let f := (mkFs Missing [] : fs f64) in
  exists rg, proper plain_libm /\ mild_conf defaultF /\ mild_bath defaultF (f_ofZ 1) /\ (2 <= ssize defaultF)%Z /\
  (forall i, noisy_draws plain_libm (r_draws (F64 plain_libm) rg i) (r_noise (F64 plain_libm) rg i)) /\
  in_range defaultF /\ (1 <= runs defaultF < 2 ^ 30)%Z /\ tidy f /\ (forall nm, stands_for (c_file defaultF) nm -> contents f nm = None) /\
  exists conf' g, run_langevin (F64 plain_libm) ex_fuel (f_ofZ 1) rg defaultF f = Ok (conf', g) /\ exists r, run_average (F64 plain_libm) defaultF g = Ok r.
Proof.
  intros f. destruct (default_leaf f) as (rg & H1 & H2 & H3 & H4 & H5 & H6 & H7 & [conf' g] & H8). exists rg.
  repeat (split; [assumption|]). split; [split; [exact H7|cbn; lia]|]. split; [constructor|]. split; [intros nm _; reflexivity|]. exists conf', g. split; [exact H8|].
  unfold run_average. rewrite (average_total (F64 plain_libm) defaultF _ default_capacity). cbn [bind]. eexists. reflexivity.
Qed.
