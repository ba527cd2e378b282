(** The Langevin mode meets the hypotheses of C94. *)
From Coq Require Import ZArith Reals List Lia Lra Bool Arith String.
From Coq Require Import Floats.SpecFloat.
From Verif Require Import Num Monad NumF64 Config Chain Langevin Fit Files Runs SpecVec SpecChain SpecToml SpecRuns SpecRound SpecMC SpecMade SpecNoisy SpecPage SpecLeaf SpecTotal
  ProofsF64 ProofsRunTotal ProofsTotal ProofsMadeSamples ProofsNoisySamples ProofsReadySamples ProofsHistorySamples ProofsPageSamples.
Import ListNotations.
Local Open Scope R_scope.

Definition noisy_rng : rng (F64 plain_libm) := @mkRng (F64 plain_libm) (fun _ => @mkDraws (F64 plain_libm) half_draws half_move)
  (fun _ _ => (some_noise, SFopp3 some_noise)) (@List.concat _) (@List.concat _) (@List.concat _) (fun _ => EmptyString).
Lemma default_leaf f : exists rg, proper plain_libm /\ mild_conf defaultF /\ mild_bath defaultF (f_ofZ 1) /\ (2 <= ssize defaultF)%Z /\
  (forall i, noisy_draws plain_libm (r_draws (F64 plain_libm) rg i) (r_noise (F64 plain_libm) rg i)) /\
  in_range defaultF /\ (1 <= runs defaultF)%Z /\ exists r, run_langevin (F64 plain_libm) ex_fuel (f_ofZ 1) rg defaultF f = Ok r.
Proof.
  exists noisy_rng. destruct (noisy_default 1 []) as (A & B & C & D & _ & F). split; [exact A|]. split; [exact B|]. split; [exact C|]. split; [cbn; lia|]. split; [|split; [|split; [cbn; lia|]]].
  - intro i. split; [split; [exact D|]|intro k; exact (Forall_inv F)]. intro k. destruct half_val as [V E]. assert (U : uniform halfF) by (split; [exact V|lra]). repeat split; apply U.
  - unfold in_range. cbn. lia.
  - pose proof (ex_ready plain_libm) as [R1 R2 (R3 & R3a & R3b & R3c) [R4 R4b] R5 R6 R7 R8 R9 R10 R11 R12].
    apply (run_langevin_total (F64 plain_libm) ex_fuel (f_ofZ 1) noisy_rng defaultF f (quarter_F64 plain_libm)); [|cbn; lia|vm_compute; reflexivity|intros H; discriminate H|exact R10].
    split; [exact R3|]. unfold SpecToml.in_range. cbn in *. repeat split; lia.
Qed.
Lemma whole_leaf : let conf := set_hsize defaultF (ssize defaultF) in mild_conf conf /\ mild_bath conf (f_ofZ 1) /\ (2 <= ssize conf)%Z /\ ssize conf = hsize conf.
Proof.
  cbv zeta. destruct (noisy_default 1 []) as (_ & B & C & _). split; [|split; [exact C|split; [cbn; lia|reflexivity]]].
  destruct B as (_ & _ & B). split; [cbn; lia|]. split; [cbn; lia|exact B].
Qed.
