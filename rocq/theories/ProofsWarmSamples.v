(** Cases of the theorems about how runs start. *)
From Coq Require Import String Reals Lra Lia List ZArith Arith Bool.
From Flocq Require Import Core.
From Verif Require Import Num Monad NumR NumF64 Config Chain Fit Files Writers Runs SpecVec SpecChain SpecTotal SpecToml SpecRuns SpecWriters SpecWarm
  Samples ProofsFrame ProofsSim ProofsCheckpoints ProofsHistorySamples ProofsReadySamples ProofsRunSamples ProofsTraj.
Import ListNotations.
Local Open Scope nat_scope.

Lemma ex_default_starts L rg f : exists r, run_sim (F64 L) ex_fuel rg (config_default (F64 L)) f = Ok r.
Proof. apply ex_sim_runs. Qed.
Lemma ex_profile_starts rg f : (forall ws, interleaving ws (r_msgs ERNum rg ws)) -> exists fuel r,
  run_dyn_profile ERNum fuel rg (ex_runs ERNum (Some 0%R) (Some (1 / 50)%R) (Some 256%R) (Some 10%R) false) f = Ok r.
Proof.
  intro HI. eexists.
  destruct (dyn_profile (Z.to_nat (Zceil ((10 * 4000 + 0) / (1 / 50)))) rg (ex_runs ERNum (Some 0%R) (Some (1 / 50)%R) (Some 256%R) (Some 10%R) false) f 0 (1 / 50) 10
    (ex_runs_usable_ER _ _ _ _ _) ltac:(cbn; lia) HI eq_refl eq_refl eq_refl ltac:(lra) ltac:(lra)) as [A _].
  destruct (A (fun z Hz => all_hit_50 z ltac:(cbn in Hz; lia)) (le_n _)) as [r E]. exists r. exact E.
Qed.
Lemma ex_mean_starts rg f : exists r,
  trajectory_mean_e ERNum rg (ex_runs ERNum (Some 0%R) (Some (1 / 50)%R) (Some 256%R) (Some (INR 500 * (1 / 50))%R) false) f = Ok r.
Proof.
  destruct (mean_e_ok rg (ex_runs ERNum (Some 0%R) (Some (1 / 50)%R) (Some 256%R) (Some (INR 500 * (1 / 50))%R) false) f 500 (1 / 50) (ex_runs_usable_ER _ _ _ _ _) eq_refl eq_refl ltac:(lra) ltac:(lia) ltac:(lia))
    as (ess & f' & E & _). eexists. exact E.
Qed.
