(** The concrete cases shown beside the theorems about runs. *)
From Coq Require Import String SpecFloat Reals ZArith List Lra Lia Permutation.
From Flocq Require Import Core.
From Verif Require Import Num Monad NumR NumF64 Spin Config Chain Files Writers SpecVec SpecChain SpecToml SpecWriters SpecRuns Samples.
Import ListNotations.
Local Close Scope R_scope.
Local Open Scope nat_scope.

Lemma ex_runs_usable_ER x dt tmax tau st : usable ERNum (ex_runs ERNum x dt tmax tau st).
Proof. unfold usable, conf_ok, in_range. cbn. repeat split; auto; lia. Qed.
Lemma ex_runs_usable_F64 L x dt tmax tau st : usable (F64 L) (ex_runs (F64 L) x dt tmax tau st).
Proof.
  unfold usable, conf_ok, in_range.
  assert (A : nfinite (F64 L) (nlit (F64 L) 1 3) = true) by (vm_compute; reflexivity).
  assert (B : nfinite (F64 L) (nofZ (F64 L) 0) = true) by (vm_compute; reflexivity).
  unfold ex_runs. cbn [hsize ssize runs method offset threads mc_points jvar hvar hfield hs length]. repeat split; try exact A; try exact B; lia.
Qed.
Lemma steps_5050 : Z.to_nat (Zceil ((100 - -1) / (1 / 50))) = Z.to_nat 5050.
Proof. f_equal. replace ((100 - -1) / (1 / 50))%R with (IZR 5050) by lra. apply Zceil_IZR. Qed.
Lemma steps_5000 : (Z.of_nat (Z.to_nat (Zceil (100 / (1 / 50)))) < 2 ^ 64)%Z.
Proof. replace (100 / (1 / 50))%R with (IZR 5000) by lra. rewrite Zceil_IZR. lia. Qed.

Lemma hit_50 z : (1 <= z)%Z -> exists k, 1 <= k /\ (Rabs (0 + INR k * (1 / 50) - IZR z * 10) < 1 / 50 / 5)%R.
Proof.
  intros Hz. exists (Z.to_nat (z * 500)). split; [lia|]. rewrite INR_IZR_INZ, Z2Nat.id by lia. rewrite mult_IZR.
  replace (0 + IZR z * 500 * (1 / 50) - IZR z * 10)%R with 0%R by lra. rewrite Rabs_R0. lra.
Qed.
Lemma all_hit_50 z : (1 <= z)%Z -> hit (- 0) (1 / 50) 10 z.
Proof. intros Hz. destruct (hit_50 z Hz) as (k & Hk & H). exists k. split; [exact Hk|]. rewrite Ropp_0. exact H. Qed.
Lemma miss_03 : ~ hit (- 0) (3 / 100) 10 500.
Proof.
  intros (k & Hk & H). apply Rabs_def2 in H. rewrite Ropp_0 in H. rewrite INR_IZR_INZ in H.
  assert (A : (IZR (3 * Z.of_nat k) < IZR 500001)%R) by (rewrite mult_IZR; lra).
  assert (B : (IZR 499999 < IZR (3 * Z.of_nat k))%R) by (rewrite mult_IZR; lra).
  apply lt_IZR in A, B. lia.
Qed.
Lemma concat_interleaving {A} (ws : list (list A)) : interleaving ws (concat ws).
Proof.
  assert (G : forall ws pre, Forall (fun w : list A => w = []) pre -> interleaving (pre ++ ws) (concat ws)).
  { clear. induction ws as [|w ws IH]; intros pre Hp.
    - rewrite app_nil_r. constructor. exact Hp.
    - induction w as [|x w IHw].
      + cbn [concat app]. specialize (IH (pre ++ [[]])). rewrite <- app_assoc in IH. apply IH. apply Forall_app. split; [exact Hp|repeat constructor].
      + cbn [concat app]. constructor. exact IHw. }
  exact (G ws [] (Forall_nil _)).
Qed.
