(** Typical states. *)
From Coq Require Import String Reals List ZArith Arith Lra Lia Bool Floats.SpecFloat.
From Verif Require Import Num Monad NumR NumF64 Config Chain Fit Files Runs SpecVec SpecChain SpecMC SpecColumns SpecRuns SpecHist
  ProofsSpin ProofsFrame ProofsChain ProofsEnergy ProofsF64 ProofsMCF64 ProofsLoop ProofsDyn ProofsDynR ProofsDyn2.
Import ListNotations.
Local Open Scope R_scope.

Lemma typical_test n s sc : wf n s sc -> (1 <= n)%nat -> drive_ok (vars sc) ->
  exists b, not_typical ERNum (fin sc) = Ok b /\ (b = false <-> typical n s sc).
Proof.
  intros W Hn Hd. unfold not_typical. rewrite (total_energy2_value n s sc W Hn Hd). cbn [bind].
  rewrite (m_tot_value n s sc W). cbn [bind]. cbv zeta. eexists. split; [reflexivity|].
  set (e := ring_energy n (S_ sc) (J_ sc) (B_ sc s (t sc)) / INR n).
  assert (Hh : hsize (vars sc) = Z.of_nat n) by (destruct W; lia).
  assert (Dv : forall x, ndiv ERNum (Some x) (nofZ ERNum (hsize (vars (fin sc)))) = Some (/ INR n * x)).
  { intros x. change (hsize (vars (fin sc))) with (hsize (vars sc)). rewrite Hh. change (er_div (Some x) (Some (IZR (Z.of_nat n))) = Some (/ INR n * x)).
    rewrite <- INR_IZR_INZ. rewrite er_div_ok; [f_equal; unfold Rdiv; ring|]. apply not_0_INR. lia. }
  change (vx (fin3 (Vsum n (S_ sc)))) with (Some (vx (Vsum n (S_ sc)))).
  change (vy (fin3 (Vsum n (S_ sc)))) with (Some (vy (Vsum n (S_ sc)))).
  change (vz (fin3 (Vsum n (S_ sc)))) with (Some (vz (Vsum n (S_ sc)))).
  rewrite !Dv. clear Dv. unfold typical. fold e.
  change (vx (mag_density n sc)) with (/ INR n * vx (Vsum n (S_ sc))).
  change (vy (mag_density n sc)) with (/ INR n * vy (Vsum n (S_ sc))).
  change (vz (mag_density n sc)) with (/ INR n * vz (Vsum n (S_ sc))).
  set (mx := / INR n * vx _). set (my := / INR n * vy _). set (mz := / INR n * vz _).
  assert (L5 : nlit ERNum 5 3 = Some (5 / 1000)) by (cbn; f_equal; lra).
  assert (L3 : nlit ERNum 3 3 = Some (3 / 1000)) by (cbn; f_equal; lra).
  rewrite L5, L3.
  change (nabs ERNum (nsub ERNum (Some e) (ednsty (vars (fin sc))))) with (Some (Rabs (e - ednsty (vars sc)))).
  change (nabs ERNum (Some mx)) with (Some (Rabs mx)). change (nabs ERNum (Some my)) with (Some (Rabs my)). change (nabs ERNum (Some mz)) with (Some (Rabs mz)).
  rewrite !orb_false_iff, !ltb_ER_false. tauto.
Qed.

(** A chain with a NaN spin passes as typical in binary64 *)
Section Nan.
Variable L : libm.
Notation N := (F64 L).
Ltac start := cbv zeta; cbn [nadd nsub nmul ndiv nopp nofZ nlit npi F64]; change (num N) with f64 in *.
Lemma bond_field_nan e a j b h : e = S754_nan \/ some_nan a -> bond_field N e a j b h = S754_nan.
Proof. intros H. unfold bond_field, for3. start. destruct H as [H|[H|[H|H]]]; rewrite ?H; autorewrite with nan; reflexivity. Qed.
Lemma loop_nan (f : f64 -> nat -> f64) : (forall j, f S754_nan j = S754_nan) -> forall l, fold_left f l S754_nan = S754_nan.
Proof. intros H. induction l as [|a l IH]; [reflexivity|]. cbn [fold_left]. rewrite H. exact IH. Qed.
Lemma ring_nan n s (sc : chain f64) h i : wf n s sc -> (i < n)%nat -> some_nan (at3 N (spins sc) i) -> ring_bf N sc h n = S754_nan.
Proof.
  intros W Hi H. unfold ring_bf. apply bond_field_nan. destruct (Nat.eq_dec i (n - 1)) as [->|Hn]; [right; exact H|left].
  unfold loop_bf. replace (seq 0 (n - 1)) with (seq 0 i ++ i :: seq (S i) (n - 1 - S i)).
  - rewrite fold_left_app. cbn [fold_left]. rewrite (bond_field_nan _ (at3 N (spins sc) i)) by (right; exact H).
    apply loop_nan. intros j. apply bond_field_nan. left. reflexivity.
  - change (i :: seq (S i) (n - 1 - S i)) with (seq (0 + i) (S (n - 1 - S i))). rewrite <- seq_app. f_equal. lia.
Qed.
Lemma sum_nan_acc (l : list (v3 f64)) : fold_left (fun acc x => sum_vec N acc x) l nan3f = nan3f.
Proof. induction l as [|a l IH]; [reflexivity|]. cbn [fold_left]. unfold sum_vec at 2, nan3f at 1. start. autorewrite with nan. exact IH. Qed.
Lemma firstn_nth {A} : forall (l : list A) n i, (i < n)%nat -> nth_error (firstn n l) i = nth_error l i.
Proof. induction l as [|a l IH]; intros [|n] [|i] H; try reflexivity; try lia. cbn [firstn nth_error]. apply IH. lia. Qed.
Lemma sum_nan l i : nth_error l i = Some nan3f -> sum_spins N l = nan3f.
Proof.
  intros H. unfold sum_spins. generalize (mk3 (nofZ N 0) (nofZ N 0) (nofZ N 0)). revert i H.
  induction l as [|a l IH]; intros [|i] H acc; try discriminate H.
  - cbn in H. injection H as ->. cbn [fold_left]. replace (sum_vec N acc nan3f) with nan3f; [apply sum_nan_acc|].
    unfold sum_vec, nan3f. start. autorewrite with nan. reflexivity.
  - cbn [fold_left]. exact (IH i H _).
Qed.
Lemma nan_typical n s (sc : chain f64) i : wf n s sc -> hs_ok (vars sc) -> (i < n)%nat -> nth_error (spins sc) i = Some (mk3 S754_nan S754_nan S754_nan) ->
  not_typical N sc = Ok false.
Proof.
  intros W Hh Hi H. unfold not_typical. rewrite (total_energy2_pure N n s sc W) by (assumption || lia). cbn [bind].
  rewrite (ring_nan n s sc _ i W Hi).
  2:{ unfold at3. rewrite (nth_error_nth _ _ _ H). left. reflexivity. }
  rewrite (m_tot_pure N n s sc W). cbn [bind]. rewrite (sum_nan _ i).
  2:{ rewrite firstn_nth by exact Hi. exact H. }
  cbv zeta. reflexivity.
Qed.
End Nan.

(** The undriven dynamics stays at the energy it starts with *)
Lemma energy_kept n s sc k sc' : wf n s sc -> (2 <= n)%nat -> (n mod 2 = 0)%nat -> unit_spins sc -> drive (vars sc) = Dnone ->
  typical n s sc -> iterM (update ERNum) k (fin sc) = Ok (fin sc') ->
  Rabs (ring_energy n (S_ sc') (J_ sc') (B_ sc' s (t sc')) / INR n - ednsty (vars sc)) <= 5 / 1000.
Proof.
  intros W Hn He Hu Hd (Ht & _) E.
  assert (Hok : drive_ok (vars sc)) by (unfold drive_ok; rewrite Hd; exact I).
  assert (Un : undriven (vars sc)) by (left; exact Hd).
  destruct (conserve_total2 n s sc k sc' W Hn He Hok Hu Un E) as [C _].
  destruct (iter_ER_back n s k (fin sc) (fin sc')) as (W' & V' & _); [apply wf_fin; exact W|exact Hn|apply hs_ok_fin, drive_ok_hs, Hok|exact E|].
  apply wf_fin in W'.
  assert (Vd : drive (vars sc') = Dnone).
  { transitivity (drive (vars (fin sc'))); [reflexivity|]. transitivity (drive (vars (fin sc))); [exact (f_equal drive V')|exact Hd]. }
  assert (Hok' : drive_ok (vars sc')) by (unfold drive_ok; rewrite Vd; exact I).
  rewrite (total_energy2_value n s sc W ltac:(lia) Hok), (total_energy2_value n s sc' W' ltac:(lia) Hok') in C.
  injection C as ->. exact Ht.
Qed.
