(** The hypotheses of C96 are met. *)
From Coq Require Import String ZArith Reals List Lia Lra Bool Arith.
From Coq Require Import Floats.SpecFloat.
From Verif Require Import Num Monad NumF64 Config Chain Fit Files Average Runs Main SpecVec SpecChain SpecToml SpecRuns SpecRound SpecClose SpecKeep SpecMC SpecMade SpecPage SpecSession SpecPool
  ProofsFlocq ProofsAverage ProofsPage ProofsPool ProofsPool2 ProofsMadeSamples ProofsReadySamples ProofsHistorySamples ProofsPageSamples.
Import ListNotations.
Local Open Scope R_scope.

Definition f1 : f64 := f_ofZ 1.
Definition f2 : f64 := f_ofZ 2.
Definition f3 : f64 := f_ofZ 3.
(** Three files of different lengths, with NaN in the second row of the second *)
Definition three : list (line f64 * list (list f64)) :=
  [([Tword "#t"%string], [[f1; f1]; [f2; f1]]); ([], [[f1; f3]; [f2; S754_nan]]); (numbers [f3], [[f1; f2]; [f2; f2]; [f3; f1]])].
Lemma default_capacity : capacity plain_libm defaultF.
Proof. unfold capacity. vm_compute. discriminate. Qed.
Lemma three_average : average (F64 plain_libm) defaultF (map table_file three) = Ok [numbers [f1; f2]; numbers [f2; S754_nan]; numbers [f3; f1]].
Proof. vm_compute. reflexivity. Qed.
Lemma three_column : capacity plain_libm defaultF /\ (0 <= 196608)%Z /\ (Z.of_nat (length three) < 2 ^ 53)%Z /\ (Z.of_nat (length three) * 196608 < 2 ^ 53)%Z /\
  (exists row, has_row (map snd three) 0 row) /\ (forall row, has_row (map snd three) 0 row -> exists x, nth_error row 1 = Some x /\ small (IZR 196608 / 65536) x).
Proof.
  split; [exact default_capacity|]. split; [lia|]. split; [cbn; lia|]. split; [cbn; lia|]. split.
  - exists [f1; f1], [[f1; f1]; [f2; f1]]. split; [left; reflexivity|reflexivity].
  - assert (B : forall k, (0 <= k <= 3)%Z -> small (IZR 196608 / 65536) (f_ofZ k)).
    { intros k Hk. destruct (ofZ_val k ltac:(lia)) as [V E]. split; [exact V|]. rewrite ProofsRound.value_fval, E, Rabs_pos_eq by (apply IZR_le; lia).
      assert (H := IZR_le k 3 ltac:(lia)). lra. }
    intros row (t & Ht & Hr). unfold three in Ht. cbn [map snd In] in Ht.
    destruct Ht as [<-|[<-|[<-|[]]]]; cbn [nth_error] in Hr; injection Hr as <-; (eexists; split; [reflexivity|]); [apply (B 1%Z)|apply (B 3%Z)|apply (B 2%Z)]; lia.
Qed.
Lemma three_nan : (exists row, has_row (map snd three) 1 row /\ nth_error row 1 = Some S754_nan) /\ (forall row, has_row (map snd three) 1 row -> (1 < length row)%nat).
Proof.
  split.
  - exists [f2; S754_nan]. split; [|reflexivity]. exists [[f1; f3]; [f2; S754_nan]]. split; [right; left; reflexivity|reflexivity].
  - intros row (t & Ht & Hr). unfold three in Ht. cbn [map snd In] in Ht. destruct Ht as [<-|[<-|[<-|[]]]]; cbn [nth_error] in Hr; injection Hr as <-; cbn [length]; lia.
Qed.
(** The default mode in an empty directory, then the average *)
Lemma default_pool : let f := (mkFs Missing [] : fs f64) in
  exists rg, proper plain_libm /\ mild_conf defaultF /\ (2 <= ssize defaultF)%Z /\ (forall i, plain_run plain_libm (r_draws (F64 plain_libm) rg i)) /\
  c_log defaultF = true /\ in_range defaultF /\ (1 <= runs defaultF < 2 ^ 30)%Z /\ tidy f /\ (forall nm, stands_for (c_file defaultF) nm -> contents f nm = None) /\
  exists conf' g, run_sim (F64 plain_libm) ex_fuel rg defaultF f = Ok (conf', g) /\ exists r, run_average (F64 plain_libm) defaultF g = Ok r.
Proof.
  intros f. destruct (default_page f) as (rg & H1 & H2 & H3 & H4 & H5 & H6 & H7 & [conf' g] & H8). exists rg.
  repeat (split; [assumption|]). split; [split; [exact H7|cbn; lia]|]. split; [constructor|]. split; [intros nm _; reflexivity|]. exists conf', g. split; [exact H8|].
  unfold run_average. rewrite (average_total (F64 plain_libm) defaultF _ default_capacity). cbn [bind]. eexists. reflexivity.
Qed.
