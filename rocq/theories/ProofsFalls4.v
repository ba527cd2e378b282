(** How often the temperature searches end far from the target (C84). *)
From Coq Require Import Reals List ZArith Lra Lia Arith Psatz FunctionalExtensionality.
From Verif Require Import Num Monad NumR Spin Config Chain Fit SpecVec SpecChain SpecMC SpecTotal SpecFit SpecSampling SpecMean
  ProofsFit ProofsTotal ProofsFitR ProofsSampling ProofsMean ProofsMean2 ProofsMean3 ProofsMean5 ProofsMean6 ProofsMean7 ProofsMean8 ProofsFalls ProofsFalls2 ProofsFalls3.
Import ListNotations.
Local Open Scope R_scope.

Lemma rate_falls n b b' E : 0 <= b -> b <= b' -> 0 <= E -> (1 <= n)%nat -> rate n b' E <= rate n b E.
Proof.
  intros Hb L HE Hn. unfold rate. assert (P : 0 < INR n) by (apply lt_0_INR; lia). apply pow_incr. split.
  - apply Rmult_le_pos; [left; apply exp_pos|left; apply Rinv_0_lt_compat, P].
  - unfold Rdiv. apply Rmult_le_compat_r; [left; apply Rinv_0_lt_compat, P|]. apply exp_le. nra.
Qed.
Lemma lasting_mono n q b b' E r : 0 <= b -> b <= b' -> 0 <= E -> (1 <= n)%nat -> lasting n q b' E r -> lasting n q b E r.
Proof.
  intros Hb L HE Hn H j. eapply Rle_trans; [|apply (H j)]. apply Rsum_le. intros t _. apply pow_incr.
  pose proof (rate_falls n b b' E Hb L HE Hn). pose proof (rate_unit n b E Hn Hb HE). lra.
Qed.
Lemma off_01 v eta a : 0 <= off v eta a <= 1. Proof. unfold off. destruct (Rlt_dec _ _); lra. Qed.
Lemma off_0 v eta a : Rabs (a - v) <= eta -> off v eta a = 0. Proof. intros H. unfold off. destruct (Rlt_dec _ _); lra. Qed.

(** * The search on numbers *)
Section Tree.
Context {A : Type} (z : A) (ls : nat -> list A) (Hls : forall N, ls N <> []) (M : nat).
Context (est : nat -> R -> (nat -> A) -> R) (Hext : forall k b x y, (forall i, (i < M)%nat -> x i = y i) -> est k b x = est k b y).
Context (t low eta L P : R) (v : R -> R).
Context (Lip : forall a b, low <= a <= 5 -> low <= b <= 5 -> Rabs (v a - v b) <= L * Rabs (a - b)).
Context (P0 : 0 <= P).
Context (Hoff : forall k b, low < b < 5 -> exists N0, forall N, (N0 <= N)%nat -> gmean z (ls N) M (fun x => off (v b) eta (est k b x)) <= P).
Notation later x := (fun i => x (M + i)%nat).

Fixpoint rloop (j k : nat) (lo hi x : R) (mv : nat -> A) : R :=
  if Rlt_dec (1 / 1000) (hi - lo) then
    match j with
    | O => (lo + hi) / 2
    | S j => if Rlt_dec t x then rloop j (S k) ((lo + hi) / 2) hi (est k (((lo + hi) / 2 + hi) / 2) mv) (later mv)
             else rloop j (S k) lo ((lo + hi) / 2) (est k ((lo + (lo + hi) / 2) / 2) mv) (later mv)
    end
  else (lo + hi) / 2.
Notation fail a := (off t (eta + L / 2000) (v a)).
Notation ok lo hi := (low <= lo /\ lo < hi /\ hi <= 5 /\ t - eta <= v lo /\ v hi <= t + eta).
Lemma rloop_stop j k lo hi x mv : hi - lo <= 1 / 1000 -> rloop j k lo hi x mv = (lo + hi) / 2.
Proof. intros H. destruct j; cbn [rloop]; destruct (Rlt_dec _ _); reflexivity || lra. Qed.
Lemma fail_stop j k lo hi x mv : ok lo hi -> hi - lo <= 1 / 1000 -> fail (rloop j k lo hi x mv) = 0.
Proof. intros (H1 & H2 & H3 & H4 & H5) H. rewrite rloop_stop by exact H. apply off_0. exact (loop_end t low eta L v Lip lo hi H1 H2 H3 H4 H5 H). Qed.
Lemma step_bound N j k b f q : low < b < 5 -> 0 <= q -> gmean z (ls N) M (fun x => off (v b) eta (est k b x)) <= P ->
  (forall mv, 0 <= f (est k b mv) (later mv) <= 1) ->
  (forall x, Rabs (x - v b) <= eta -> gmean z (ls N) (j * M) (f x) <= q) ->
  (forall x mv, 0 <= f x mv <= 1) ->
  gmean z (ls N) (S j * M) (fun mv => f (est k b mv) (later mv)) <= P + q.
Proof.
  intros Hb Q0 HP _ Hq F01. cbn [Nat.mul]. rewrite gmean_add.
  apply Rle_trans with (gmean z (ls N) M (fun x => off (v b) eta (est k b x) + q)).
  - apply gmean_le. intros x _.
    replace (gmean z (ls N) (j * M) (fun y => f (est k b (join M x y)) (later (join M x y)))) with (gmean z (ls N) (j * M) (f (est k b x))).
    + unfold off. destruct (Rlt_dec eta (Rabs (est k b x - v b))) as [C|C].
      * apply Rle_trans with 1; [|lra]. rewrite <- (gmean_const z (ls N) (j * M) 1 (Hls N)). apply gmean_le. intros y _. apply F01.
      * rewrite Rplus_0_l. apply Hq. lra.
    + apply gmean_ext. intros y _. f_equal.
      * apply Hext. intros i Hi. unfold join. replace (i <? M)%nat with true by (symmetry; apply Nat.ltb_lt; exact Hi). reflexivity.
      * apply functional_extensionality. intros i. unfold join. replace (M + i <? M)%nat with false by (symmetry; apply Nat.ltb_ge; lia). f_equal. lia.
  - rewrite gmean_plus, gmean_const by apply Hls. lra.
Qed.
Lemma fail_01 a : 0 <= fail a <= 1. Proof. apply off_01. Qed.
Lemma loop_seldom j : forall k lo hi, low <= lo -> lo < hi -> hi <= 5 -> hi - lo <= 2 ^ j / 1000 -> exists N0, forall N, (N0 <= N)%nat -> forall x, t - eta <= v lo -> v hi <= t + eta -> Rabs (x - v ((lo + hi) / 2)) <= eta ->
  gmean z (ls N) (j * M) (fun mv => fail (rloop j k lo hi x mv)) <= INR (pred j) * P.
Proof.
  assert (Z0 : forall N j F, (forall mv, F mv = 0) -> gmean z (ls N) j F = 0) by (intros N j0 F HF; rewrite <- (gmean_const z (ls N) j0 0 (Hls N)); apply gmean_ext; intros; apply HF).
  assert (Pj : forall j, 0 <= INR j * P) by (intros; apply Rmult_le_pos; [apply pos_INR|exact P0]).
  induction j as [|j IH]; intros k lo hi H1 H2 H3 H4.
  { exists 0%nat. intros N _ x V1 V2 Hx. rewrite Z0; [cbn; lra|]. intros mv. apply fail_stop; [tauto|]. cbn [pow] in H4. lra. }
  destruct (Rle_dec (hi - lo) (1 / 1000)) as [C|C].
  { exists 0%nat. intros N _ x V1 V2 Hx. rewrite Z0; [apply Pj|]. intros mv. apply fail_stop; [tauto|exact C]. }
  set (m := (lo + hi) / 2). assert (Hm : lo < m < hi) by (unfold m; lra).
  assert (D1 : hi - m <= 2 ^ j / 1000) by (cbn [pow] in H4; unfold m; lra). assert (D2 : m - lo <= 2 ^ j / 1000) by (cbn [pow] in H4; unfold m; lra).
  destruct (IH (S k) m hi ltac:(lra) ltac:(lra) ltac:(lra) D1) as [N1 K1]. destruct (IH (S k) lo m ltac:(lra) ltac:(lra) ltac:(lra) D2) as [N2 K2].
  destruct (Hoff k ((m + hi) / 2) ltac:(lra)) as [N3 K3]. destruct (Hoff k ((lo + m) / 2) ltac:(lra)) as [N4 K4].
  exists (N1 + N2 + N3 + N4)%nat. intros N HN x V1 V2 Hx. fold m in Hx. pose proof (Rle_abs (x - v m)) as X1. pose proof (Rle_abs (- (x - v m))) as X2. rewrite Rabs_Ropp in X2.
  assert (E : forall mv, rloop (S j) k lo hi x mv = if Rlt_dec t x then rloop j (S k) m hi (est k ((m + hi) / 2) mv) (later mv) else rloop j (S k) lo m (est k ((lo + m) / 2) mv) (later mv)).
  { intros mv. cbn [rloop]. destruct (Rlt_dec (1 / 1000) (hi - lo)) as [Y|Y]; [reflexivity|lra]. }
  destruct (Rlt_dec t x) as [Y|Y].
  - replace (fun mv => fail (rloop (S j) k lo hi x mv)) with (fun mv => fail (rloop j (S k) m hi (est k ((m + hi) / 2) mv) (later mv))) by (apply functional_extensionality; intros mv; rewrite E; reflexivity).
    destruct j as [|j].
    + rewrite Z0; [cbn; lra|]. intros mv. apply fail_stop; [repeat split; lra|]. cbn [pow] in D1. lra.
    + cbn [pred] in *. rewrite S_INR. replace ((INR j + 1) * P) with (P + INR j * P) by ring.
      apply (step_bound N (S j) k ((m + hi) / 2) (fun e y => fail (rloop (S j) (S k) m hi e y))); [lra|apply Pj|apply K3; lia|intros; apply fail_01| |intros; apply fail_01].
      intros e He. apply K1; [lia|lra|lra|exact He].
  - replace (fun mv => fail (rloop (S j) k lo hi x mv)) with (fun mv => fail (rloop j (S k) lo m (est k ((lo + m) / 2) mv) (later mv))) by (apply functional_extensionality; intros mv; rewrite E; reflexivity).
    destruct j as [|j].
    + rewrite Z0; [cbn; lra|]. intros mv. apply fail_stop; [repeat split; lra|]. cbn [pow] in D2. lra.
    + cbn [pred] in *. rewrite S_INR. replace ((INR j + 1) * P) with (P + INR j * P) by ring.
      apply (step_bound N (S j) k ((lo + m) / 2) (fun e y => fail (rloop (S j) (S k) lo m e y))); [lra|apply Pj|apply K4; lia|intros; apply fail_01| |intros; apply fail_01].
      intros e He. apply K2; [lia|lra|lra|exact He].
Qed.
Definition rsearch (mv : nat -> A) : R :=
  rloop 13 3 low 5 (est 1 ((low + 5) / 2) (fun i => mv (1 * M + i)%nat)) (fun i => mv (3 * M + i)%nat).
Lemma search_seldom : 0 <= low < 5 -> v 5 - eta <= t <= v low + eta -> exists N0, forall N, (N0 <= N)%nat ->
  gmean z (ls N) (16 * M) (fun mv => fail (rsearch mv)) <= 13 * P.
Proof.
  intros Hl Ht. destruct (loop_seldom 13 3 low 5 ltac:(lra) ltac:(lra) ltac:(lra) ltac:(cbn [pow]; lra)) as [N1 K1]. destruct (Hoff 1%nat ((low + 5) / 2) ltac:(lra)) as [N2 K2].
  exists (N1 + N2)%nat. intros N HN. 
  assert (S0 : forall j F q, (forall mv, 0 <= F mv <= 1) -> gmean z (ls N) j F <= q -> gmean z (ls N) (M + j) (fun mv => F (later mv)) <= q).
  { intros j F q F01 Hq. rewrite gmean_add. rewrite <- (gmean_const z (ls N) M q (Hls N)). apply gmean_le. intros x _.
    replace (gmean z (ls N) j (fun y => F (later (join M x y)))) with (gmean z (ls N) j F); [exact Hq|]. apply gmean_ext. intros y _. f_equal. apply functional_extensionality. intros i. unfold join. replace (M + i <? M)%nat with false by (symmetry; apply Nat.ltb_ge; lia). f_equal. lia. }
  change (16 * M)%nat with (M + 15 * M)%nat.
  assert (Q : gmean z (ls N) (15 * M) (fun mv => fail (rloop 13 3 low 5 (est 1 ((low + 5) / 2) mv) (fun i => mv (M + (M + i))%nat))) <= P + 12 * P).
  { change (15 * M)%nat with (S 14 * M)%nat.
    apply (step_bound N 14 1 ((low + 5) / 2) (fun e y => fail (rloop 13 3 low 5 e (later y)))); [lra|lra|apply K2; lia|intros; apply fail_01| |intros; apply fail_01].
    intros e He. change (14 * M)%nat with (M + 13 * M)%nat. apply (S0 (13 * M)%nat (fun y => fail (rloop 13 3 low 5 e y))); [intros; apply fail_01|].
    eapply Rle_trans; [apply K1; [lia|lra|lra|exact He]|]. cbn [pred]. rewrite INR_IZR_INZ. change (Z.of_nat 12) with 12%Z. lra. }
  replace (13 * P) with (P + 12 * P) by ring.
  eapply Rle_trans; [|exact (S0 (15 * M)%nat _ _ (fun mv => fail_01 _) Q)]. right. f_equal. apply functional_extensionality. intros mv. unfold rsearch. do 2 f_equal.
  f_equal; [f_equal|]; apply functional_extensionality; intros i; f_equal; lia.
Qed.

(** The same search on the numbers of the program *)
Lemma rloop_runs (E : nat -> ER -> res ER) (mv : nat -> A) : (forall k b, E k (Some b) = Ok (Some (est k b (fun i => mv (k * M + i)%nat)))) ->
  forall j fuel k lo hi x, (j <= fuel)%nat -> hi - lo <= 2 ^ j / 1000 ->
  bisect_loop ERNum E (Some t) fuel k (Some lo) (Some hi) (Some ((lo + hi) / 2)) (Some x) = Ok (Some (rloop j k lo hi x (fun i => mv (k * M + i)%nat))).
Proof using.
  clear z ls Hls Hext low eta L P v Lip P0 Hoff.
  intros HE. assert (Sh : forall k, (fun i => mv (S k * M + i)%nat) = (fun i => mv (k * M + (M + i))%nat)) by (intros k; apply functional_extensionality; intros i; f_equal; lia).
  induction j as [|j IH]; intros fuel k lo hi x Hf Hh.
  - destruct fuel; cbn [bisect_loop rloop]; change (nltb ERNum (nlit ERNum 1 3) (nsub ERNum (Some hi) (Some lo))) with (Rltb (1 / 1000) (hi - lo)); cbn [pow] in Hh; rewrite Rltb_false by lra; destruct (Rlt_dec _ _); reflexivity.
  - destruct fuel as [|fuel]; [lia|]. cbn [bisect_loop rloop]. change (nltb ERNum (nlit ERNum 1 3) (nsub ERNum (Some hi) (Some lo))) with (Rltb (1 / 1000) (hi - lo)). unfold Rltb at 1. destruct (Rlt_dec (1 / 1000) (hi - lo)) as [C|C]; [|reflexivity].
    change (nltb ERNum (Some t) (Some x)) with (Rltb t x). unfold Rltb. cbv zeta. cbn [pow] in Hh. destruct (Rlt_dec t x) as [Y|Y]; rewrite half_mid, HE; cbn [bind]; rewrite IH by (lia || lra); rewrite Sh; reflexivity.
Qed.
Lemma rsearch_runs (E : nat -> ER -> res ER) (mv : nat -> A) fuel : 0 <= low < 5 -> (13 <= fuel)%nat -> (forall k b, E k (Some b) = Ok (Some (est k b (fun i => mv (k * M + i)%nat)))) ->
  bisect ERNum E (Some t) (Some low) fuel = Ok (Some (rsearch mv)).
Proof using.
  clear z ls Hls Hext eta L P v Lip P0 Hoff.
  intros Hl Hf HE. unfold bisect. cbv zeta. change (nofZ ERNum 5) with (Some 5). rewrite half_mid. rewrite !HE. cbn [bind].
  rewrite (rloop_runs E mv HE 13 fuel) by (try exact Hf; cbn [pow]; lra). reflexivity.
Qed.
End Tree.
