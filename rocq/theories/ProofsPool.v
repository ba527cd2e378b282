(** Averages over logs in binary64. *)
From Coq Require Import String ZArith Reals List Lia Lra Psatz Bool Arith Permutation.
From Coq Require Import Floats.SpecFloat.
From Flocq Require Import Core.
From Verif Require Import Num Monad NumR NumF64 Config Chain Fit Files Average Runs Main SpecVec SpecChain SpecToml SpecRound SpecClose SpecKeep SpecMade SpecPage SpecSession SpecPool
  ProofsFlocq ProofsRound ProofsRound2 ProofsF64 ProofsChain ProofsAverage ProofsPage ProofsSession ProofsSession2.
Import ListNotations.
Local Open Scope R_scope.

Lemma zip_at N (a : list (num N)) : forall b c x y, nth_error a c = Some x -> nth_error b c = Some y -> nth_error (zip_add N a b) c = Some (nadd N x y).
Proof.
  induction a as [|u a IH]; intros [|v b] [|c] x y Ha Hb; cbn in *; try discriminate.
  - congruence.
  - apply IH; assumption.
Qed.
Lemma zip_length N (a : list (num N)) : forall b w, length a = w -> length b = w -> length (zip_add N a b) = w.
Proof. induction a as [|u a IH]; intros [|v b] w <- Hb; try discriminate; [reflexivity|]. cbn in *. f_equal. apply IH; [reflexivity|lia]. Qed.
Lemma in_ith {A} i (tabs : list (list A)) r : In r (ith i tabs) <-> exists t, In t tabs /\ nth_error t i = Some r.
Proof.
  unfold ith. rewrite in_flat_map. split; intros (t & Ht & H); exists t; split; try exact Ht.
  - destruct (nth_error t i); [destruct H as [->|[]]; reflexivity|destruct H].
  - rewrite H. left. reflexivity.
Qed.
Lemma ith_length {A} i (tabs : list (list A)) : (length (ith i tabs) <= length tabs)%nat.
Proof. unfold ith. induction tabs as [|t tabs IH]; [cbn; lia|]. cbn [flat_map length]. rewrite app_length. destruct (nth_error t i); cbn [length]; lia. Qed.

(** * The number of files *)
Definition counts (k : Z) (x : f64) : Prop := is_number x /\ fval x = IZR k.
Lemma count1 : counts 1 (f_ofZ 1). Proof. destruct (ofZ_val 1 ltac:(lia)) as [V E]. split; [exact V|exact E]. Qed.
Lemma count_add k x : (0 <= k)%Z -> (k + 1 < 2 ^ 53)%Z -> counts k x -> counts (k + 1) (f_add x (f_ofZ 1)).
Proof.
  intros K0 K [V E]. destruct count1 as [V1 E1]. assert (R : rnd (fval x + fval (f_ofZ 1)) = IZR (k + 1)).
  { rewrite E, E1, <- plus_IZR. apply rnd_IZR. lia. }
  destruct (add_val x (f_ofZ 1) V V1) as [V' E'].
  - rewrite R. apply IZR_lt_fmax. lia.
  - split; [exact V'|]. rewrite E'. exact R.
Qed.
Lemma fit_quot k z x c : zok z -> (0 < k)%Z -> counts k c -> fit (k * z) x -> fit z (f_div x c).
Proof.
  intros Hz Hk [Vk Ek] [Vx Bx]. assert (P : 0 < IZR k) by (apply IZR_lt; lia).
  assert (S : Rabs (fval x / fval c) <= IZR z * q16).
  { rewrite Ek. unfold Rdiv. rewrite Rabs_mult, (Rabs_pos_eq (/ IZR k)) by (left; apply Rinv_0_lt_compat; exact P).
    apply (Rmult_le_reg_r (IZR k)); [exact P|]. rewrite Rmult_assoc, Rinv_l, Rmult_1_r by lra. rewrite mult_IZR in Bx. lra. }
  destruct (rnd_fit _ _ Hz S) as [C F]. destruct (div_val x c Vx Vk) as [V E]; [rewrite Ek; lra|exact F|]. split; [exact V|rewrite E; exact C].
Qed.

(** * One column of one row *)
Section Col.
Context (L : libm) (c : nat).
Notation N := (F64 L).
Lemma fold_fit z (Z0 : (0 <= z)%Z) (rs : list (list (num N))) : forall k (n : num N) (d : list (num N)) x, (1 <= k)%Z -> counts k n -> nth_error d c = Some x -> fit (k * z) x ->
  (forall r, In r rs -> exists y, nth_error r c = Some y /\ fit z y) -> (k + Z.of_nat (length rs) < 2 ^ 53)%Z -> ((k + Z.of_nat (length rs)) * z < 2 ^ 53)%Z ->
  exists n' d' x', fold_left (addrow N) rs (Some (n, d)) = Some (n', d') /\ counts (k + Z.of_nat (length rs)) n' /\ nth_error d' c = Some x' /\ fit ((k + Z.of_nat (length rs)) * z) x'.
Proof.
  induction rs as [|r rs IH]; intros k n d x K Cn Hd Fx Hr B1 B2.
  - exists n, d, x. cbn [length Z.of_nat]. rewrite Z.add_0_r. auto.
  - cbn [fold_left addrow]. destruct (Hr r (or_introl eq_refl)) as (y & Hy & Fy).
    cbn [length] in B1, B2 |- *. rewrite Nat2Z.inj_succ in B1, B2 |- *.
    destruct (IH (k + 1)%Z (nadd N n (nofZ N 1)) (zip_add N d r) (nadd N x y)) as (n' & d' & x' & E & C & H & F).
    + lia.
    + apply count_add; [lia|lia|exact Cn].
    + apply zip_at; assumption.
    + replace ((k + 1) * z)%Z with (k * z + z)%Z by lia. apply fit_add; [unfold zok; nia|nia|lia|exact Fx|exact Fy].
    + intros r' H. apply Hr. right. exact H.
    + lia.
    + nia.
    + exists n', d', x'. replace (k + Z.succ (Z.of_nat (length rs)))%Z with (k + 1 + Z.of_nat (length rs))%Z by lia. auto.
Qed.
Lemma fold_nan (rs : list (list (num N))) : forall (n : num N) (d : list (num N)) x, nth_error d c = Some x ->
  (forall r, In r rs -> exists y, nth_error r c = Some y) -> (x = S754_nan \/ exists r, In r rs /\ nth_error r c = Some S754_nan) ->
  exists n' d', fold_left (addrow N) rs (Some (n, d)) = Some (n', d') /\ nth_error d' c = Some S754_nan.
Proof.
  induction rs as [|r rs IH]; intros n d x Hd Hr Hn.
  - destruct Hn as [->|(r & [] & _)]. exists n, d. auto.
  - cbn [fold_left addrow]. destruct (Hr r (or_introl eq_refl)) as (y & Hy).
    apply (IH _ _ (nadd N x y)); [apply zip_at; assumption|intros r' H; apply Hr; right; exact H|].
    destruct Hn as [->|(r' & [<-|H] & E)].
    + left. reflexivity.
    + left. rewrite E in Hy. injection Hy as <-. exact (f_add_nan_r x).
    + right. exists r'. auto.
Qed.
End Col.
Lemma fold_length N w (rs : list (list (num N))) : forall (n : num N) (d : list (num N)), length d = w -> (forall r, In r rs -> length r = w) ->
  forall n' d', fold_left (addrow N) rs (Some (n, d)) = Some (n', d') -> length d' = w.
Proof.
  induction rs as [|r rs IH]; intros n d Hd Hr n' d' E; cbn [fold_left addrow] in E; [congruence|].
  eapply IH; [|intros r' H; apply Hr; right; exact H|exact E]. apply zip_length; [exact Hd|apply Hr; left; reflexivity].
Qed.

(** * The lines of the average *)
Definition table_file (p : line f64 * list (list f64)) : list (line f64) := fst p :: map numbers (snd p).
Definition capacity L (conf : config f64) : Prop := (24 * ntou64 (F64 L) (ndiv (F64 L) (c_t (conf : config (num (F64 L)))) (c_dt (conf : config (num (F64 L))))) <= 2 ^ 63 - 1)%Z.
Lemma rows_table L p : rows_of (F64 L) (table_file p) = snd p.
Proof.
  unfold rows_of, table_file. cbn [skipn]. rewrite map_map. rewrite <- (map_id (snd p)) at 2. apply map_ext. intro r. exact (parse_numbers (F64 L) r).
Qed.
Lemma average_at L conf fs i : capacity L conf -> exists ls, average (F64 L) conf (map table_file fs) = Ok ls /\
  nth_error ls i = option_map (out_line (F64 L)) (fold_left (addrow (F64 L)) (ith i (map snd fs)) None) /\
  length ls = fold_right Nat.max 0%nat (map (fun p => length (snd p)) fs).
Proof.
  intros H. eexists. split; [exact (average_total (F64 L) conf (map table_file fs) H)|].
  assert (E : map (rows_of (F64 L)) (map table_file fs) = map snd fs) by (rewrite map_map; apply map_ext; intro p; apply rows_table).
  rewrite E. split.
  - rewrite nth_error_map. f_equal. unfold merged. rewrite (nth_merged (F64 L) (map snd fs) i []). destruct i; reflexivity.
  - rewrite map_length. unfold merged.
    assert (M : forall (st : list (entry (F64 L))) t, length (merge (F64 L) st t) = Nat.max (length st) (length t)).
    { induction st as [|[n d] st IH]; intros [|r t]; cbn [merge length Nat.max]; try reflexivity; [rewrite map_length; reflexivity|]. f_equal. apply IH. }
    assert (G : forall tabs (st : list (entry (F64 L))), length (fold_left (merge (F64 L)) tabs st) = Nat.max (length st) (fold_right Nat.max 0%nat (map (@length (list f64)) tabs))).
    { induction tabs as [|t tabs IH]; intros st; cbn [fold_left fold_right map]; [lia|]. rewrite IH, M. change (num (F64 L)) with f64. lia. }
    rewrite G. cbn [length Nat.max]. rewrite map_map. reflexivity.
Qed.
Lemma small_fit z x : small (IZR z / 65536) x <-> fit z x.
Proof. unfold small, fit. rewrite value_fval, q16_val. split; intros [V B]; (split; [exact V|]); lra. Qed.
Lemma fold_start L (rs : list (list f64)) r0 : fold_left (addrow (F64 L)) (r0 :: rs) None = fold_left (addrow (F64 L)) rs (Some (f_ofZ 1, r0)).
Proof. reflexivity. Qed.

Lemma pool_column L conf fs z i c : capacity L conf -> (0 <= z)%Z -> (Z.of_nat (length fs) < 2 ^ 53)%Z -> (Z.of_nat (length fs) * z < 2 ^ 53)%Z ->
  (exists row, has_row (map snd fs) i row) ->
  (forall row, has_row (map snd fs) i row -> exists x, nth_error row c = Some x /\ small (IZR z / 65536) x) ->
  exists ls vals x, average (F64 L) conf (map table_file fs) = Ok ls /\ nth_error ls i = Some (numbers vals) /\ nth_error vals c = Some x /\ small (IZR z / 65536) x.
Proof.
  intros Hc Z0 B1 B2 (row & Hrow) HR. destruct (average_at L conf fs i Hc) as (ls & E & EN & _). exists ls.
  assert (LE := ith_length i (map snd fs)). rewrite map_length in LE.
  assert (HI : forall r, In r (ith i (map snd fs)) -> exists x, nth_error r c = Some x /\ fit z x).
  { intros r H. apply in_ith in H. destruct (HR r H) as (x & X1 & X2). exists x. split; [exact X1|apply small_fit; exact X2]. }
  assert (Hin : In row (ith i (map snd fs))) by (apply in_ith; exact Hrow).
  destruct (ith i (map snd fs)) as [|r0 rs]; [destruct Hin|]. clear Hin. cbn [length] in LE.
  assert (LB : (1 + Z.of_nat (length rs) <= Z.of_nat (length fs))%Z) by lia.
  destruct (HI r0 (or_introl eq_refl)) as (x0 & H0 & F0).
  destruct (fold_fit L c z Z0 rs 1 (f_ofZ 1) r0 x0) as (n' & d' & x' & Ef & Cn & Hd & Fx); [lia|exact count1|exact H0|rewrite Z.mul_1_l; exact F0|intros r H; apply HI; right; exact H|exact (Z.le_lt_trans _ _ _ LB B1)|exact (Z.le_lt_trans _ _ _ (Z.mul_le_mono_nonneg_r _ _ z Z0 LB) B2)|].
  assert (EN2 := eq_trans EN (f_equal (option_map (out_line (F64 L))) Ef)). cbn [option_map] in EN2. unfold out_line in EN2. cbn [fst snd] in EN2.
  eexists _, (f_div x' n'). split; [exact E|]. split; [exact EN2|]. split; [rewrite nth_error_map, Hd; reflexivity|].
  apply small_fit. apply (fit_quot (1 + Z.of_nat (length rs))); [|lia|exact Cn|exact Fx]. split; [exact Z0|]. eapply Z.le_lt_trans; [|exact B2]. rewrite <- (Z.mul_1_l z) at 1. apply Z.mul_le_mono_nonneg_r; lia.
Qed.
Lemma pool_nan L conf fs i c : capacity L conf -> (exists row, has_row (map snd fs) i row /\ nth_error row c = Some S754_nan) ->
  (forall row, has_row (map snd fs) i row -> (c < length row)%nat) ->
  exists ls vals, average (F64 L) conf (map table_file fs) = Ok ls /\ nth_error ls i = Some (numbers vals) /\ nth_error vals c = Some S754_nan.
Proof.
  intros Hc (row & Hrow & Hn) HR. destruct (average_at L conf fs i Hc) as (ls & E & EN & _). exists ls.
  assert (HI : forall r, In r (ith i (map snd fs)) -> exists x, nth_error r c = Some x).
  { intros r H. apply in_ith in H. assert (Hl := HR r H). destruct (nth_error r c) as [x|] eqn:G; [exists x; reflexivity|]. apply nth_error_None in G. lia. }
  assert (Hin : In row (ith i (map snd fs))) by (apply in_ith; exact Hrow).
  destruct (ith i (map snd fs)) as [|r0 rs]; [destruct Hin|].
  destruct (HI r0 (or_introl eq_refl)) as (x0 & H0).
  destruct (fold_nan L c rs (f_ofZ 1) r0 x0 H0) as (n' & d' & Ef & Hd).
  - intros r H. apply HI. right. exact H.
  - destruct Hin as [->|Hin]; [left; congruence|right; exists row; auto].
  - assert (EN2 := eq_trans EN (f_equal (option_map (out_line (F64 L))) Ef)). cbn [option_map] in EN2. unfold out_line in EN2. cbn [fst snd] in EN2.
    eexists. split; [exact E|]. split; [exact EN2|]. rewrite nth_error_map, Hd. reflexivity.
Qed.
Lemma pool_length L conf fs i w : capacity L conf -> (forall row, has_row (map snd fs) i row -> length row = w) ->
  exists ls, average (F64 L) conf (map table_file fs) = Ok ls /\ forall vals, nth_error ls i = Some vals -> exists v, vals = numbers v /\ length v = w.
Proof.
  intros Hc HR. destruct (average_at L conf fs i Hc) as (ls & E & EN & _). exists ls. split; [exact E|]. intros vals Hv. rewrite Hv in EN.
  assert (HI : forall r, In r (ith i (map snd fs)) -> length r = w) by (intros r H; apply in_ith in H; exact (HR r H)).
  destruct (ith i (map snd fs)) as [|r0 rs]; [discriminate|]. rewrite fold_start in EN.
  destruct (fold_left (addrow (F64 L)) rs (Some (f_ofZ 1, r0))) as [[n' d']|] eqn:Ef; [|discriminate]. injection EN as ->.
  eexists. split; [reflexivity|]. cbn [fst snd]. rewrite map_length.
  apply (fold_length (F64 L) w rs (f_ofZ 1) r0) with (n' := n'); [apply HI; left; reflexivity|intros r H; apply HI; right; exact H|exact Ef].
Qed.
