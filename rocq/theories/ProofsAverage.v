From Coq Require Import String Reals ZArith List Arith Lia Lra Permutation Bool.
From Verif Require Import Num Monad NumR Config Files Writers Average SpecWriters SpecAverage ProofsChain ProofsWriters.
Import ListNotations.
Local Open Scope nat_scope.

Section Gen.
Context (N : NumOps).
Notation T := (num N).

Definition entry : Type := T * list T.
Fixpoint merge (st : list entry) (rows : list (list T)) : list entry :=
  match st, rows with
  | [], _ => map (fun r => (nofZ N 1, r)) rows
  | _, [] => st
  | (c, d) :: st, r :: rows => (nadd N c (nofZ N 1), zip_add N d r) :: merge st rows
  end.
Definition split_st (st : list entry) : store N := (map fst st, map snd st).

Lemma upd_app {A} (p : list A) x y q n : length p = n -> upd (p ++ x :: q) n y = p ++ y :: q.
Proof. intros <-. induction p as [|a p IH]; [reflexivity|]. cbn. f_equal. exact IH. Qed.
Lemma set_app {A} (p : list A) x y q n : length p = n -> set_idx (p ++ x :: q) n y = Ok (p ++ y :: q).
Proof.
  intros H. unfold set_idx. rewrite app_length. cbn [length]. destruct (Nat.ltb_spec n (length p + S (length q))); [|lia].
  rewrite (upd_app p x y q n H). reflexivity.
Qed.
Lemma idx_app {A} (p : list A) x q n : length p = n -> idx (p ++ x :: q) n = Ok x.
Proof. intros <-. unfold idx. rewrite nth_error_app2, Nat.sub_diag by lia. reflexivity. Qed.

Lemma add_lines_merge rows : forall p st,
  add_lines N (length p) rows (split_st (p ++ st)) = Ok (split_st (p ++ merge st rows)).
Proof.
  induction rows as [|r rows IH]; intros p st.
  - cbn. destruct st as [|[c d] st]; cbn [merge map]; reflexivity.
  - cbn [add_lines]. unfold add_line, split_st.
    rewrite map_length. destruct st as [|[c d] st].
    + rewrite app_nil_r. rewrite Nat.eqb_refl. cbn [bind].
      specialize (IH (p ++ [(nofZ N 1, r)]) []). rewrite app_length in IH. cbn [length] in IH. rewrite Nat.add_1_r in IH.
      rewrite app_nil_r in IH. unfold split_st in IH. rewrite !map_app in IH. cbn [map fst snd] in IH.
      etransitivity; [exact IH|]. cbn [merge map]. rewrite !map_app. destruct rows; cbn [map merge fst snd]; rewrite <- !app_assoc; reflexivity.
    + rewrite app_length. cbn [length]. destruct (Nat.eqb_spec (length p) (length p + S (length st))); [lia|].
      rewrite !map_app. cbn [map fst snd].
      change entry with (T * list T)%type in *.
      rewrite (idx_app (map fst p) c _ (length p)) by apply map_length. cbn [bind].
      rewrite (set_app (map fst p) c _ _ (length p)) by apply map_length. cbn [bind].
      rewrite (idx_app (map snd p) d _ (length p)) by apply map_length. cbn [bind].
      rewrite (set_app (map snd p) d _ _ (length p)) by apply map_length. cbn [bind].
      specialize (IH (p ++ [(nadd N c (nofZ N 1), zip_add N d r)]) st). rewrite app_length in IH. cbn [length] in IH.
      rewrite Nat.add_1_r, <- !app_assoc in IH. cbn [app] in IH. unfold split_st in IH. rewrite !map_app in IH.
      cbn [map fst snd] in IH. etransitivity; [exact IH|]. cbn [merge]. reflexivity.
Qed.

Definition out_line (e : entry) : line T := numbers (map (fun x => ndiv N x (fst e)) (snd e)).
Lemma means_split st : means N (split_st st) = Ok (map out_line st).
Proof.
  unfold means, split_st. rewrite map_length, range0.
  rewrite (ProofsChain.mapM_ok _ (fun i => out_line (nth i st (nofZ N 0, [])))).
  - f_equal. apply (list_ext_nth (A := line T) []).
    + rewrite !map_length, seq_length. reflexivity.
    + intros i Hi. rewrite map_length, seq_length in Hi. rewrite nth_map_seq by exact Hi.
      rewrite (nth_indep _ [] (out_line (nofZ N 0, []))) by (rewrite map_length; exact Hi). rewrite map_nth. reflexivity.
  - intros i Hi. apply in_seq in Hi. 
    rewrite (idx_ok _ i (snd (nofZ N 0, @nil T))) by (rewrite map_length; lia). cbn [bind].
    rewrite (idx_ok _ i (fst (nofZ N 0, @nil T))) by (rewrite map_length; lia). cbn [bind].
    rewrite !map_nth. reflexivity.
Qed.

Definition rows_of (f : list (line T)) : list (list T) := map (parse_line N) (skipn 1 f).
Definition merged (tabs : list (list (list T))) : list entry := fold_left merge tabs [].

Lemma files_merge files : forall st,
  foldM (avg_file N) files (split_st st) = Ok (split_st (fold_left merge (map rows_of files) st)).
Proof.
  induction files as [|f files IH]; intros st; [reflexivity|]. cbn [foldM map fold_left].
  unfold avg_file at 1. pose proof (add_lines_merge (rows_of f) [] st) as E. cbn [app length] in E.
  unfold rows_of at 1 in E. rewrite E. cbn [bind]. apply IH.
Qed.

Definition fits (conf : config T) : Prop := (24 * ntou64 N (ndiv N (c_t conf) (c_dt conf)) <= 2 ^ 63 - 1)%Z.

Lemma average_total conf files : fits conf -> average N conf files = Ok (map out_line (merged (map rows_of files))).
Proof.
  intros H. unfold average. destruct (Z.ltb_spec (2 ^ 63 - 1) (24 * ntou64 N (ndiv N (c_t conf) (c_dt conf)))).
  { unfold fits in H. lia. }
  pose proof (files_merge files []) as E. change (split_st []) with (@nil T, @nil (list T)) in E. rewrite E. cbn [bind].
  apply means_split.
Qed.
Lemma average_capacity conf files : ~ fits conf -> average N conf files = Panic Overflow.
Proof.
  intros H. unfold average, fits in *. destruct (Z.ltb_spec (2 ^ 63 - 1) (24 * ntou64 N (ndiv N (c_t conf) (c_dt conf)))); [reflexivity|].
  exfalso. lia.
Qed.

(** the i-th entry depends on the i-th rows only *)
Definition ith {A} (i : nat) (tabs : list (list A)) : list A :=
  flat_map (fun t => match nth_error t i with Some r => [r] | None => [] end) tabs.
Definition addrow (o : option entry) (r : list T) : option entry :=
  match o with
  | None => Some (nofZ N 1, r)
  | Some (c, d) => Some (nadd N c (nofZ N 1), zip_add N d r)
  end.

Lemma nth_merge st : forall rows i, nth_error (merge st rows) i =
  match nth_error rows i with Some r => addrow (nth_error st i) r | None => nth_error st i end.
Proof.
  induction st as [|[c d] st IH]; intros rows i.
  - replace (merge [] rows) with (map (fun r => (nofZ N 1, r)) rows) by (destruct rows; reflexivity).
    rewrite nth_error_map. destruct i; cbn; [destruct rows|destruct (nth_error rows (S i)) eqn:E; cbn in *; rewrite ?E]; reflexivity.
  - destruct rows as [|r rows]; [cbn; destruct i; reflexivity|]. destruct i as [|i]; [reflexivity|]. cbn. apply IH.
Qed.
Lemma nth_merged tabs i : forall st,
  nth_error (fold_left merge tabs st) i = fold_left addrow (ith i tabs) (nth_error st i).
Proof.
  induction tabs as [|t tabs IH]; intros st; [reflexivity|]. cbn [fold_left]. rewrite IH, nth_merge.
  unfold ith. cbn [flat_map]. destruct (nth_error t i); reflexivity.
Qed.
End Gen.

Lemma bind_panic {A B} (m : res A) (f : A -> res B) p : m = Panic p -> bind m f = Panic p.
Proof. intros ->. reflexivity. Qed.
Lemma bind_eq {A B} (m : res A) (f : A -> res B) a r : m = Ok a -> f a = r -> bind m f = r.
Proof. intros -> H. exact H. Qed.
Lemma nth_error_ext {A} (l1 l2 : list A) : (forall i, nth_error l1 i = nth_error l2 i) -> l1 = l2.
Proof.
  revert l2. induction l1 as [|x l1 IH]; intros [|y l2] H; [reflexivity|specialize (H 0); discriminate|specialize (H 0); discriminate|].
  pose proof (H 0) as H0. cbn in H0. injection H0 as ->. f_equal. apply IH. intros i. exact (H (S i)).
Qed.

(** ** Exact arithmetic *)
Lemma zip_add_comm (a b : list ER) : zip_add ERNum a b = zip_add ERNum b a.
Proof.
  revert b. induction a as [|x a IH]; intros [|y b]; try reflexivity. cbn. rewrite IH. f_equal.
  destruct x, y; cbn; try reflexivity. f_equal. lra.
Qed.
Lemma zip_add_assoc (a b c : list ER) : zip_add ERNum (zip_add ERNum a b) c = zip_add ERNum a (zip_add ERNum b c).
Proof.
  revert b c. induction a as [|x a IH]; intros [|y b] [|z c]; try reflexivity. cbn. rewrite IH. f_equal.
  destruct x, y, z; cbn; try reflexivity. f_equal. lra.
Qed.
Lemma addrow_swap o x y : addrow ERNum (addrow ERNum o x) y = addrow ERNum (addrow ERNum o y) x.
Proof.
  destruct o as [[c d]|]; cbn [addrow].
  - do 2 f_equal. rewrite !zip_add_assoc. f_equal. apply zip_add_comm.
  - do 2 f_equal. apply zip_add_comm.
Qed.
Lemma fold_left_perm {A B} (f : A -> B -> A) : (forall a x y, f (f a x) y = f (f a y) x) ->
  forall l l', Permutation l l' -> forall a, fold_left f l a = fold_left f l' a.
Proof.
  intros Hf l l' H. induction H as [|x l l' H IH|x y l|l l' l'' H1 IH1 H2 IH2]; intros a; cbn; congruence.
Qed.
Lemma ith_perm {A} i (ts ts' : list (list A)) : Permutation ts ts' -> Permutation (ith i ts) (ith i ts').
Proof. intros H. unfold ith. apply Permutation_flat_map. exact H. Qed.

Lemma average_order conf files files' : Permutation files files' -> average ERNum conf files = average ERNum conf files'.
Proof.
  intros H. unfold average. destruct (_ <? _)%Z; [reflexivity|].
  pose proof (files_merge ERNum files []) as E. pose proof (files_merge ERNum files' []) as E'.
  change (split_st ERNum []) with (@nil ER, @nil (list ER)) in E, E'. cbn [num ERNum] in *. rewrite E, E'. cbn [bind].
  f_equal. f_equal. apply nth_error_ext. intros i. rewrite !nth_merged.
  apply fold_left_perm; [intros; apply addrow_swap|]. apply ith_perm, Permutation_map, H.
Qed.

(** rows of finite tables *)
Lemma parse_as_line r : parse_line ERNum (as_line r) = map Some r.
Proof. unfold parse_line, as_line, numbers. induction r as [|x r IH]; [reflexivity|]. cbn. f_equal. exact IH. Qed.
Lemma rows_as_file h rows : rows_of ERNum (as_file h rows) = map (map Some) rows.
Proof.
  unfold rows_of, as_file. cbn [skipn]. rewrite map_map. apply map_ext. intros r. apply parse_as_line.
Qed.

Fixpoint zipR (a b : list R) : list R := match a, b with x :: a, y :: b => (x + y)%R :: zipR a b | _, _ => [] end.
Lemma zip_fin a b : zip_add ERNum (map Some a) (map Some b) = map Some (zipR a b).
Proof. revert b. induction a as [|x a IH]; intros [|y b]; try reflexivity. cbn. f_equal. apply IH. Qed.
Lemma zipR_length a b : length (zipR a b) = Nat.min (length a) (length b).
Proof. revert b. induction a as [|x a IH]; intros [|y b]; try reflexivity. cbn. f_equal. apply IH. Qed.
Lemma zipR_nth a b j : j < Nat.min (length a) (length b) -> nth j (zipR a b) 0%R = (nth j a 0 + nth j b 0)%R.
Proof.
  revert b j. induction a as [|x a IH]; intros [|y b] [|j] H; cbn in *; try lia; try reflexivity. apply IH. lia.
Qed.

Lemma addrow_fin rs : forall c d,
  fold_left (addrow ERNum) (map (map Some) rs) (Some (Some c, map Some d))
  = Some (Some (c + INR (length rs))%R, map Some (fold_left zipR rs d)).
Proof.
  induction rs as [|r rs IH]; intros c d; cbn [map fold_left length].
  - cbn [INR]. rewrite Rplus_0_r. reflexivity.
  - cbn [addrow]. rewrite zip_fin. change (nadd ERNum (Some c) (nofZ ERNum 1)) with (Some (c + 1)%R). rewrite IH.
    rewrite S_INR. do 3 f_equal. lra.
Qed.
Lemma fold_zip_length rs : forall d, length (fold_left zipR rs d) = fold_right Nat.min (length d) (map (@length R) rs).
Proof.
  induction rs as [|r rs IH]; intros d; [reflexivity|]. cbn [fold_left map fold_right]. rewrite IH, zipR_length.
  clear. induction rs as [|s rs IHs]; cbn [map fold_right]; lia.
Qed.
Lemma fold_zip_nth rs j : forall d, j < fold_right Nat.min (length d) (map (@length R) rs) ->
  nth j (fold_left zipR rs d) 0%R = (nth j d 0 + rsum (map (fun r => nth j r 0) rs))%R.
Proof.
  induction rs as [|r rs IH]; intros d H.
  - unfold rsum. cbn. lra.
  - cbn [fold_left map fold_right] in *.
    assert (Hm : fold_right Nat.min (length (zipR d r)) (map (@length R) rs) = Nat.min (length r) (fold_right Nat.min (length d) (map (@length R) rs))).
    { rewrite zipR_length. clear. induction rs as [|s rs IHs]; cbn [map fold_right]; lia. }
    rewrite IH by lia. rewrite zipR_nth.
    + unfold rsum. cbn [fold_right]. lra.
    + enough (fold_right Nat.min (length d) (map (@length R) rs) <= length d) by lia.
      clear. induction rs as [|s rs IHs]; cbn [map fold_right]; lia.
Qed.

Lemma out_fin c d : c <> 0%R -> out_line ERNum (Some c, map Some d) = as_line (map (fun x => x / c)%R d).
Proof.
  intros Hc. unfold out_line, as_line. cbn [fst snd]. rewrite !map_map. f_equal. apply map_ext. intros x.
  cbn [ndiv ERNum]. unfold er_div. destruct (Req_EM_T c 0); [contradiction|reflexivity].
Qed.

Lemma ith_map i (ts : list table) : ith i (map (map (map Some)) ts) = map (map Some) (ith_rows i ts).
Proof.
  unfold ith, ith_rows. induction ts as [|t ts IH]; [reflexivity|]. cbn [map flat_map]. rewrite IH, nth_error_map, map_app.
  destruct (nth_error t i); reflexivity.
Qed.

Lemma ith_rows_nil i ts : ith_rows i ts = [] <-> height ts <= i.
Proof.
  unfold ith_rows, height. induction ts as [|t ts IH]; cbn [flat_map map fold_right]; [split; intros; [lia|reflexivity]|].
  destruct (nth_error t i) eqn:E.
  - assert (i < length t) by (apply nth_error_Some; congruence). split; [discriminate|lia].
  - apply nth_error_None in E. cbn [app]. rewrite IH. lia.
Qed.

Lemma map_nth_div rs r c : fold_right Nat.min (length r) (map (@length R) rs) = width (r :: rs) -> c = INR (length (r :: rs)) ->
  map (fun x => x / c)%R (fold_left zipR rs r) = mean_row (r :: rs).
Proof.
  intros Hw Hc. unfold mean_row. apply (list_ext_nth 0%R).
  - rewrite !map_length, seq_length, fold_zip_length. exact Hw.
  - intros j Hj. rewrite map_length, fold_zip_length in Hj.
    rewrite nth_map_seq by (rewrite <- Hw; exact Hj).
    rewrite (nth_indep _ 0%R (0 / c)%R) by (rewrite map_length, fold_zip_length; exact Hj).
    rewrite (map_nth (fun x => (x / c)%R)), fold_zip_nth by exact Hj. unfold avg. rewrite map_length, Hc.
    unfold rsum. cbn [map fold_right]. reflexivity.
Qed.

Lemma merged_tables ts :
  map (out_line ERNum) (merged ERNum (map (map (map Some)) ts)) = map as_line (mean_table ts).
Proof.
  apply nth_error_ext. intros i. rewrite nth_error_map. unfold merged. rewrite nth_merged.
  replace (nth_error (@nil (entry ERNum)) i) with (@None (entry ERNum)) by (destruct i; reflexivity).
  rewrite ith_map. rewrite nth_error_map. unfold mean_table. rewrite nth_error_map.
  destruct (ith_rows i ts) as [|r rs] eqn:E.
  - apply ith_rows_nil in E. rewrite (proj2 (nth_error_None (seq 0 (height ts)) i)) by (rewrite seq_length; exact E). reflexivity.
  - assert (Hi : i < height ts).
    { destruct (Nat.lt_ge_cases i (height ts)) as [H|H]; [exact H|]. apply ith_rows_nil in H. rewrite H in E. discriminate. }
    rewrite (nth_error_nth' _ 0) by (rewrite seq_length; exact Hi). rewrite seq_nth by exact Hi. cbn [option_map Nat.add].
    rewrite E. cbn [map fold_left].
    transitivity (option_map (out_line ERNum) (Some (Some (1 + INR (length rs))%R, map Some (fold_left zipR rs r)))).
    { f_equal. exact (addrow_fin rs 1%R r). }
    cbn [option_map]. f_equal.
    rewrite out_fin. 2:{ pose proof (pos_INR (length rs)). lra. }
    f_equal. apply map_nth_div; [reflexivity|]. cbn [length]. rewrite S_INR. lra.
Qed.

Lemma average_means conf (fs : list (line ER * table)) : fits ERNum conf ->
  average ERNum conf (map (fun p => as_file (fst p) (snd p)) fs) = Ok (map as_line (mean_table (map snd fs))).
Proof.
  intros H. rewrite average_total by exact H. f_equal. rewrite map_map.
  assert (E : map (fun p : line ER * table => rows_of ERNum (as_file (fst p) (snd p))) fs = map (map (map Some)) (map snd fs)).
  { rewrite map_map. apply map_ext. intros p. apply rows_as_file. }
  etransitivity; [|exact (merged_tables (map snd fs))]. do 2 f_equal. exact E.
Qed.

(** ** two_point_average *)
Definition is_zerob (r : list R) : bool :=
  match r with [] => false | t :: _ => if Rlt_dec (Rabs t) (1 / 100000) then true else false end.
Lemma is_zerob_spec r : is_zerob r = true <-> is_zero_row r.
Proof.
  unfold is_zerob, is_zero_row. destruct r as [|t r].
  - split; [discriminate|]. intros (t & rest & H & _). discriminate.
  - destruct (Rlt_dec (Rabs t) (1 / 100000)) as [H|H].
    + split; [intros _; eauto|reflexivity].
    + split; [discriminate|]. intros (t' & rest & [= <- <-] & H'). contradiction.
Qed.
Lemma t_zero_fold rows : Forall (fun r => r <> []) rows -> forall z,
  foldM (fun v z => let* x := idx v 0 in Ok (if nltb ERNum (nabs ERNum x) (nlit ERNum 1 5) then v else z))
    (map (map Some) rows) (map Some z)
  = Ok (map Some (fold_left (fun z r => if is_zerob r then r else z) rows z)).
Proof.
  induction 1 as [|r rows Hr H IH]; intros z; [reflexivity|]. cbn [map foldM fold_left].
  destruct r as [|t r]; [contradiction|]. cbn [map]. unfold idx at 1. cbn [nth_error bind].
  assert (E : (if nltb ERNum (nabs ERNum (Some t)) (nlit ERNum 1 5) then Some t :: map Some r else map Some z)
    = map Some (if is_zerob (t :: r) then t :: r else z)).
  { change (nltb ERNum (nabs ERNum (Some t)) (nlit ERNum 1 5)) with (Rltb (Rabs t) (1 / 100000)).
    unfold is_zerob, Rltb.
    destruct (Rlt_dec (Rabs t) (1 / 100000)); reflexivity. }
  etransitivity; [apply f_equal; exact E|apply IH].
Qed.
Lemma fold_last rows : forall z, ~ Exists is_zero_row rows -> fold_left (fun z r => if is_zerob r then r else z) rows z = z.
Proof.
  induction rows as [|r rows IH]; intros z H; [reflexivity|]. cbn.
  destruct (is_zerob r) eqn:E; [exfalso; apply H; left; apply is_zerob_spec; exact E|].
  apply IH. intros H'. apply H. right. exact H'.
Qed.
Lemma fold_zero rows z : zero_row rows z -> fold_left (fun z r => if is_zerob r then r else z) rows [] = z.
Proof.
  intros (b & a & -> & Hz & Ha). rewrite fold_left_app. cbn [fold_left].
  rewrite (proj2 (is_zerob_spec z) Hz). apply fold_last. intros H. rewrite Exists_exists in H. destruct H as (r & Hr & Hr').
  rewrite Forall_forall in Ha. exact (Ha r Hr Hr').
Qed.

Lemma t_zero_fin rows : Forall (fun r => r <> []) rows ->
  t_zero ERNum (map (map Some) rows) = Ok (map Some (fold_left (fun z r => if is_zerob r then r else z) rows [])).
Proof. intros H. exact (t_zero_fold rows H []). Qed.
Lemma times_zero_fin z r : length r <= length z -> r <> [] ->
  times_zero ERNum (map Some z) (map Some r) = Ok (map Some (correlate z r)).
Proof.
  intros Hl Hr. unfold times_zero. rewrite range0, map_length.
  rewrite (ProofsChain.mapM_ok _ (fun i => if i =? 0 then Some (nth i r 0)%R else Some (nth i r 0 * nth i z 0)%R)).
  - destruct r as [|t r]; [contradiction|]. cbn [length seq map correlate]. do 2 f_equal.
    rewrite Nat.sub_succ, Nat.sub_0_r, map_map. apply map_ext_in. intros i Hi. apply in_seq in Hi.
    destruct (Nat.eqb_spec i 0); [lia|reflexivity].
  - intros i Hi. apply in_seq in Hi.
    rewrite (idx_ok _ i (Some 0%R)) by (rewrite map_length; lia). cbn [bind]. rewrite (map_nth Some).
    destruct (i =? 0); [reflexivity|]. rewrite (idx_ok _ i (Some 0%R)) by (rewrite map_length; lia). cbn [bind].
    rewrite (map_nth Some). reflexivity.
Qed.

(** A file whose rows are not empty, with a time-zero row at least as long as every row *)
Definition tp_ok (rows : table) (z : list R) : Prop :=
  zero_row rows z /\ Forall (fun r => r <> [] /\ length r <= length z) rows.

Lemma two_point_file_ok h rows z st : tp_ok rows z ->
  two_point_file ERNum (as_file h rows) (split_st ERNum st)
  = Ok (split_st ERNum (merge ERNum st (map (map Some) (map (correlate z) rows)))).
Proof.
  intros [Hz Hr]. unfold two_point_file.
  change (map (parse_line ERNum) (skipn 1 (as_file h rows))) with (rows_of ERNum (as_file h rows)).
  rewrite rows_as_file.
  assert (Hne : Forall (fun r : list R => r <> []) rows) by (eapply Forall_impl; [|exact Hr]; intros r [A _]; exact A).
  eapply bind_eq; [exact (t_zero_fin rows Hne)|].
  rewrite (fold_zero rows z Hz).
  assert (E2 : mapM (times_zero ERNum (map Some z)) (map (map Some) rows) = Ok (map (map Some) (map (correlate z) rows))).
  { clear -Hr. induction Hr as [|r rows [A B] H IH]; [reflexivity|]. cbn [map mapM].
    eapply bind_eq; [exact (times_zero_fin z r B A)|]. eapply bind_eq; [exact IH|]. reflexivity. }
  eapply bind_eq; [exact E2|].
  exact (add_lines_merge ERNum (map (map Some) (map (correlate z) rows)) [] st).
Qed.

Lemma two_point_means (fs : list (line ER * table * list R)) :
  Forall (fun p => tp_ok (snd (fst p)) (snd p)) fs ->
  two_point_average ERNum (map (fun p => as_file (fst (fst p)) (snd (fst p))) fs)
  = Ok (map as_line (mean_table (map (fun p => map (correlate (snd p)) (snd (fst p))) fs))).
Proof.
  intros H. unfold two_point_average.
  assert (E : forall st, foldM (two_point_file ERNum) (map (fun p => as_file (fst (fst p)) (snd (fst p))) fs) (split_st ERNum st)
     = Ok (split_st ERNum (fold_left (merge ERNum) (map (map (map Some)) (map (fun p => map (correlate (snd p)) (snd (fst p))) fs)) st))).
  { induction H as [|[[h rows] z] fs Hp H IH]; intros st; [reflexivity|]. cbn [map foldM fold_left fst snd].
    cbn [fst snd] in Hp. rewrite (two_point_file_ok h rows z st Hp). cbn [bind]. apply IH. }
  eapply bind_eq; [exact (E [])|]. etransitivity; [apply means_split|]. f_equal. exact (merged_tables _).
Qed.

(** Panics *)
Definition noof {A} (m : res A) : Prop := match m with OutOfFuel => False | _ => True end.
Lemma noof_bind {A B} (m : res A) (f : A -> res B) : noof m -> (forall a, noof (f a)) -> noof (bind m f).
Proof. destruct m; cbn; auto. Qed.
Lemma noof_foldM {A B} (f : B -> A -> res A) l : (forall b a, noof (f b a)) -> forall a, noof (foldM f l a).
Proof. intros H. induction l as [|b l IH]; intros a; [exact I|]. cbn [foldM]. apply noof_bind; auto. Qed.
Lemma noof_mapM {A B} (f : B -> res A) l : (forall b, noof (f b)) -> noof (mapM f l).
Proof. intros H. induction l as [|b l IH]; [exact I|]. cbn [mapM]. apply noof_bind; [auto|]. intros x. apply noof_bind; [exact IH|]. intros y. exact I. Qed.
Lemma noof_idx {A} (l : list A) i : noof (idx l i).
Proof. unfold idx. destruct (nth_error l i); exact I. Qed.
Lemma noof_set {A} (l : list A) i x : noof (set_idx l i x).
Proof. unfold set_idx. destruct (i <? length l); exact I. Qed.
Lemma noof_add_lines N ls : forall i s, noof (add_lines N i ls s).
Proof.
  induction ls as [|v ls IH]; intros i s; [exact I|]. cbn [add_lines]. apply noof_bind; [|intros; apply IH].
  unfold add_line. destruct s as [nums data]. destruct (i =? length nums); [exact I|].
  apply noof_bind; [apply noof_idx|intros ?]. apply noof_bind; [apply noof_set|intros ?].
  apply noof_bind; [apply noof_idx|intros ?]. apply noof_bind; [apply noof_set|intros ?]. exact I.
Qed.
Lemma two_point_no_oof_file f s : noof (two_point_file ERNum f s).
Proof.
  unfold two_point_file, t_zero. apply noof_bind.
  { apply noof_foldM. intros v z. apply noof_bind; [apply noof_idx|intros ?; exact I]. }
  intros z. apply noof_bind.
  { apply noof_mapM. intros v. apply noof_mapM. intros i. apply noof_bind; [apply noof_idx|intros x].
    destruct (i =? 0); [exact I|]. apply noof_bind; [apply noof_idx|intros ?; exact I]. }
  intros vs. apply noof_add_lines.
Qed.
Lemma two_point_panics (files : list (list (line ER))) f :
  In f files -> (forall s, exists p, two_point_file ERNum f s = Panic p) ->
  exists p, two_point_average ERNum files = Panic p.
Proof.
  intros Hin Hf. unfold two_point_average.
  assert (H : forall s, exists p, foldM (two_point_file ERNum) files s = Panic p).
  { induction files as [|g files IH]; [destruct Hin|]. intros s. cbn [foldM].
    destruct Hin as [->|Hin].
    - destruct (Hf s) as (p & E). rewrite E. eexists. reflexivity.
    - pose proof (two_point_no_oof_file g s) as O. destruct (two_point_file ERNum g s) as [s'|p|]; cbn [bind].
      + apply IH, Hin.
      + eexists. reflexivity.
      + contradiction. }
  destruct (H ([], [])) as (p & E). cbn [num ERNum] in *. rewrite E. exists p. reflexivity.
Qed.

(** no time-zero row, and a row with a second column *)
Lemma two_point_file_nozero h rows r s : Forall (fun r => r <> []) rows -> ~ Exists is_zero_row rows ->
  In r rows -> 2 <= length r -> two_point_file ERNum (as_file h rows) s = Panic IndexOOB.
Proof.
  intros Hne Hz Hin Hl. unfold two_point_file.
  change (map (parse_line ERNum) (skipn 1 (as_file h rows))) with (rows_of ERNum (as_file h rows)).
  rewrite rows_as_file.
  eapply bind_eq; [exact (t_zero_fin rows Hne)|].
  rewrite fold_last by exact Hz. cbn [map].
  assert (X : mapM (times_zero ERNum []) (map (map Some) rows) = Panic IndexOOB).
  { clear -Hin Hl. induction rows as [|v rows IH]; [destruct Hin|]. cbn [map mapM].
    destruct v as [|x [|y v]].
    - destruct Hin as [<-|Hin]; [cbn in Hl; lia|]. eapply bind_eq; [reflexivity|]. apply bind_panic. exact (IH Hin).
    - destruct Hin as [<-|Hin]; [cbn in Hl; lia|]. eapply bind_eq; [reflexivity|]. apply bind_panic. exact (IH Hin).
    - apply bind_panic. reflexivity. }
  exact (bind_panic _ _ _ X).
Qed.
(** an empty line after the first *)
Lemma two_point_file_blank f s : In [] (map (parse_line ERNum) (skipn 1 f)) -> two_point_file ERNum f s = Panic IndexOOB.
Proof.
  intros H. unfold two_point_file, t_zero.
  assert (A : forall (ls : list (list ER)) z, In [] ls -> foldM (fun v z => let* x := idx v 0 in
      Ok (if nltb ERNum (nabs ERNum x) (nlit ERNum 1 5) then v else z)) ls z = Panic IndexOOB).
  { induction ls as [|l ls IH]; intros z; [intros []|]. cbn [foldM]. intros [->|Hi]; [reflexivity|].
    unfold idx at 1. destruct l; cbn [nth_error bind]; [reflexivity|]. apply IH, Hi. }
  exact (bind_panic _ _ _ (A _ [] H)).
Qed.
