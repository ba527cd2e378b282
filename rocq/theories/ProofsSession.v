(** Averages over the logs of several invocations: numbers with NaN, directories. *)
From Coq Require Import String Reals ZArith List Arith Lia Lra Permutation Bool.
From Verif Require Import Num Monad NumR Config Files Toml Writers Average Runs Main SpecToml SpecWriters SpecAverage SpecRuns SpecSession
  ProofsChain ProofsWriters ProofsAverage ProofsDir ProofsNames ProofsFrame ProofsHistory.
Import ListNotations.
Local Close Scope R_scope.
Local Open Scope nat_scope.

(** ** Means *)
Lemma sum_ER l : forall x : ER, fold_left (nadd ERNum) l x
  = match x, all_numbers l with Some a, Some r => Some (a + rsum r)%R | _, _ => None end.
Proof.
  induction l as [|y l IH]; intros x; cbn [fold_left all_numbers].
  - destruct x as [a|]; [|reflexivity]. f_equal. unfold rsum. cbn. lra.
  - etransitivity; [apply IH|]. destruct x as [a|]; [|reflexivity]. destruct y as [b|]; [|reflexivity].
    cbn [nadd ERNum]. destruct (all_numbers l) as [r|]; [|reflexivity]. cbn. f_equal. unfold rsum. cbn [fold_right]. lra.
Qed.
Lemma all_length l r : all_numbers l = Some r -> length r = length l.
Proof.
  revert r. induction l as [|x l IH]; intros r; cbn; [intros [= <-]; reflexivity|].
  destruct x as [a|]; [|discriminate]. destruct (all_numbers l) as [q|]; [|discriminate]. intros [= <-]. cbn. f_equal. apply IH. reflexivity.
Qed.
Lemma emean_sum x l : ndiv ERNum (fold_left (nadd ERNum) l x) (Some (1 + INR (length l))%R) = emean (x :: l).
Proof.
  rewrite sum_ER. unfold emean. cbn [all_numbers]. destruct x as [a|]; [|reflexivity]. destruct (all_numbers l) as [r|] eqn:E; [|reflexivity].
  cbn [option_map ndiv ERNum]. unfold er_div. pose proof (pos_INR (length l)).
  destruct (Req_EM_T (1 + INR (length l)) 0); [lra|]. f_equal. unfold avg, rsum. cbn [length fold_right]. rewrite S_INR, (all_length _ _ E), (Rplus_comm 1). reflexivity.
Qed.
Lemma emean_const l a : l <> [] -> Forall (fun x => x = Some a) l -> emean l = Some a.
Proof.
  intros Hl H. unfold emean. assert (E : all_numbers l = Some (repeat a (length l))).
  { clear Hl. induction H as [|x l -> H IH]; [reflexivity|]. cbn. rewrite IH. reflexivity. }
  rewrite E. cbn. f_equal. unfold avg, rsum. rewrite repeat_length.
  assert (S : forall n, fold_right Rplus 0%R (repeat a n) = (INR n * a)%R).
  { induction n as [|n IH]; [cbn; lra|]. cbn [repeat fold_right]. rewrite IH, S_INR. lra. }
  rewrite S. field. destruct l; [contradiction|]. apply not_0_INR. cbn. lia.
Qed.

Lemma zip_len (a b : list ER) : length (zip_add ERNum a b) = Nat.min (length a) (length b).
Proof. revert b. induction a as [|x a IH]; intros [|y b]; try reflexivity. cbn. f_equal. apply IH. Qed.
Lemma zip_nth (a b : list ER) j : length a = length b -> nth j (zip_add ERNum a b) None = nadd ERNum (nth j a None) (nth j b None).
Proof.
  revert b j. induction a as [|x a IH]; intros [|y b] [|j] H; try discriminate; cbn [zip_add nth]; try reflexivity.
  apply IH. cbn in H. lia.
Qed.
Lemma addrow_rows w (rs : list (list ER)) : Forall (fun r => length r = w) rs -> forall c (d : list ER), length d = w ->
  exists q, fold_left (addrow ERNum) rs (Some (Some c, d)) = Some (Some (c + INR (length rs))%R, q) /\ length q = w /\
    forall j, nth j q None = fold_left (nadd ERNum) (map (fun r => nth j r None) rs) (nth j d None).
Proof.
  induction 1 as [|r rs Hr H IH]; intros c d Hd; cbn [fold_left length map].
  - exists d. split; [cbn; rewrite Rplus_0_r; reflexivity|]. auto.
  - cbn [addrow]. destruct (IH (c + 1)%R (zip_add ERNum d r)) as (q & E & L & Q); [etransitivity; [apply zip_len|]; etransitivity; [apply f_equal2; [exact Hd|exact Hr]|apply Nat.min_id]|].
    exists q. split.
    + etransitivity; [exact E|]. do 3 f_equal. rewrite S_INR. lra.
    + split; [exact L|]. intros j. rewrite Q. f_equal. apply zip_nth. congruence.
Qed.
Lemma parse_numbers N (r : list (num N)) : parse_line N (numbers r) = r.
Proof. unfold parse_line, numbers. induction r as [|x r IH]; [reflexivity|]. cbn. f_equal. exact IH. Qed.

(** the averages of equally long tables *)
Lemma means_of w m (tabs : list (nat -> list ER)) : tabs <> [] -> (forall h k, In h tabs -> k < m -> length (h k) = w) ->
  map (out_line ERNum) (merged ERNum (map (fun h => map h (seq 0 m)) tabs))
  = map (fun k => numbers (mean_line w (map (fun h => h k) tabs))) (seq 0 m).
Proof.
  intros Hn Hw. apply nth_error_ext. intros k. rewrite nth_error_map. unfold merged. rewrite nth_merged.
  replace (nth_error (@nil (entry ERNum)) k) with (@None (entry ERNum)) by (destruct k; reflexivity).
  rewrite nth_error_map.
  assert (I : ith k (map (fun h => map h (seq 0 m)) tabs) = if k <? m then map (fun h => h k) tabs else []).
  { unfold ith. clear. induction tabs as [|h tabs IH]; [destruct (k <? m); reflexivity|]. cbn [map flat_map]. rewrite IH, nth_error_map.
    destruct (Nat.ltb_spec k m).
    - rewrite (nth_error_nth' _ 0) by (rewrite seq_length; assumption). rewrite seq_nth by assumption. reflexivity.
    - rewrite (proj2 (nth_error_None (seq 0 m) k)) by (rewrite seq_length; assumption). reflexivity. }
  transitivity (option_map (out_line ERNum) (fold_left (addrow ERNum) (if k <? m then map (fun h => h k) tabs else []) None)).
  { apply f_equal. apply (f_equal (fun l => fold_left (addrow ERNum) l None)). exact I. }
  destruct (Nat.ltb_spec k m).
  2:{ rewrite (proj2 (nth_error_None (seq 0 m) k)) by (rewrite seq_length; assumption). reflexivity. }
  rewrite (nth_error_nth' _ 0) by (rewrite seq_length; assumption). rewrite seq_nth by assumption. cbn [option_map Nat.add].
  destruct tabs as [|h tabs]; [contradiction|]. cbn [map fold_left addrow].
  destruct (addrow_rows w (map (fun h => h k) tabs)) with (c := 1%R) (d := h k) as (q & E & L & Q).
  - apply Forall_forall. intros r Hr. apply in_map_iff in Hr. destruct Hr as (h' & <- & Hh). apply Hw; [right; exact Hh|assumption].
  - apply Hw; [left; reflexivity|assumption].
  - change (nofZ ERNum 1) with (Some 1%R). change (num ERNum) with ER. 
    etransitivity; [apply f_equal; exact E|]. cbn [option_map]. f_equal. unfold out_line. cbn [fst snd]. f_equal.
    unfold mean_line. apply (list_ext_nth (A := ER) None).
    + rewrite !map_length, seq_length. exact L.
    + intros j Hj. rewrite map_length, L in Hj. rewrite nth_map_seq by exact Hj.
      assert (X : forall d, nth j (map (fun x => ndiv ERNum x (Some (1 + INR (length (map (fun h0 => h0 k) tabs)))%R)) q) d
                 = ndiv ERNum (nth j q None) (Some (1 + INR (length (map (fun h0 => h0 k) tabs)))%R)).
      { intros d. rewrite (nth_indep _ d (ndiv ERNum None (Some (1 + INR (length (map (fun h0 => h0 k) tabs)))%R))) by (rewrite map_length, L; exact Hj). apply (map_nth (fun x => ndiv ERNum x _)). }
      rewrite X. rewrite Q. cbn [map]. rewrite <- emean_sum. rewrite !map_length. reflexivity.
Qed.
Definition with_first (h : line ER) (rows : nat -> list ER) (m : nat) : list (line ER) := h :: map (fun k => numbers (rows k)) (seq 0 m).
Lemma rows_with_first h rows m : rows_of ERNum (with_first h rows m) = map rows (seq 0 m).
Proof. unfold rows_of, with_first. cbn [skipn]. rewrite map_map. apply map_ext. intros k. exact (parse_numbers ERNum (rows k)). Qed.

Lemma average_rows w m conf (fs : list (line ER * (nat -> list ER))) ls : fs <> [] -> (forall p k, In p fs -> k < m -> length (snd p k) = w) ->
  average ERNum conf (map (fun p => with_first (fst p) (snd p) m) fs) = Ok ls ->
  ls = map (fun k => numbers (mean_line w (map (fun p => snd p k) fs))) (seq 0 m).
Proof.
  intros Hn Hw E. assert (F : fits ERNum conf).
  { unfold fits. destruct (Z.le_gt_cases (24 * ntou64 ERNum (ndiv ERNum (c_t conf) (c_dt conf))) (2 ^ 63 - 1)) as [H|H]; [exact H|].
    rewrite average_capacity in E; [discriminate|]. unfold fits. lia. }
  pose proof (average_total ERNum conf (map (fun p => with_first (fst p) (snd p) m) fs) F) as A.
  assert (X : Ok (map (out_line ERNum) (merged ERNum (map (rows_of ERNum) (map (fun p => with_first (fst p) (snd p) m) fs)))) = Ok ls) by (etransitivity; [symmetry; exact A|exact E]).
  injection X as <-. rewrite map_map.
  assert (T : map (fun p : line ER * (nat -> list ER) => rows_of ERNum (with_first (fst p) (snd p) m)) fs = map (fun h => map h (seq 0 m)) (map snd fs)).
  { rewrite map_map. apply map_ext. intros p. apply rows_with_first. }
  etransitivity; [apply f_equal; apply f_equal; exact T|]. etransitivity; [apply (means_of w m (map snd fs))|].
  - destruct fs; [contradiction|discriminate].
  - intros h k Hh Hk. apply in_map_iff in Hh. destruct Hh as (p & <- & Hp). apply Hw; assumption.
  - apply map_ext. intros k. rewrite map_map. reflexivity.
Qed.

(** ** Directories *)
Section Dirs.
Context {T : Type}.
Implicit Types (f : fs T).

Lemma put_tidy {A} n (a : A) l : NoDup (map fst l) -> NoDup (map fst (put n a l)).
Proof.
  intros H. unfold put. cbn [map fst]. constructor.
  - intros Hin. apply in_map_iff in Hin. destruct Hin as ([m b] & <- & Hin). apply filter_In in Hin. destruct Hin as [_ Hin]. cbn in Hin.
    rewrite String.eqb_refl in Hin. discriminate.
  - induction l as [|[m b] l IH]; [constructor|]. cbn [map fst] in H. inversion H; subst. cbn [filter fst]. destruct (negb (String.eqb n m)); [|apply IH; assumption].
    cbn [map fst]. constructor; [|apply IH; assumption]. intros Hin. apply in_map_iff in Hin. destruct Hin as (p & Hp & Hin). apply filter_In in Hin.
    apply H2. rewrite <- Hp. apply in_map. apply Hin.
Qed.
Lemma create_tidy n f : tidy f -> tidy (create n f).
Proof. apply put_tidy. Qed.
Lemma append_tidy n ls f : tidy f -> tidy (append n ls f).
Proof. apply put_tidy. Qed.
Lemma fold_tidy {A} (G : A -> fs T -> res (fs T)) l : (forall i f g, G i f = Ok g -> tidy f -> tidy g) -> forall f f', foldM G l f = Ok f' -> tidy f -> tidy f'.
Proof.
  intros H. induction l as [|i l IH]; intros f f' E Hf; cbn [foldM] in E; [injection E as <-; exact Hf|].
  apply bind_ok in E. destruct E as (g & E1 & E). eapply IH; [exact E|]. eapply H; eassumption.
Qed.

Lemma lookup_in {A} n (a : A) l : NoDup (map fst l) -> (In (n, a) l <-> lookup n l = Some a).
Proof.
  induction l as [|[m b] l IH]; cbn [map fst lookup]; intros H; [split; [intros []|discriminate]|]. inversion H; subst.
  destruct (String.eqb_spec n m) as [->|D].
  - split; [|intros [= <-]; left; reflexivity]. intros [[= <-]|Hin]; [reflexivity|]. exfalso. apply H2. apply (in_map fst) in Hin. exact Hin.
  - rewrite <- IH by assumption. split; [intros [[= <- <-]|Hin]; [contradiction|exact Hin]|intros Hin; right; exact Hin].
Qed.
Lemma filter_keys {A} (p : string * A -> bool) l : NoDup (map fst l) -> NoDup (map fst (filter p l)).
Proof.
  induction l as [|[m b] l IH]; cbn [map fst filter]; intros H; [constructor|]. inversion H; subst. destruct (p (m, b)); [|apply IH; assumption].
  cbn [map fst]. constructor; [|apply IH; assumption]. intros Hin. apply in_map_iff in Hin. destruct Hin as (q & Hq & Hin). apply filter_In in Hin.
  apply H2. rewrite <- Hq. apply in_map. apply Hin.
Qed.
Lemma pairs_perm {A} (l l' : list (string * A)) : NoDup (map fst l) -> NoDup (map fst l') -> (forall p, In p l <-> In p l') -> Permutation l l'.
Proof. intros H H' E. apply NoDup_Permutation; [eapply NoDup_map_inv; exact H|eapply NoDup_map_inv; exact H'|exact E]. Qed.
End Dirs.

(** the pattern of the averages *)
Lemma sub_all s : substring 0 (String.length s) s = s.
Proof. induction s as [|c s IH]; [reflexivity|]. cbn. rewrite IH. reflexivity. Qed.
Lemma sub_app a b : substring (String.length a) (String.length (a ++ b) - String.length a) (a ++ b) = b.
Proof.
  induction a as [|c a IH]; cbn [String.length append substring].
  - rewrite Nat.sub_0_r. apply sub_all.
  - exact IH.
Qed.
Lemma prefix_split a : forall s, prefix a s = true <-> exists b, s = (a ++ b)%string.
Proof.
  induction a as [|c a IH]; intros s; [split; [intros _; exists s; reflexivity|intros _; destruct s; reflexivity]|].
  destruct s as [|d s]; cbn [prefix].
  - split; [discriminate|intros [b Hb]; discriminate Hb].
  - destruct (Ascii.ascii_dec c d) as [->|D].
    + rewrite IH. split; intros [b Hb]; exists b; [rewrite Hb; reflexivity|injection Hb as Hb; exact Hb].
    + split; [discriminate|intros [b Hb]; injection Hb as Hc _; congruence].
Qed.
Lemma len_app a b : String.length (a ++ b) = String.length a + String.length b.
Proof. induction a as [|c a IH]; cbn; [reflexivity|]. rewrite IH. reflexivity. Qed.
Lemma sub_split n : forall s, n <= String.length s -> exists a, String.length a = n /\ s = (a ++ substring n (String.length s - n) s)%string.
Proof.
  induction n as [|n IH]; intros s H.
  - exists ""%string. split; [reflexivity|]. rewrite Nat.sub_0_r, sub_all. reflexivity.
  - destruct s as [|c s]; [cbn in H; lia|]. cbn in H. destruct (IH s) as (a & La & E); [lia|]. exists (String c a). split; [cbn; rewrite La; reflexivity|].
    cbn. f_equal. exact E.
Qed.
Lemma ends_split suf s : ends_with suf s = true <-> exists a, s = (a ++ suf)%string.
Proof.
  unfold ends_with. split.
  - intros H. apply andb_prop in H. destruct H as [H1 H2]. apply Nat.leb_le in H1. apply String.eqb_eq in H2.
    destruct (sub_split (String.length s - String.length suf) s) as (a & La & E); [lia|].
    replace (String.length s - (String.length s - String.length suf)) with (String.length suf) in E by lia. rewrite H2 in E. exists a. exact E.
  - intros [a ->]. rewrite len_app. apply andb_true_intro. split; [apply Nat.leb_le; lia|]. apply String.eqb_eq.
    replace (String.length a + String.length suf - String.length suf) with (String.length a) by lia.
    pose proof (sub_app a suf) as E. rewrite len_app in E. replace (String.length a + String.length suf - String.length a) with (String.length suf) in E by lia. exact E.
Qed.
Lemma glob_in {T} file (f : fs T) nm ls : In (nm, ls) (glob file f) <-> In (nm, ls) (f_dat f) /\ stands_for file nm.
Proof.
  unfold glob. rewrite filter_In. cbn [fst]. apply and_iff_compat_l. unfold stands_for. split.
  - intros H. apply andb_prop in H. destruct H as [H1 H2]. apply prefix_split in H1. destruct H1 as [b ->]. rewrite sub_app in H2.
    apply ends_split in H2. destruct H2 as [a ->]. exists a. reflexivity.
  - intros [mid ->]. apply andb_true_intro. split; [apply prefix_split; eexists; reflexivity|]. rewrite sub_app. apply ends_split. exists mid. reflexivity.
Qed.
Lemma log_stands file i : stands_for file (log_name file i).
Proof. exists (dec i). reflexivity. Qed.

(** the files found are the logs, if the pattern stands for no other file *)
Lemma glob_logs {T} file (g : fs T) o n (lines : nat -> list (line T)) : tidy g ->
  (forall i, i < n -> contents g (log_name file (o + i)) = Some (lines i)) ->
  (forall nm, stands_for file nm -> (forall i, i < n -> nm <> log_name file (o + i)) -> contents g nm = None) ->
  Permutation (map snd (glob file g)) (map lines (seq 0 n)).
Proof.
  intros Ti C Z. transitivity (map snd (map (fun i => (log_name file (o + i), lines i)) (seq 0 n))).
  2:{ rewrite map_map. apply Permutation_refl. }
  apply Permutation_map. apply pairs_perm.
  - apply filter_keys. exact Ti.
  - rewrite map_map. cbn [fst]. apply FinFun.Injective_map_NoDup; [|apply seq_NoDup]. intros i j H. apply log_name_inj in H. lia.
  - intros [nm ls]. rewrite glob_in, (lookup_in nm ls (f_dat g) Ti). fold (contents g nm). split.
    + intros [H S]. destruct (in_dec String.string_dec nm (map (fun i => log_name file (o + i)) (seq 0 n))) as [Hin|Hin].
      * apply in_map_iff in Hin. destruct Hin as (i & <- & Hi). apply in_map_iff. exists i. split; [|exact Hi]. apply in_seq in Hi.
        rewrite C in H by lia. injection H as <-. reflexivity.
      * rewrite Z in H; [discriminate|exact S|]. intros i Hi ->. apply Hin. apply in_map_iff. exists i. split; [reflexivity|apply in_seq; lia].
    + intros Hin. apply in_map_iff in Hin. destruct Hin as (i & [= <- <-] & Hi). apply in_seq in Hi. split; [apply C; lia|apply log_stands].
Qed.

(** ** Sessions *)
Section S.
Context (N : NumOps).
Notation T := (num N).

(** what one invocation of the kind [P] does to a directory whose configuration satisfies [Inv] *)
Definition adds_logs (P : args T -> Prop) (Inv : config T -> Prop) (Q : list (line T) -> Prop) : Prop :=
  forall fuel w a f st conf f0, P a -> main N fuel w a f = Ok st -> read_config N f = Ok (conf, f0) -> Inv conf ->
  exists conf', read_config N (s_fs N st) = Ok (conf', s_fs N st) /\ Inv conf' /\ c_file conf' = c_file conf /\ runs conf' = runs conf /\
    offset conf' = (offset conf + runs conf)%Z /\ (tidy f -> tidy (s_fs N st)) /\
    (forall i, i < Z.to_nat (runs conf) -> exists ls, contents (s_fs N st) (log_name (c_file conf) (Z.to_nat (offset conf) + i)) = Some ls /\ Q ls) /\
    (forall nm, (forall i, i < Z.to_nat (runs conf) -> nm <> log_name (c_file conf) (Z.to_nat (offset conf) + i)) -> contents (s_fs N st) nm = contents f nm).

Lemma session_logs P Inv Q : adds_logs P Inv Q -> forall K f g, session N P K f g -> forall conf f0, read_config N f = Ok (conf, f0) -> Inv conf ->
  (0 <= runs conf)%Z -> (0 <= offset conf)%Z -> tidy f ->
  exists conf' g0, read_config N g = Ok (conf', g0) /\ f_dat g0 = f_dat g /\ (1 <= K -> g0 = g) /\ Inv conf' /\ c_file conf' = c_file conf /\ tidy g /\
    (forall i, i < K * Z.to_nat (runs conf) -> exists ls, contents g (log_name (c_file conf) (Z.to_nat (offset conf) + i)) = Some ls /\ Q ls) /\
    (forall nm, (forall i, i < K * Z.to_nat (runs conf) -> nm <> log_name (c_file conf) (Z.to_nat (offset conf) + i)) -> contents g nm = contents f nm).
Proof.
  intros H. induction 1 as [f|fuel w a f st K g Pa E S IH]; intros conf f0 Rd I R0 O0 Ti.
  - exists conf, f0. split; [exact Rd|]. split; [apply (ProofsHistory.read_in_range N f conf f0 Rd)|]. split; [lia|]. split; [exact I|]. split; [reflexivity|]. split; [exact Ti|]. split; [intros i Hi; lia|reflexivity].
  - destruct (H fuel w a f st conf f0 Pa E Rd I) as (c1 & Rd1 & I1 & F1 & R1 & O1 & T1 & L1 & U1).
    destruct (IH c1 _ Rd1 I1) as (c2 & g0 & Rd2 & D2 & G2 & I2 & F2 & T2 & L2 & U2); [lia|lia|apply T1, Ti|]. rewrite F1, R1, O1 in *.
    replace (Z.to_nat (offset conf + runs conf)) with (Z.to_nat (offset conf) + Z.to_nat (runs conf)) in * by lia.
    exists c2, g0. split; [exact Rd2|]. split; [exact D2|]. split.
    { intros _. destruct K as [|K]; [|apply G2; lia]. inversion S; subst. rewrite Rd1 in Rd2. injection Rd2 as _ <-. reflexivity. }
    split; [exact I2|]. split; [exact F2|]. split; [exact T2|].
    set (o := Z.to_nat (offset conf)) in *. set (n := Z.to_nat (runs conf)) in *. split.
    + intros i Hi. destruct (Nat.lt_ge_cases i n) as [Hin|Hin].
      * destruct (L1 i Hin) as (ls & C & Qs). exists ls. split; [|exact Qs]. rewrite U2; [exact C|]. intros j Hj Ej. apply log_name_inj in Ej. lia.
      * destruct (L2 (i - n)) as (ls & C & Qs); [cbn in Hi; lia|]. exists ls. replace (o + n + (i - n)) with (o + i) in C by lia. auto.
    + intros nm Hnm. rewrite U2, U1; [reflexivity| |]; intros i Hi.
      * apply Hnm. cbn. lia.
      * replace (o + n + i) with (o + (n + i)) by lia. apply Hnm. cbn. lia.
Qed.
End S.
