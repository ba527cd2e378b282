(** Two-point averages over the logs of the default mode in binary64. *)
From Coq Require Import String ZArith Reals List Lia Lra Psatz Bool Arith Permutation.
From Coq Require Import Floats.SpecFloat.
From Flocq Require Import Core.
From Verif Require Import Num Monad NumR NumF64 Config Chain Fit Files Average Runs Main SpecVec SpecChain SpecToml SpecRuns SpecRound SpecClose SpecKeep SpecMade SpecPage SpecSession SpecPool SpecClock SpecPair
  ProofsFlocq ProofsRound ProofsRound2 ProofsF64 ProofsChain ProofsDir ProofsNames ProofsFrame ProofsAverage ProofsPage ProofsSession ProofsSession2 ProofsSession3 ProofsSim ProofsPool ProofsPool2 ProofsClock ProofsClock2 ProofsOrigin.
Import ListNotations.
Local Open Scope R_scope.

(** * The product of two rows *)
Fixpoint zip_mul (a b : list f64) : list f64 := match a, b with x :: a, y :: b => f_mul x y :: zip_mul a b | _, _ => [] end.
Definition prow (z v : list f64) : list f64 := match v, z with x :: v, _ :: z => x :: zip_mul v z | _, _ => [] end.
Lemma times_prow L z v : length z = 13%nat -> length v = 13%nat -> times_zero (F64 L) z v = Ok (prow z v).
Proof.
  intros Hz Hv. do 13 (destruct z as [|? z]; [discriminate Hz|]). destruct z; [|discriminate Hz]. do 13 (destruct v as [|? v]; [discriminate Hv|]). destruct v; [|discriminate Hv]. reflexivity.
Qed.
Lemma zip_mul_length a b : length a = length b -> length (zip_mul a b) = length a.
Proof. revert b. induction a as [|x a IH]; intros [|y b] H; try discriminate; [reflexivity|]. cbn in *. f_equal. apply IH. lia. Qed.
Lemma prow_length z v : length z = 13%nat -> length v = 13%nat -> length (prow z v) = 13%nat.
Proof. intros Hz Hv. destruct z as [|a z], v as [|b v]; try discriminate. cbn [prow length]. rewrite zip_mul_length; cbn in *; lia. Qed.
Lemma zip_mul_at a : forall b c x y, nth_error a c = Some x -> nth_error b c = Some y -> nth_error (zip_mul a b) c = Some (f_mul x y).
Proof. induction a as [|u a IH]; intros [|v b] [|c] x y Ha Hb; cbn in *; try discriminate; [congruence|]. apply IH; assumption. Qed.
Lemma prow_at z v c x y : (1 <= c)%nat -> nth_error v c = Some x -> nth_error z c = Some y -> nth_error (prow z v) c = Some (f_mul x y).
Proof. intros Hc Hx Hy. destruct c as [|c]; [lia|]. destruct v as [|a v], z as [|b z]; try discriminate. cbn in *. apply zip_mul_at; assumption. Qed.
Lemma fit_mul a b c x y : zok c -> (0 <= a)%Z -> (0 <= b)%Z -> (a * b <= c * 65536)%Z -> fit a x -> fit b y -> fit c (f_mul x y).
Proof.
  intros Hc Ha Hb H [Vx Bx] [Vy By]. apply IZR_le in Ha, Hb, H. rewrite !mult_IZR in H.
  assert (S : Rabs (fval x * fval y) <= IZR c * q16).
  { rewrite Rabs_mult. rewrite q16_val in *. assert (0 <= Rabs (fval x)) by apply Rabs_pos. assert (0 <= Rabs (fval y)) by apply Rabs_pos.
    apply Rle_trans with ((IZR a * (1 / 65536)) * (IZR b * (1 / 65536))); [apply Rmult_le_compat; assumption|]. lra. }
  destruct (rnd_fit _ _ Hc S) as [C F]. destruct (mul_val x y Vx Vy F) as [V E]. split; [exact V|rewrite E; exact C].
Qed.
Definition bp (c : nat) : Z := if (c <=? 2)%nat then 59047936%Z else 65540%Z.
Lemma prow_fit z v : full_row z -> full_row v -> forall c, (1 <= c < 13)%nat -> exists x, nth_error (prow z v) c = Some x /\ small (IZR (bp c) / 65536) x.
Proof.
  intros Hz Hv c Hc. destruct (full_cols z Hz c Hc) as (y & Y1 & Y2). destruct (full_cols v Hv c Hc) as (x & X1 & X2). exists (f_mul x y). split; [apply prow_at; [lia|assumption..]|].
  apply small_fit in X2, Y2. apply small_fit. apply (fit_mul (bz c) (bz c)); [..|exact X2|exact Y2]; unfold zok, bz, bp; destruct (c <=? 2)%nat; lia.
Qed.
Lemma row_second r : full_row r \/ nan_row r -> exists y, nth_error r 1 = Some y.
Proof. intros [H|H]; [destruct H as (x & E & e & mx & my & mz & Mz & a & b & -> & _)|destruct H as (x & rest & -> & _)]; eexists; reflexivity. Qed.
Lemma prow_nan z v : full_row z \/ nan_row z -> full_row v \/ nan_row v -> nan_row z \/ nan_row v -> nth_error (prow z v) 1 = Some S754_nan.
Proof.
  intros Wz Wv [H|H].
  - destruct (row_second v Wv) as (x & Hx). destruct H as (x' & rest & -> & _). rewrite (prow_at _ v 1 x S754_nan); [rewrite f_mul_nan_r; reflexivity|lia|exact Hx|reflexivity].
  - destruct (row_second z Wz) as (y & Hy). destruct H as (x' & rest & -> & _). rewrite (prow_at z _ 1 S754_nan y); [reflexivity|lia|reflexivity|exact Hy].
Qed.
Lemma either_width r : full_row r \/ nan_row r -> length r = 13%nat. Proof. intros [H|H]; [apply full_width|apply nan_width]; exact H. Qed.

(** * The row at time 0 *)
Definition zero_row (r : list f64) : Prop := exists x, hd_error r = Some x /\ at_zero x.
Lemma t_zero_in L (rows : list (list f64)) : Forall (fun r => r <> []) rows -> (exists r, In r rows /\ zero_row r) -> exists z, t_zero (F64 L) rows = Ok z /\ In z rows.
Proof.
  intros HN HZ. unfold t_zero.
  assert (G : forall rows (z0 : list f64), Forall (fun r => r <> []) rows -> exists z,
    foldM (fun (v z : list (num (F64 L))) => let* x := idx v 0 in Ok (if nltb (F64 L) (nabs (F64 L) x) (nlit (F64 L) 1 5) then v else z)) rows z0 = Ok z /\
    (In z rows \/ (z = z0 /\ forall r, In r rows -> ~ zero_row r))).
  { clear. induction rows as [|r rows IH]; intros z0 HN; [exists z0; split; [reflexivity|right; split; [reflexivity|intros r []]]|].
    inversion HN as [|? ? H1 H2]; subst. destruct r as [|x r]; [congruence|]. cbn [foldM]. change (idx (x :: r) 0) with (Ok x). cbn [bind].
    destruct (nltb (F64 L) (nabs (F64 L) x) (nlit (F64 L) 1 5)) eqn:Q.
    - destruct (IH (x :: r) H2) as (z & E & D). exists z. split; [exact E|]. left. destruct D as [D|[-> _]]; [right; exact D|left; reflexivity].
    - destruct (IH z0 H2) as (z & E & D). exists z. split; [exact E|]. destruct D as [D|[-> D]]; [left; right; exact D|right]. split; [reflexivity|].
      intros r' [<-|H'] Z; [|exact (D r' H' Z)]. destruct Z as (x' & X & A). cbn in X. injection X as <-. unfold at_zero in A.
      assert (Q' : SFltb (SFabs x) (f_lit 1 5) = false) by exact Q. congruence. }
  destruct (G rows [] HN) as (z & E & D). exists z. split; [exact E|]. destruct D as [D|[_ D]]; [exact D|]. destruct HZ as (r & Hr & Z). destruct (D r Hr Z).
Qed.
Definition zof (L : libm) (rows : list (list f64)) : list f64 := match t_zero (F64 L) rows with Ok z => z | _ => [] end.
Lemma zof_in L rows : Forall (fun r => r <> []) rows -> (exists r, In r rows /\ zero_row r) -> t_zero (F64 L) rows = Ok (zof L rows) /\ In (zof L rows) rows.
Proof. intros A B. destruct (t_zero_in L rows A B) as (z & E & I). unfold zof. rewrite E. auto. Qed.
Definition paired (L : libm) (p : line f64 * list (list f64)) : line f64 * list (list f64) := (fst p, map (prow (zof L (snd p))) (snd p)).

Definition sound_rows_at (rows : list (list f64)) : Prop := (forall r, In r rows -> full_row r \/ nan_row r) /\ exists r, In r rows /\ zero_row r.
Lemma sound_zero L rows : sound_rows_at rows -> t_zero (F64 L) rows = Ok (zof L rows) /\ In (zof L rows) rows.
Proof.
  intros [A B]. apply zof_in; [|exact B]. apply Forall_forall. intros r Hr ->. assert (X := either_width [] (A [] Hr)). discriminate X.
Qed.
Lemma paired_file L p s : sound_rows_at (snd p) -> two_point_file (F64 L) (table_file p) s = avg_file (F64 L) (table_file (paired L p)) s.
Proof.
  intros H. destruct (sound_zero L _ H) as [EZ IZ]. destruct H as [A _]. unfold two_point_file, avg_file. cbv zeta.
  assert (R1 := rows_table L p). assert (R2 := rows_table L (paired L p)). unfold rows_of in R1, R2. rewrite R1, R2. unfold paired. cbn [snd].
  etransitivity; [exact (f_equal (fun x => bind x _) EZ)|]. cbn [bind].
  assert (M : mapM (times_zero (F64 L) (zof L (snd p))) (snd p) = Ok (map (prow (zof L (snd p))) (snd p))).
  { assert (G : forall rows, (forall r, In r rows -> length r = 13%nat) -> mapM (times_zero (F64 L) (zof L (snd p))) rows = Ok (map (prow (zof L (snd p))) rows)).
    { induction rows as [|r rows IH]; intros W; [reflexivity|]. cbn [mapM map].
      etransitivity; [exact (f_equal (fun x => bind x _) (times_prow L (zof L (snd p)) r (either_width _ (A _ IZ)) (W r (or_introl eq_refl))))|]. cbn [bind].
      etransitivity; [exact (f_equal (fun x => bind x _) (IH (fun r' H' => W r' (or_intror H'))))|]. reflexivity. }
    apply G. intros r Hr. apply either_width. exact (A r Hr). }
  exact (f_equal (fun x => bind x _) M).
Qed.
Lemma paired_average L conf fs : capacity L conf -> (forall p, In p fs -> sound_rows_at (snd p)) ->
  two_point_average (F64 L) (map table_file fs) = average (F64 L) conf (map table_file (map (paired L) fs)).
Proof.
  intros Hc H. unfold average. destruct (Z.ltb_spec (2 ^ 63 - 1) (24 * ntou64 (F64 L) (ndiv (F64 L) (c_t (conf : config (num (F64 L)))) (c_dt (conf : config (num (F64 L)))))))%Z as [K|K]; [unfold capacity in Hc; lia|].
  unfold two_point_average. assert (G : forall s, foldM (two_point_file (F64 L)) (map table_file fs) s = foldM (avg_file (F64 L)) (map table_file (map (paired L) fs)) s).
  { clear Hc K. revert H. induction fs as [|p fs IH]; intros H s; [reflexivity|]. cbn [map foldM].
    etransitivity; [exact (f_equal (fun x => bind x _) (paired_file L p s (H p (or_introl eq_refl))))|].
    destruct (avg_file (F64 L) (table_file (paired L p)) s) as [s'| |]; [|reflexivity|reflexivity]. cbn [bind]. apply IH. intros q Hq. apply H. right. exact Hq. }
  exact (f_equal (fun x => bind x _) (G ([], []))).
Qed.

Lemma pair_logs L conf fs : capacity L conf -> (Z.of_nat (length fs) < 2 ^ 26)%Z -> (forall p, In p fs -> sound_rows_at (snd p)) ->
  exists ls, two_point_average (F64 L) (map table_file fs) = Ok ls /\ length ls = fold_right Nat.max 0%nat (map (fun p => length (snd p)) fs) /\
  forall i l, nth_error ls i = Some l ->
    (pair_row l /\ forall p row, In p fs -> nth_error (snd p) i = Some row -> full_row row /\ full_row (zof L (snd p))) \/
    (nan_mean l /\ exists p row, In p fs /\ nth_error (snd p) i = Some row /\ (nan_row row \/ nan_row (zof L (snd p)))).
Proof.
  intros Hc HB HS. rewrite (paired_average L conf fs Hc HS). set (gs := map (paired L) fs).
  assert (LG : length gs = length fs) by apply map_length.
  destruct (average_at L conf gs 0 Hc) as (ls & E & _ & HL). exists ls. split; [exact E|]. split.
  { rewrite HL. unfold gs. rewrite map_map. f_equal. apply map_ext. intro p. unfold paired. cbn [snd]. apply map_length. }
  clear HL. intros i l Hl.
  assert (HG : forall row, has_row (map snd gs) i row <-> exists p r, In p fs /\ nth_error (snd p) i = Some r /\ row = prow (zof L (snd p)) r).
  { intro row. split.
    - intros (t & Ht & Hn). unfold gs in Ht. rewrite map_map in Ht. apply in_map_iff in Ht. destruct Ht as (p & <- & Hp). unfold paired in Hn. cbn [snd] in Hn. rewrite nth_error_map in Hn.
      destruct (nth_error (snd p) i) as [r|] eqn:Er; [|discriminate]. cbn in Hn. injection Hn as <-. exists p, r. auto.
    - intros (p & r & Hp & Hr & ->). exists (snd (paired L p)). split; [unfold gs; rewrite map_map; apply in_map_iff; exists p; auto|]. unfold paired. cbn [snd]. rewrite nth_error_map, Hr. reflexivity. }
  assert (K : forall p r, In p fs -> nth_error (snd p) i = Some r -> (full_row r \/ nan_row r) /\ (full_row (zof L (snd p)) \/ nan_row (zof L (snd p)))).
  { intros p r Hp Hr. assert (Sp := HS p Hp). split; [apply (proj1 Sp); exact (nth_error_In _ _ Hr)|]. apply (proj1 Sp). exact (proj2 (sound_zero L _ Sp)). }
  destruct (pool_length L conf gs i 13 Hc) as (ls1 & E1 & W).
  { intros row H. apply HG in H. destruct H as (p & r & Hp & Hr & ->). destruct (K p r Hp Hr). apply prow_length; apply either_width; assumption. }
  rewrite E in E1. injection E1 as <-. destruct (W l Hl) as (v & -> & Lv). clear W.
  set (good := fun row : list f64 => forall c, (1 <= c < 13)%nat -> exists x, nth_error row c = Some x /\ small (IZR (bp c) / 65536) x).
  set (lost := fun q : (line f64 * list (list f64)) => exists r, nth_error (snd q) i = Some r /\ (nan_row r \/ nan_row (zof L (snd q)))).
  set (fine := fun q : (line f64 * list (list f64)) => forall r, nth_error (snd q) i = Some r -> full_row r /\ full_row (zof L (snd q))).
  destruct (either fine lost fs) as [A|(p & Hp & (r & Hr & Nr))].
  { intros p Hp. destruct (nth_error (snd p) i) as [r|] eqn:Er.
    - destruct (K p r Hp Er) as [[K1|K1] [K2|K2]]; [left; intros r' X; assert (r' = r) by congruence; subst r'; auto|right; exists r; auto..].
    - left. intros r X. congruence. }
  - left. split; [|intros p row Hp Hr; exact (A p Hp row Hr)].
    assert (EX : exists row, has_row (map snd gs) i row).
    { destruct (average_at L conf gs i Hc) as (ls1 & E1 & EN & _). rewrite E in E1. injection E1 as <-. rewrite Hl in EN.
      destruct (ith i (map snd gs)) as [|r0 rs] eqn:EI; [discriminate|]. exists r0. apply in_ith. rewrite EI. left. reflexivity. }
    assert (C : forall c, (1 <= c < 13)%nat -> exists x, nth_error v c = Some x /\ small (IZR (bp c) / 65536) x).
    { intros c Hcc. destruct (pool_column L conf gs (bp c) i c Hc) as (ls1 & v1 & x & E1 & E2 & E3 & E4).
      - unfold bp. destruct (c <=? 2)%nat; lia.
      - rewrite LG. lia.
      - rewrite LG. unfold bp. destruct (c <=? 2)%nat; lia.
      - exact EX.
      - intros row H. apply HG in H. destruct H as (p & r & Hp & Hr & ->). destruct (A p Hp r Hr). apply prow_fit; assumption.
      - rewrite E in E1. injection E1 as <-. rewrite Hl in E2. assert (v = v1).
        { apply (f_equal (option_map (parse_line (F64 L)))) in E2. cbn [option_map] in E2. injection E2 as E2.
          exact (eq_trans (eq_sym (parse_numbers (F64 L) v)) (eq_trans E2 (parse_numbers (F64 L) v1))). }
        subst v1. exists x. auto. }
    destruct v as [|x [|y1 [|y2 v]]]; try discriminate Lv.
    assert (G : forall c y, (1 <= c < 13)%nat -> nth_error (x :: y1 :: y2 :: v) c = Some y -> small (IZR (bp c) / 65536) y) by (intros c y Hcc Hy; destruct (C c Hcc) as (y' & X1 & X2); rewrite Hy in X1; injection X1 as ->; exact X2).
    assert (T1 : forall y, small (IZR 59047936 / 65536) y -> small 901 y) by (intros y [V B]; split; [exact V|lra]).
    assert (T2 : forall y, small (IZR 65540 / 65536) y -> small (1 + 1 / 16384) y) by (intros y [V B]; split; [exact V|lra]).
    exists x, y1, y2, v. split; [reflexivity|]. split; [apply T1, (G 1%nat); [lia|reflexivity]|]. split; [apply T1, (G 2%nat); [lia|reflexivity]|].
    assert (Lv' : length v = 10%nat) by exact (f_equal (fun k => Nat.pred (Nat.pred (Nat.pred k))) Lv). split; [|exact Lv'].
    apply Forall_forall. intros y Hy. apply In_nth_error in Hy. destruct Hy as [c Hy]. assert (c < 10)%nat by (rewrite <- Lv'; apply nth_error_Some; intro X; assert (Y := eq_trans (eq_sym Hy) X); discriminate Y).
    apply T2. assert (X := G (3 + c)%nat y ltac:(lia) Hy). unfold bp in X. destruct (3 + c <=? 2)%nat eqn:Q; [apply Nat.leb_le in Q; lia|exact X].
  - right. split; [|exists p, r; auto]. destruct (K p r Hp Hr) as [K1 K2].
    destruct (pool_nan L conf gs i 1 Hc) as (ls1 & v1 & E1 & E2 & E3).
    + exists (prow (zof L (snd p)) r). split; [apply HG; exists p, r; auto|]. apply prow_nan; [exact K2|exact K1|tauto].
    + intros row H. apply HG in H. destruct H as (q & r' & Hq & Hr' & ->). destruct (K q r' Hq Hr'). rewrite prow_length; [lia|apply either_width; assumption..].
    + rewrite E in E1. injection E1 as <-. rewrite Hl in E2. assert (v = v1).
      { apply (f_equal (option_map (parse_line (F64 L)))) in E2. cbn [option_map] in E2. injection E2 as E2.
        exact (eq_trans (eq_sym (parse_numbers (F64 L) v)) (eq_trans E2 (parse_numbers (F64 L) v1))). }
      subst v1. destruct v as [|x [|y rest]]; [discriminate|discriminate|]. cbn in E3. injection E3 as ->. exists x, rest. split; [reflexivity|]. exact (f_equal (fun k => Nat.pred (Nat.pred k)) Lv).
Qed.

(** * Runs of the default mode, then -w *)
Lemma capacity_default L : capacity L (config_default (F64 L)). Proof. unfold capacity. vm_compute. discriminate. Qed.
Lemma pair_not_nan l : pair_row l -> nan_mean l -> False.
Proof.
  intros (x & E & e & rest & -> & [VE _] & _) (x' & rest' & X & _). apply numbers_inj in X. injection X as _ X _. exact (number_nan _ VE X).
Qed.
Lemma pair_files L fuel rg (conf : config f64) f conf' f1 conf2 ts : proper L -> mild_conf conf -> (2 <= ssize conf)%Z -> (forall i, plain_run L (r_draws (F64 L) rg i)) -> c_log conf = true ->
  in_range conf -> (1 <= runs conf < 2 ^ 26)%Z -> tidy f -> (forall nm, stands_for (c_file conf) nm -> contents f nm = None) ->
  run_sim (F64 L) fuel rg conf f = Ok (conf', f1) -> c_file conf2 = c_file conf ->
  timetable (F64 L) (nopp (F64 L) (trel (conf : config (num (F64 L))))) (c_dt conf) (c_t conf) (kept_plain (F64 L) conf) ts -> (exists x, In x ts /\ at_zero x) ->
  exists f2 a b, run_two_point (F64 L) conf2 f1 = Ok (conf2, f2) /\ contents f2 "two-point.dat" = Some (a ++ b) /\ Forall pair_row a /\ Forall nan_mean b /\ length (a ++ b) = length ts /\
    ((forall j rows, (j < Z.to_nat (runs conf))%nat -> contents f1 (log_name (c_file conf) (Z.to_nat (offset conf) + j)) = Some (map numbers rows) -> Forall full_row rows) -> b = []).
Proof.
  intros HL HC S2 HD CL IR R1 Ti Z E EF TT (x0 & Hx0 & Zx0). assert (R0 : (0 <= runs conf)%Z) by lia.
  destruct (finite_choice (fun j rows => contents f1 (log_name (c_file conf) (Z.to_nat (offset conf) + j)) = Some (map numbers rows) /\ sound_log rows /\ rows <> []) (Z.to_nat (runs conf)) []
    (page_files L fuel rg conf f conf' f1 HL HC S2 HD CL IR R0 E)) as [rows HR].
  assert (DT := default_times (F64 L) fuel rg conf f conf' f1 E CL IR R0).
  assert (PM := glob_after (F64 L) fuel rg conf f conf' f1 rows CL IR R0 Ti Z E (fun j Hj => proj1 (HR j Hj))).
  set (n := Z.to_nat (runs conf)) in *. set (o := Z.to_nat (offset conf)) in *.
  assert (FC : forall j, (j < n)%nat -> first_column (F64 L) (rows j) (nopp (F64 L) (trel (conf : config (num (F64 L)))) :: ts)).
  { intros j Hj. destruct (DT j Hj) as (rj & tj & Cj & Tj & Fj). assert (rj = rows j).
    { apply map_numbers_inj. assert (X := eq_trans (eq_sym Cj) (proj1 (HR j Hj))). injection X as X. exact X. }
    subst rj. rewrite (table_same (F64 L) _ _ _ _ _ _ Tj TT) in Fj. exact Fj. }
  set (pr := fun j => (@numbers f64 (hd [] (rows j)), tl (rows j))).
  assert (ET : map (fun j => map (@numbers f64) (rows j)) (seq 0 n) = map table_file (map pr (seq 0 n))).
  { rewrite map_map. apply map_ext_in. intros j Hj. apply in_seq in Hj. destruct (HR j ltac:(lia)) as (_ & _ & NE). unfold table_file, pr. cbn [fst snd]. destruct (rows j); [congruence|reflexivity]. }
  assert (PM2 : Permutation (map snd (glob (c_file conf) (f1 : Files.fs f64))) (map table_file (map pr (seq 0 n)))) by (rewrite <- ET; exact PM).
  destruct (Permutation_map_inv _ _ PM2) as (fs & Efs & Pfs).
  assert (Lfs : length fs = n) by (rewrite <- (Permutation_length Pfs), map_length, seq_length; reflexivity).
  assert (Hfs : forall p, In p fs -> exists j, (j < n)%nat /\ p = pr j).
  { intros p H. apply (Permutation_in _ (Permutation_sym Pfs)) in H. apply in_map_iff in H. destruct H as (j & <- & Hj). apply in_seq in Hj. exists j. split; [lia|reflexivity]. }
  assert (LT : forall j, (j < n)%nat -> length (snd (pr j)) = length ts).
  { intros j Hj. assert (F := FC j Hj). unfold first_column in F. apply (f_equal (@length _)) in F. rewrite !map_length in F. unfold pr. cbn [snd]. destruct (rows j); [discriminate|]. injection F as F. exact F. }
  assert (SO : forall p, In p fs -> sound_log (snd p) /\ sound_rows_at (snd p)).
  { intros p Hp. destruct (Hfs p Hp) as (j & Hj & ->). destruct (HR j Hj) as (_ & Sj & NE). assert (F := FC j Hj). unfold first_column in F. unfold pr. cbn [snd].
    destruct (rows j) as [|r rs]; [congruence|]. cbn [tl]. apply sound_tail in Sj. split; [exact Sj|]. split.
    - intros r' H'. apply In_nth_error in H'. destruct H' as [i Hi]. exact (sound_rows _ _ _ Sj Hi).
    - cbn [map] in F. injection F as _ F. assert (Q : In (Some x0) (map (@hd_error f64) rs)).
      { assert (Q : In (Some x0) (map Some ts)) by (apply in_map; exact Hx0). exact (eq_ind_r (fun q => In (Some x0) q) Q F). }
      apply in_map_iff in Q. destruct Q as (r' & Q1 & Q2). exists r'. split; [exact Q2|]. exists x0. auto. }
  destruct (pair_logs L (config_default (F64 L)) fs (capacity_default L)) as (ls & E1 & LEN & HLs).
  { rewrite Lfs. unfold n. lia. }
  { intros p Hp. exact (proj2 (SO p Hp)). }
  assert (LS : length ls = length ts).
  { rewrite LEN. apply (const_max (n - 1)).
    - intros y Hy. apply in_map_iff in Hy. destruct Hy as (p & <- & Hp). destruct (Hfs p Hp) as (j & Hj & ->). apply LT. exact Hj.
    - rewrite map_length, Lfs. unfold n. lia. }
  assert (EA : run_two_point (F64 L) conf2 f1 = Ok (conf2, append "two-point.dat" ls (create "two-point.dat" f1))).
  { unfold run_two_point. assert (EF' : @c_file (num (F64 L)) conf2 = c_file conf) by exact EF. rewrite EF'.
    exact (eq_trans (f_equal (fun q => bind (two_point_average (F64 L) q) (fun ls => Ok (conf2, append "two-point.dat" ls (create "two-point.dat" f1)))) Efs)
      (f_equal (fun q => bind q (fun ls => Ok (conf2, append "two-point.dat" ls (create "two-point.dat" f1)))) E1)). }
  destruct (split_two pair_row nan_mean ls) as (a & b & EL & A & B).
  - intros i l Hl. destruct (HLs i l Hl) as [[M _]|[M _]]; auto.
  - intros i l l' Hl Hn Hl'. destruct (HLs i l Hl) as [[M _]|[_ (p & row & Hp & Hr & Nr)]]; [destruct (pair_not_nan l M Hn)|].
    destruct (HLs (S i) l' Hl') as [[_ A]|[M _]]; [exfalso|exact M].
    destruct (Hfs p Hp) as (j & Hj & Ej).
    assert (K : nth_error (snd p) (S i) <> None).
    { apply nth_error_Some. subst p. refine (eq_ind_r (fun k => (S i < k)%nat) _ (LT j Hj)). assert (Q : (S i < length ls)%nat) by (apply nth_error_Some; intro X; assert (Y := eq_trans (eq_sym Hl') X); discriminate Y). rewrite LS in Q. exact Q. }
    destruct (nth_error (snd p) (S i)) as [r'|] eqn:Er; [|congruence]. destruct (A p r' Hp Er) as [A1 A2]. destruct Nr as [Nr|Nr].
    + apply (full_not_nan r'); [exact A1|]. exact (sound_stays _ _ _ _ (proj1 (SO p Hp)) Hr Nr Er).
    + exact (full_not_nan _ A2 Nr).
  - exists (append "two-point.dat" ls (create "two-point.dat" f1)), a, b. split; [exact EA|]. split; [rewrite contents_append, contents_create, String.eqb_refl; exact (f_equal Some EL)|]. split; [exact A|]. split; [exact B|]. split; [exact (eq_trans (f_equal (@length _) (eq_sym EL)) LS)|].
    intros HF. destruct b as [|l b]; [reflexivity|exfalso]. inversion B as [|? ? Bl _]; subst.
    assert (FULL : forall p row, In p fs -> In row (snd p) -> full_row row).
    { intros p row Hp Hr. destruct (Hfs p Hp) as (j & Hj & ->). assert (X := HF j (rows j) Hj (proj1 (HR j Hj))). rewrite Forall_forall in X. apply X. unfold pr in Hr. cbn [snd] in Hr. destruct (rows j); [destruct Hr|right; exact Hr]. }
    assert (Hl : nth_error (a ++ l :: b) (length a) = Some l) by (rewrite nth_error_app2, Nat.sub_diag by lia; reflexivity).
    destruct (HLs _ _ Hl) as [[M _]|[_ (p & row & Hp & Hr & [Nr|Nr])]]; [exact (pair_not_nan l M Bl)|..].
    + exact (full_not_nan row (FULL p row Hp (nth_error_In _ _ Hr)) Nr).
    + exact (full_not_nan _ (FULL p _ Hp (proj2 (sound_zero L _ (proj2 (SO p Hp))))) Nr).
Qed.
