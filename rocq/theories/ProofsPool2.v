(** Averages over the logs of the default mode in binary64. *)
From Coq Require Import String ZArith Reals List Lia Lra Psatz Bool Arith Permutation.
From Coq Require Import Floats.SpecFloat.
From Flocq Require Import Core.
From Verif Require Import Num Monad NumR NumF64 Config Chain Fit Files Average Runs Main SpecVec SpecChain SpecToml SpecRuns SpecRound SpecClose SpecKeep SpecMade SpecPage SpecSession SpecPool
  ProofsFlocq ProofsRound ProofsRound2 ProofsF64 ProofsChain ProofsDir ProofsNames ProofsFrame ProofsAverage ProofsPage ProofsSession ProofsSession2 ProofsSession3 ProofsSim ProofsPool.
Import ListNotations.
Local Open Scope R_scope.

Definition bz (c : nat) : Z := if (c <=? 2)%nat then 1966144%Z else 65537%Z.
Lemma p16 : powerRZ 2 (-16) = 1 / 65536. Proof. rewrite pow_bpow. exact q16_val. Qed.
Lemma unit_fit v f : near_unit (powerRZ 2 (-44)) v -> In f [vx; vy; vz] -> small (IZR 65537 / 65536) (f v).
Proof. intros H I. destruct (unit_comp v f H I) as [V B]. split; [exact V|]. rewrite value_fval. lra. Qed.
Lemma full_width row : full_row row -> length row = 13%nat. Proof. intros (x & E & e & mx & my & mz & Mz & a & b & -> & _). reflexivity. Qed.
Lemma nan_width row : nan_row row -> length row = 13%nat. Proof. intros (x & rest & -> & _ & H). exact (f_equal (fun k => S (S k)) H). Qed.
Lemma full_cols row : full_row row -> forall c, (1 <= c < 13)%nat -> exists x, nth_error row c = Some x /\ small (IZR (bz c) / 65536) x.
Proof.
  intros (x & E & e & mx & my & mz & Mz & a & b & -> & _ & HE & He & HM & Ha & Hb) c Hc.
  assert (S1 : forall y, small (30 + 1 / 1024) y -> small (IZR 1966144 / 65536) y) by (intros y [V B]; split; [exact V|lra]).
  assert (S2 : forall y, small (1 + powerRZ 2 (-16)) y -> small (IZR 65537 / 65536) y) by (intros y [V B]; split; [exact V|rewrite p16 in B; lra]).
  rewrite !Forall_cons_iff in HM. destruct HM as (M1 & M2 & M3 & M4 & _).
  destruct c as [|c]; [lia|].
  do 12 (destruct c as [|c]; [eexists; split; [reflexivity|cbn [bz Nat.leb]; first [apply S1; assumption | apply S2; assumption | apply unit_fit; [assumption|cbn; auto]]]|]). lia.
Qed.
Lemma sound_rows rows i row : sound_log rows -> nth_error rows i = Some row -> full_row row \/ nan_row row.
Proof.
  intros (a & b & -> & A & B) H. apply nth_error_In in H. rewrite Forall_forall in A, B. apply in_app_iff in H. destruct H as [H|H]; auto.
Qed.
Lemma either {A} (P Q : A -> Prop) l : (forall x, In x l -> P x \/ Q x) -> (forall x, In x l -> P x) \/ exists x, In x l /\ Q x.
Proof.
  induction l as [|x l IH]; intros H; [left; intros ? []|]. destruct (H x (or_introl eq_refl)) as [Px|Qx]; [|right; exists x; split; [left; reflexivity|exact Qx]].
  destruct IH as [IH|(y & Hy & Qy)]; [intros y Hy; apply H; right; exact Hy|left; intros y [<-|Hy]; auto|right; exists y; split; [right; exact Hy|exact Qy]].
Qed.

Lemma pool_logs L conf fs : capacity L conf -> (Z.of_nat (length fs) < 2 ^ 30)%Z -> (forall p, In p fs -> sound_log (snd p)) ->
  exists ls, average (F64 L) conf (map table_file fs) = Ok ls /\ length ls = fold_right Nat.max 0%nat (map (fun p => length (snd p)) fs) /\
  forall i l, nth_error ls i = Some l ->
    (mean_row l /\ forall row, has_row (map snd fs) i row -> full_row row) \/ (nan_mean l /\ exists row, has_row (map snd fs) i row /\ nan_row row).
Proof.
  intros Hc HB HS. destruct (average_at L conf fs 0 Hc) as (ls & E & _ & HL). exists ls. split; [exact E|]. split; [exact HL|]. clear HL. intros i l Hl.
  assert (K : forall row, has_row (map snd fs) i row -> full_row row \/ nan_row row).
  { intros row (t & Ht & Hn). apply in_map_iff in Ht. destruct Ht as (p & <- & Hp). exact (sound_rows _ _ _ (HS p Hp) Hn). }
  destruct (pool_length L conf fs i 13 Hc) as (ls1 & E1 & W).
  { intros row H. destruct (K row H); [apply full_width|apply nan_width]; assumption. }
  rewrite E in E1. injection E1 as <-. destruct (W l Hl) as (v & -> & Lv). clear W.
  destruct (either full_row nan_row (ith i (map snd fs))) as [A|(row & Hrow & Nr)].
  { intros row H. apply K. apply in_ith. exact H. }
  - left. split; [|intros row H; apply A; apply in_ith; exact H].
    assert (EX : exists row, has_row (map snd fs) i row).
    { destruct (average_at L conf fs i Hc) as (ls1 & E1 & EN & _). rewrite E in E1. injection E1 as <-. rewrite Hl in EN.
      destruct (ith i (map snd fs)) as [|r0 rs] eqn:EI; [discriminate|]. exists r0. apply in_ith. rewrite EI. left. reflexivity. }
    assert (C : forall c, (1 <= c < 13)%nat -> exists x, nth_error v c = Some x /\ small (IZR (bz c) / 65536) x).
    { intros c Hcc. destruct (pool_column L conf fs (bz c) i c Hc) as (ls1 & v1 & x & E1 & E2 & E3 & E4).
      - unfold bz. destruct (c <=? 2)%nat; lia.
      - lia.
      - unfold bz. destruct (c <=? 2)%nat; lia.
      - exact EX.
      - intros row H. apply full_cols; [|exact Hcc]. apply A. apply in_ith. exact H.
      - rewrite E in E1. injection E1 as <-. rewrite Hl in E2. assert (v = v1).
        { apply (f_equal (option_map (parse_line (F64 L)))) in E2. cbn [option_map] in E2. injection E2 as E2.
          exact (eq_trans (eq_sym (parse_numbers (F64 L) v)) (eq_trans E2 (parse_numbers (F64 L) v1))). }
        subst v1. exists x. auto. }
    do 13 (destruct v as [|? v]; [discriminate Lv|]). destruct v; [|discriminate Lv]. clear Lv.
    assert (G : forall c y, (1 <= c < 13)%nat -> nth_error _ c = Some y -> small (IZR (bz c) / 65536) y) by (intros c y Hcc Hy; destruct (C c Hcc) as (x & X1 & X2); rewrite Hy in X1; injection X1 as ->; exact X2).
    assert (T1 : forall y, small (IZR 1966144 / 65536) y -> small (30 + 1 / 1024) y) by (intros y [V B]; split; [exact V|lra]).
    assert (T2 : forall y, small (IZR 65537 / 65536) y -> small (1 + powerRZ 2 (-16)) y) by (intros y [V B]; split; [exact V|rewrite p16; lra]).
    eexists _, _, _, _. split; [reflexivity|]. split; [apply T1, (G 1%nat); [lia|reflexivity]|]. split; [apply T1, (G 2%nat); [lia|reflexivity]|]. split; [|reflexivity].
    constructor; [apply T2, (G 3%nat); [lia|reflexivity]|]. constructor; [apply T2, (G 4%nat); [lia|reflexivity]|]. constructor; [apply T2, (G 5%nat); [lia|reflexivity]|].
    constructor; [apply T2, (G 6%nat); [lia|reflexivity]|]. constructor; [apply T2, (G 7%nat); [lia|reflexivity]|]. constructor; [apply T2, (G 8%nat); [lia|reflexivity]|].
    constructor; [apply T2, (G 9%nat); [lia|reflexivity]|]. constructor; [apply T2, (G 10%nat); [lia|reflexivity]|]. constructor; [apply T2, (G 11%nat); [lia|reflexivity]|].
    constructor; [apply T2, (G 12%nat); [lia|reflexivity]|]. constructor.
  - right. apply in_ith in Hrow. split; [|exists row; auto].
    destruct (pool_nan L conf fs i 1 Hc) as (ls1 & v1 & E1 & E2 & E3).
    + exists row. split; [exact Hrow|]. destruct Nr as (x & rest & -> & _). reflexivity.
    + intros r H. destruct (K r H) as [Q|Q]; [rewrite (full_width r Q)|rewrite (nan_width r Q)]; lia.
    + rewrite E in E1. injection E1 as <-. rewrite Hl in E2. assert (v = v1).
      { apply (f_equal (option_map (parse_line (F64 L)))) in E2. cbn [option_map] in E2. injection E2 as E2.
        exact (eq_trans (eq_sym (parse_numbers (F64 L) v)) (eq_trans E2 (parse_numbers (F64 L) v1))). }
      subst v1. destruct v as [|x [|y rest]]; [discriminate|discriminate|]. cbn in E3. injection E3 as ->. exists x, rest. split; [reflexivity|]. exact (f_equal (fun k => Nat.pred (Nat.pred k)) Lv).
Qed.

(** * Runs of the default mode, then -a *)
Lemma sound_tail r rows : sound_log (r :: rows) -> sound_log rows.
Proof.
  intros (a & b & E & A & B). destruct a as [|x a]; cbn in E.
  - subst b. exists [], rows. split; [reflexivity|]. split; [constructor|]. inversion B; assumption.
  - injection E as -> ->. exists a, b. split; [reflexivity|]. split; [inversion A; assumption|exact B].
Qed.
Lemma max_perm l l' : Permutation l l' -> fold_right Nat.max 0%nat l = fold_right Nat.max 0%nat l'.
Proof. induction 1; cbn [fold_right]; lia. Qed.
Lemma pool_files L fuel rg (conf : config f64) f conf' f1 conf2 c3 f2 : proper L -> mild_conf conf -> (2 <= ssize conf)%Z -> (forall i, plain_run L (r_draws (F64 L) rg i)) -> c_log conf = true ->
  in_range conf -> (1 <= runs conf < 2 ^ 30)%Z -> tidy f -> (forall nm, stands_for (c_file conf) nm -> contents f nm = None) ->
  run_sim (F64 L) fuel rg conf f = Ok (conf', f1) -> c_file conf2 = c_file conf -> run_average (F64 L) conf2 f1 = Ok (c3, f2) ->
  exists rows ls, (forall j, (j < Z.to_nat (runs conf))%nat -> contents f1 (log_name (c_file conf) (Z.to_nat (offset conf) + j)) = Some (map numbers (rows j)) /\ sound_log (rows j)) /\
    contents f2 "avg.dat" = Some ls /\ length ls = fold_right Nat.max 0%nat (map (fun j => length (rows j) - 1)%nat (seq 0 (Z.to_nat (runs conf)))) /\
    forall i l, nth_error ls i = Some l ->
      (mean_row l /\ forall j row, (j < Z.to_nat (runs conf))%nat -> nth_error (rows j) (S i) = Some row -> full_row row) \/
      (nan_mean l /\ exists j row, (j < Z.to_nat (runs conf))%nat /\ nth_error (rows j) (S i) = Some row /\ nan_row row).
Proof.
  intros HL HC S2 HD CL IR R1 Ti Z E EF EA. assert (R0 : (0 <= runs conf)%Z) by lia.
  destruct (finite_choice (fun j rows => contents f1 (log_name (c_file conf) (Z.to_nat (offset conf) + j)) = Some (map numbers rows) /\ sound_log rows /\ rows <> []) (Z.to_nat (runs conf)) []
    (page_files L fuel rg conf f conf' f1 HL HC S2 HD CL IR R0 E)) as [rows HR].
  set (n := Z.to_nat (runs conf)) in *. set (o := Z.to_nat (offset conf)) in *.
  assert (T1 : tidy f1) by exact (frame_tidy (F64 L) _ _ _ _ _ _ E Ti).
  assert (U : forall nm, (forall j, (j < n)%nat -> nm <> log_name (c_file conf) (o + j)) -> contents f1 nm = contents f nm).
  { intros nm Hnm. destruct (run_frame_wrote (F64 L) _ _ _ _ _ _ E) as ((lss & F2 & W) & _).
    assert (W' := W : wrote f f1 (if c_log (conf : config f64) then _ else [])). rewrite CL in W'. destruct W' as [_ W2]. apply W2. intros Hin.
    apply logs_names in Hin. destruct Hin as (j & Hj & ->). apply (Hnm j); [|reflexivity].
    assert (NR : num_runs (F64 L) conf = n) by exact (proj1 (num_runs_small (F64 L) conf IR R0)).
    assert (LL := F2_length _ _ _ F2). rewrite seq_length in LL. lia. }
  assert (PM := glob_logs (c_file conf) f1 o n (fun j => map numbers (rows j)) T1 (fun j Hj => proj1 (HR j Hj))
    (fun nm S Hnm => eq_trans (U nm Hnm) (Z nm S))).
  set (pr := fun j => (@numbers f64 (hd [] (rows j)), tl (rows j))).
  assert (ET : map (fun j => map (@numbers f64) (rows j)) (seq 0 n) = map table_file (map pr (seq 0 n))).
  { rewrite map_map. apply map_ext_in. intros j Hj. apply in_seq in Hj. destruct (HR j ltac:(lia)) as (_ & _ & NE). unfold table_file, pr. cbn [fst snd]. destruct (rows j); [congruence|reflexivity]. }
  assert (PM2 : Permutation (map snd (glob (c_file conf) (f1 : Files.fs f64))) (map table_file (map pr (seq 0 n)))) by (rewrite <- ET; exact PM).
  destruct (Permutation_map_inv _ _ PM2) as (fs & Efs & Pfs).
  assert (Lfs : length fs = n) by (rewrite <- (Permutation_length Pfs), map_length, seq_length; reflexivity).
  assert (Hfs : forall p, In p fs <-> exists j, (j < n)%nat /\ p = pr j).
  { intros p. split; intros H.
    - apply (Permutation_in _ (Permutation_sym Pfs)) in H. apply in_map_iff in H. destruct H as (j & <- & Hj). apply in_seq in Hj. exists j. split; [lia|reflexivity].
    - destruct H as (j & Hj & ->). apply (Permutation_in _ Pfs). apply in_map. apply in_seq. lia. }
  unfold run_average in EA. assert (EF' : @c_file (num (F64 L)) conf2 = c_file conf) by exact EF. rewrite EF' in EA.
  assert (EA' : bind (average (F64 L) conf2 (map table_file fs)) (fun ls => Ok (conf2, append "avg.dat" ls (create "avg.dat" f1))) = Ok (c3, f2)).
  { rewrite <- Efs. exact EA. }
  assert (Hc : capacity L conf2).
  { unfold capacity. destruct (Z.le_gt_cases (24 * ntou64 (F64 L) (ndiv (F64 L) (c_t (conf2 : config (num (F64 L)))) (c_dt (conf2 : config (num (F64 L)))))) (2 ^ 63 - 1)) as [H|H]; [exact H|].
    rewrite (average_capacity (F64 L) conf2) in EA'; [discriminate|]. unfold fits. lia. }
  destruct (pool_logs L conf2 fs Hc) as (ls & E1 & LEN & HLs).
  { rewrite Lfs. unfold n. lia. }
  { intros p Hp. apply Hfs in Hp. destruct Hp as (j & Hj & ->). destruct (HR j Hj) as (_ & SO & NE). unfold pr. cbn [snd]. destruct (rows j); [congruence|]. exact (sound_tail _ _ SO). }
  rewrite E1 in EA'. cbn [bind] in EA'. injection EA' as _ <-.
  assert (TN : forall j i, (j < n)%nat -> nth_error (snd (pr j)) i = nth_error (rows j) (S i)).
  { intros j i Hj. unfold pr. cbn [snd]. destruct (HR j Hj) as (_ & _ & NE). destruct (rows j); [congruence|reflexivity]. }
  exists rows, ls. split; [intros j Hj; destruct (HR j Hj) as (A & B & _); auto|]. split; [rewrite contents_append, contents_create, String.eqb_refl; reflexivity|]. split.
  { etransitivity; [exact LEN|]. rewrite <- (max_perm _ _ (Permutation_map (fun p : line f64 * list (list f64) => length (snd p)) Pfs)). rewrite map_map. f_equal. apply map_ext_in.
    intros j Hj. apply in_seq in Hj. unfold pr. cbn [snd]. destruct (rows j); [reflexivity|]. exact (eq_sym (Nat.sub_0_r _)). }
  intros i l Hl. destruct (HLs i l Hl) as [[M A]|[M (row & (t & Ht & Hn) & Nr)]].
  - left. split; [exact M|]. intros j row Hj Hr. apply A. exists (snd (pr j)). split; [apply in_map; apply Hfs; exists j; auto|]. rewrite TN by exact Hj. exact Hr.
  - right. split; [exact M|]. apply in_map_iff in Ht. destruct Ht as (p & <- & Hp). apply Hfs in Hp. destruct Hp as (j & Hj & ->). rewrite TN in Hn by exact Hj. exists j, row. auto.
Qed.
