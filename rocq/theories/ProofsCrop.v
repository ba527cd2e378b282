(** Averages over Langevin logs in binary64. *)
From Coq Require Import String ZArith Reals List Lia Lra Psatz Bool Arith Permutation.
From Coq Require Import Floats.SpecFloat.
From Flocq Require Import Core.
From Verif Require Import Num Monad NumR NumF64 Config Chain Langevin Fit Files Average Runs Main SpecVec SpecChain SpecToml SpecRuns SpecRound SpecClose SpecKeep SpecMade SpecNoisy SpecPage SpecLeaf SpecSession SpecPool SpecClock SpecCrop
  ProofsFlocq ProofsRound ProofsRound2 ProofsF64 ProofsChain ProofsDir ProofsNames ProofsFrame ProofsAverage ProofsPage ProofsSession ProofsSession2 ProofsSession3 ProofsSim ProofsLeaf ProofsPool ProofsPool2 ProofsClock ProofsClock2.
Import ListNotations.
Local Open Scope R_scope.

Definition ok_leaf (whole : bool) (row : list f64) : Prop := if whole then full_leaf row else sub_leaf row.
Lemma full_sub row : full_leaf row -> sub_leaf row.
Proof.
  intros (x & E & mx & my & mz & Mz & bt & -> & A & B & C). exists x, E, mx, my, mz, Mz, bt. rewrite !Forall_cons_iff in C. destruct C as (C1 & C2 & C3 & _). split; [reflexivity|]. split; [exact A|]. split; [exact B|]. apply Forall_cons; [assumption|]. apply Forall_cons; [assumption|]. apply Forall_cons; [assumption|]. apply Forall_nil.
Qed.
Lemma ok_width w row : ok_leaf w row -> length row = 8%nat.
Proof. destruct w; intros (x & E & mx & my & mz & Mz & bt & -> & _); reflexivity. Qed.
Lemma nan_leaf_width row : nan_leaf row -> length row = 8%nat.
Proof. intros (x & rest & -> & _ & H). exact (f_equal (fun k => S (S (S k))) H). Qed.
Lemma ok_cols (w : bool) row : ok_leaf w row -> forall c, (1 <= c < if w then 7 else 6)%nat -> exists x, nth_error row c = Some x /\ small (IZR (bz c) / 65536) x.
Proof.
  assert (S1 : forall y, small (30 + 1 / 1024) y -> small (IZR 1966144 / 65536) y) by (intros y [V B]; split; [exact V|lra]).
  assert (S2 : forall y, small (1 + powerRZ 2 (-16)) y -> small (IZR 65537 / 65536) y) by (intros y [V B]; split; [exact V|rewrite p16 in B; lra]).
  intros H c Hc. destruct w.
  - destruct H as (x & E & mx & my & mz & Mz & bt & -> & _ & HE & HM). rewrite !Forall_cons_iff in HM. destruct HM as (M1 & M2 & M3 & M4 & _).
    destruct c as [|c]; [lia|]. do 6 (destruct c as [|c]; [eexists; split; [reflexivity|cbn [bz Nat.leb]; first [apply S1; assumption | apply S2; assumption]]|]). lia.
  - destruct H as (x & E & mx & my & mz & Mz & bt & -> & _ & HE & HM). rewrite !Forall_cons_iff in HM. destruct HM as (M1 & M2 & M3 & _).
    destruct c as [|c]; [lia|]. do 5 (destruct c as [|c]; [eexists; split; [reflexivity|cbn [bz Nat.leb]; first [apply S1; assumption | apply S2; assumption]]|]). lia.
Qed.
Lemma ok_not_nan w r : ok_leaf w r -> nan_leaf r -> False.
Proof. destruct w; intros (x & E & mx & my & mz & Mz & bt & -> & _ & [VE _] & _) (x' & rest & X & _); injection X as _ X _ _; exact (number_nan _ VE X). Qed.
Lemma crop_not_nan w l : leaf_mean w l -> nan_leaf_mean l -> False.
Proof.
  intros (x & E & e & mx & my & mz & Mz & bt & -> & [VE _] & _) (x' & rest & X & _). apply numbers_inj in X. injection X as _ X _ _. exact (number_nan _ VE X).
Qed.
Definition leaf_log (w : bool) (rows : list (list f64)) : Prop := exists a b, rows = a ++ b /\ Forall (ok_leaf w) a /\ Forall nan_leaf b.
Lemma leaf_log_rows w rows i row : leaf_log w rows -> nth_error rows i = Some row -> ok_leaf w row \/ nan_leaf row.
Proof. intros (a & b & -> & A & B) H. apply nth_error_In in H. rewrite Forall_forall in A, B. apply in_app_iff in H. destruct H as [H|H]; auto. Qed.
Lemma leaf_log_stays w rows i r r' : leaf_log w rows -> nth_error rows i = Some r -> nan_leaf r -> nth_error rows (S i) = Some r' -> nan_leaf r'.
Proof.
  intros (a & b & -> & A & B) H Q H'. rewrite Forall_forall in A, B. destruct (Nat.lt_ge_cases i (length a)) as [Hi|Hi].
  - rewrite nth_error_app1 in H by exact Hi. destruct (ok_not_nan w r (A r (nth_error_In _ _ H)) Q).
  - rewrite nth_error_app2 in H' by lia. exact (B r' (nth_error_In _ _ H')).
Qed.

Lemma crop_logs L w conf fs : capacity L conf -> (Z.of_nat (length fs) < 2 ^ 30)%Z -> (forall p, In p fs -> leaf_log w (snd p)) ->
  exists ls, average (F64 L) conf (map table_file fs) = Ok ls /\ length ls = fold_right Nat.max 0%nat (map (fun p => length (snd p)) fs) /\
  forall i l, nth_error ls i = Some l ->
    (leaf_mean w l /\ forall row, has_row (map snd fs) i row -> ok_leaf w row) \/ (nan_leaf_mean l /\ exists row, has_row (map snd fs) i row /\ nan_leaf row).
Proof.
  intros Hc HB HS. destruct (average_at L conf fs 0 Hc) as (ls & E & _ & HL). exists ls. split; [exact E|]. split; [exact HL|]. clear HL. intros i l Hl.
  assert (K : forall row, has_row (map snd fs) i row -> ok_leaf w row \/ nan_leaf row).
  { intros row (t & Ht & Hn). apply in_map_iff in Ht. destruct Ht as (p & <- & Hp). exact (leaf_log_rows _ _ _ _ (HS p Hp) Hn). }
  destruct (pool_length L conf fs i 8 Hc) as (ls1 & E1 & W).
  { intros row H. destruct (K row H); [apply (ok_width w)|apply nan_leaf_width]; assumption. }
  rewrite E in E1. injection E1 as <-. destruct (W l Hl) as (v & -> & Lv). clear W.
  assert (SV : forall ls1 v1, Ok ls = Ok ls1 -> nth_error ls1 i = Some (numbers v1) -> v1 = v).
  { intros ls1 v1 E1 E2. injection E1 as <-. rewrite Hl in E2. apply (f_equal (option_map (parse_line (F64 L)))) in E2. cbn [option_map] in E2. injection E2 as E2.
    exact (eq_sym (eq_trans (eq_sym (parse_numbers (F64 L) v)) (eq_trans E2 (parse_numbers (F64 L) v1)))). }
  destruct (either (ok_leaf w) nan_leaf (ith i (map snd fs))) as [A|(row & Hrow & Nr)].
  { intros row H. apply K. apply in_ith. exact H. }
  - left. split; [|intros row H; apply A; apply in_ith; exact H].
    assert (EX : exists row, has_row (map snd fs) i row).
    { destruct (average_at L conf fs i Hc) as (ls1 & E1 & EN & _). rewrite E in E1. injection E1 as <-. rewrite Hl in EN.
      destruct (ith i (map snd fs)) as [|r0 rs] eqn:EI; [discriminate|]. exists r0. apply in_ith. rewrite EI. left. reflexivity. }
    assert (C : forall c y, (1 <= c < if w then 7 else 6)%nat -> nth_error v c = Some y -> small (IZR (bz c) / 65536) y).
    { intros c y Hcc Hy. destruct (pool_column L conf fs (bz c) i c Hc) as (ls1 & v1 & x & E1 & E2 & E3 & E4).
      - unfold bz. destruct (c <=? 2)%nat; lia.
      - lia.
      - unfold bz. destruct (c <=? 2)%nat; lia.
      - exact EX.
      - intros row H. apply (ok_cols w); [|exact Hcc]. apply A. apply in_ith. exact H.
      - rewrite E in E1. assert (v1 = v) by exact (SV _ _ E1 E2). subst v1. assert (X := eq_trans (eq_sym Hy) E3). injection X as ->. exact E4. }
    assert (T1 : forall y, small (IZR 1966144 / 65536) y -> small (30 + 1 / 1024) y) by (intros y [V B]; split; [exact V|lra]).
    assert (T2 : forall y, small (IZR 65537 / 65536) y -> small (1 + powerRZ 2 (-16)) y) by (intros y [V B]; split; [exact V|rewrite p16; lra]).
    do 8 (destruct v as [|? v]; [discriminate Lv|]). destruct v; [|discriminate Lv]. clear Lv.
    eexists _, _, _, _, _, _, _, _. split; [reflexivity|]. split; [apply T1, (C 1%nat); [destruct w; lia|reflexivity]|]. split; [apply T1, (C 2%nat); [destruct w; lia|reflexivity]|]. split.
    + constructor; [apply T2, (C 3%nat); [destruct w; lia|reflexivity]|]. constructor; [apply T2, (C 4%nat); [destruct w; lia|reflexivity]|]. constructor; [apply T2, (C 5%nat); [destruct w; lia|reflexivity]|]. constructor.
    + intros ->. apply T2, (C 6%nat); [lia|reflexivity].
  - right. apply in_ith in Hrow. split; [|exists row; auto].
    assert (G : forall c, (c = 1 \/ c = 2)%nat -> nth_error v c = Some S754_nan).
    { intros c Hcc. destruct (pool_nan L conf fs i c Hc) as (ls1 & v1 & E1 & E2 & E3).
      - exists row. split; [exact Hrow|]. destruct Nr as (x & rest & -> & _). destruct Hcc as [->| ->]; reflexivity.
      - intros r H. destruct (K r H) as [Q|Q]; [rewrite (ok_width w r Q)|rewrite (nan_leaf_width r Q)]; lia.
      - rewrite E in E1. assert (v1 = v) by exact (SV _ _ E1 E2). subst v1. exact E3. }
    assert (G1 := G 1%nat (or_introl eq_refl)). assert (G2 := G 2%nat (or_intror eq_refl)).
    destruct v as [|x [|y1 [|y2 rest]]]; try discriminate. cbn in G1, G2. injection G1 as ->. injection G2 as ->. exists x, rest. split; [reflexivity|].
    exact (f_equal (fun k => Nat.pred (Nat.pred (Nat.pred k))) Lv).
Qed.

Lemma glob_langevin N fuel g rg (conf : config (num N)) f conf' f1 (rows : nat -> list (line (num N))) : in_range conf -> (0 <= runs conf)%Z -> tidy f ->
  (forall nm, stands_for (c_file conf) nm -> contents f nm = None) -> run_langevin N fuel g rg conf f = Ok (conf', f1) ->
  (forall j, (j < Z.to_nat (runs conf))%nat -> contents f1 (log_name (c_file conf) (Z.to_nat (offset conf) + j)) = Some (rows j)) ->
  Permutation (map snd (glob (c_file conf) f1)) (map rows (seq 0 (Z.to_nat (runs conf)))).
Proof.
  intros IR R0 Ti Z E HR. set (n := Z.to_nat (runs conf)) in *. set (o := Z.to_nat (offset conf)) in *.
  assert (T1 : tidy f1) by exact (langevin_tidy N _ _ _ _ _ _ _ E Ti).
  assert (U : forall nm, (forall j, (j < n)%nat -> nm <> log_name (c_file conf) (o + j)) -> contents f1 nm = contents f nm).
  { intros nm Hnm. destruct (run_langevin_wrote N _ _ _ _ _ _ _ E) as ((lss & LL & _ & W) & _). destruct W as [_ W2]. apply W2. intros Hin.
    apply logs_names in Hin. destruct Hin as (j & Hj & ->). apply (Hnm j); [|reflexivity].
    assert (NR : num_runs N conf = n) by exact (proj1 (num_runs_small N conf IR R0)). lia. }
  exact (glob_logs (c_file conf) f1 o n rows T1 HR (fun nm S Hnm => eq_trans (U nm Hnm) (Z nm S))).
Qed.

Lemma crop_files L fuel g rg (conf : config f64) f conf' f1 conf2 c3 f2 : proper L -> mild_conf conf -> mild_bath conf g -> (2 <= ssize conf)%Z ->
  (forall i, noisy_draws L (r_draws (F64 L) rg i) (r_noise (F64 L) rg i)) ->
  in_range conf -> (1 <= runs conf < 2 ^ 30)%Z -> tidy f -> (forall nm, stands_for (c_file conf) nm -> contents f nm = None) ->
  run_langevin (F64 L) fuel g rg conf f = Ok (conf', f1) -> c_file conf2 = c_file conf -> run_average (F64 L) conf2 f1 = Ok (c3, f2) ->
  exists ts a b, timetable (F64 L) (nopp (F64 L) (trel (conf : config (num (F64 L))))) (c_dt conf) (c_t conf) (kept_langevin (F64 L) conf) ts /\
    contents f2 "avg.dat" = Some (a ++ b) /\ Forall (leaf_mean (ssize conf =? hsize conf)%Z) a /\ Forall nan_leaf_mean b /\ length (a ++ b) = S (length ts).
Proof.
  intros HL HC HB S2 HD IR R1 Ti Z E EF EA. assert (R0 : (0 <= runs conf)%Z) by lia. set (w := (ssize conf =? hsize conf)%Z).
  destruct (finite_choice (fun j rows => contents f1 (log_name (c_file conf) (Z.to_nat (offset conf) + j)) = Some (l_header (F64 L) :: map numbers rows) /\ leaf_log w rows) (Z.to_nat (runs conf)) []) as [rows HR].
  { intros j Hj. destruct (leaf_files L fuel g rg conf f conf' f1 HL HC HB S2 HD IR R0 E j Hj) as (r & C & (a & b & c & Er & A & B & Cc) & _ & HW). exists r. split; [exact C|].
    unfold w. destruct (Z.eqb_spec (ssize conf) (hsize conf)) as [Q|Q].
    - destruct (HW Q) as (a' & c' & -> & A' & C'). exists a', c'. auto.
    - exists (a ++ b), c. split; [rewrite <- app_assoc; exact Er|]. split; [|exact Cc]. apply Forall_app. split; [|exact B]. eapply Forall_impl; [|exact A]. exact full_sub. }
  assert (DT := langevin_log_times (F64 L) fuel g rg conf f conf' f1 E IR R0).
  assert (PM := glob_langevin (F64 L) fuel g rg conf f conf' f1 (fun j => l_header (F64 L) :: map numbers (rows j)) IR R0 Ti Z E (fun j Hj => proj1 (HR j Hj))).
  set (n := Z.to_nat (runs conf)) in *. set (o := Z.to_nat (offset conf)) in *.
  assert (N1 : (0 < n)%nat) by (unfold n; lia).
  destruct (DT 0%nat N1) as (_ & ts & _ & TT & _).
  assert (LR : forall j, (j < n)%nat -> length (rows j) = S (length ts)).
  { intros j Hj. destruct (DT j Hj) as (rj & tj & Cj & Tj & Fj). assert (rj = rows j).
    { apply map_numbers_inj. assert (X := eq_trans (eq_sym Cj) (proj1 (HR j Hj))). injection X as X. exact X. }
    subst rj. rewrite (table_same (F64 L) _ _ _ _ _ _ Tj TT) in Fj. apply (f_equal (@length _)) in Fj. rewrite !map_length in Fj. exact Fj. }
  set (pr := fun j => (l_header (F64 L) : line f64, rows j)).
  assert (PM2 : Permutation (map snd (glob (c_file conf) (f1 : Files.fs f64))) (map table_file (map pr (seq 0 n)))) by (rewrite map_map; exact PM).
  destruct (Permutation_map_inv _ _ PM2) as (fs & Efs & Pfs).
  assert (Lfs : length fs = n) by (rewrite <- (Permutation_length Pfs), map_length, seq_length; reflexivity).
  assert (Hfs : forall p, In p fs <-> exists j, (j < n)%nat /\ p = pr j).
  { intros p. split; intros H.
    - apply (Permutation_in _ (Permutation_sym Pfs)) in H. apply in_map_iff in H. destruct H as (j & <- & Hj). apply in_seq in Hj. exists j. split; [lia|reflexivity].
    - destruct H as (j & Hj & ->). apply (Permutation_in _ Pfs). apply in_map. apply in_seq. lia. }
  unfold run_average in EA. assert (EF' : @c_file (num (F64 L)) conf2 = c_file conf) by exact EF. rewrite EF' in EA.
  assert (EA' : bind (average (F64 L) conf2 (map table_file fs)) (fun ls => Ok (conf2, append "avg.dat" ls (create "avg.dat" f1))) = Ok (c3, f2)).
  { rewrite <- Efs. exact EA. }
  assert (Hc : capacity L conf2).
  { unfold capacity. destruct (Z.le_gt_cases (24 * ntou64 (F64 L) (ndiv (F64 L) (c_t (conf2 : config (num (F64 L)))) (c_dt (conf2 : config (num (F64 L)))))) (2 ^ 63 - 1)) as [H|H]; [exact H|].
    rewrite (average_capacity (F64 L) conf2) in EA'; [discriminate|]. unfold fits. lia. }
  destruct (crop_logs L w conf2 fs Hc) as (ls & E1 & LEN & HLs).
  { rewrite Lfs. unfold n. lia. }
  { intros p Hp. apply Hfs in Hp. destruct Hp as (j & Hj & ->). exact (proj2 (HR j Hj)). }
  rewrite E1 in EA'. cbn [bind] in EA'. injection EA' as _ <-.
  assert (LS : length ls = S (length ts)).
  { rewrite LEN. apply (const_max (n - 1)).
    - intros y Hy. apply in_map_iff in Hy. destruct Hy as (p & <- & Hp). apply Hfs in Hp. destruct Hp as (j & Hj & ->). exact (LR j Hj).
    - rewrite map_length, Lfs. lia. }
  destruct (split_two (leaf_mean w) nan_leaf_mean ls) as (a & b & EL & A & B).
  - intros i l Hl. destruct (HLs i l Hl) as [[M _]|[M _]]; auto.
  - intros i l l' Hl Hn Hl'. destruct (HLs i l Hl) as [[M _]|[_ (row & (t & Ht & Hr) & Nr)]]; [destruct (crop_not_nan w l M Hn)|].
    destruct (HLs (S i) l' Hl') as [[_ A]|[M _]]; [exfalso|exact M].
    assert (Ht' := Ht). apply in_map_iff in Ht'. destruct Ht' as (p & Ep & Hp). apply Hfs in Hp. destruct Hp as (j & Hj & ->). unfold pr in Ep. cbn [snd] in Ep. subst t.
    assert (K : nth_error (rows j) (S i) <> None).
    { apply nth_error_Some. rewrite (LR j Hj). assert (Q : (S i < length ls)%nat) by (apply nth_error_Some; intro X; assert (Y := eq_trans (eq_sym Hl') X); discriminate Y). rewrite LS in Q. exact Q. }
    destruct (nth_error (rows j) (S i)) as [r'|] eqn:Er; [|congruence].
    apply (ok_not_nan w r'); [apply A; exists (rows j); auto|]. exact (leaf_log_stays w _ _ _ _ (proj2 (HR j Hj)) Hr Nr Er).
  - exists ts, a, b. split; [exact TT|]. split; [rewrite contents_append, contents_create, String.eqb_refl; exact (f_equal Some EL)|]. split; [exact A|]. split; [exact B|].
    exact (eq_trans (f_equal (@length _) (eq_sym EL)) LS).
Qed.
