(** The lines of avg.dat after runs of the default mode: numbers first, then lines with NaN. *)
From Coq Require Import String ZArith Reals List Lia Lra Bool Arith Permutation.
From Coq Require Import Floats.SpecFloat.
From Verif Require Import Num Monad NumF64 Config Chain Fit Files Average Runs Main SpecVec SpecChain SpecToml SpecRound SpecClose SpecKeep SpecMade SpecPage SpecSession SpecPool SpecClock
  ProofsSession ProofsPool ProofsPool2 ProofsClock.
Import ListNotations.
Local Open Scope nat_scope.

Lemma numbers_inj {T} (a b : list T) : numbers a = numbers b -> a = b.
Proof. revert b. induction a as [|x a IH]; intros [|y b] E; try discriminate; [reflexivity|]. injection E as -> E. f_equal. exact (IH b E). Qed.
Lemma map_numbers_inj {T} (a b : list (list T)) : map numbers a = map numbers b -> a = b.
Proof. revert b. induction a as [|x a IH]; intros [|y b] E; try discriminate; [reflexivity|]. cbn in E. injection E as E1 E2. f_equal; [exact (numbers_inj _ _ E1)|exact (IH b E2)]. Qed.
Lemma number_nan x : is_number x -> x <> S754_nan. Proof. intros [_ H] ->. discriminate H. Qed.
Lemma full_not_nan r : full_row r -> nan_row r -> False.
Proof.
  intros (x & E & e & mx & my & mz & Mz & a & b & -> & _ & [VE _] & _) (x' & rest & X & _). injection X as _ X _. exact (number_nan _ VE X).
Qed.
Lemma mean_not_nan l : mean_row l -> nan_mean l -> False.
Proof.
  intros (x & E & e & rest & -> & [VE _] & _) (x' & rest' & X & _). apply numbers_inj in X. injection X as _ X _. exact (number_nan _ VE X).
Qed.
Lemma sound_stays rows i r r' : sound_log rows -> nth_error rows i = Some r -> nan_row r -> nth_error rows (S i) = Some r' -> nan_row r'.
Proof.
  intros (a & b & -> & A & B) H Q H'. rewrite Forall_forall in A, B. destruct (Nat.lt_ge_cases i (length a)) as [Hi|Hi].
  - rewrite nth_error_app1 in H by exact Hi. destruct (full_not_nan r (A r (nth_error_In _ _ H)) Q).
  - rewrite nth_error_app2 in H' by lia. exact (B r' (nth_error_In _ _ H')).
Qed.
Lemma split_two {X} (A B : X -> Prop) (l : list X) : (forall i x, nth_error l i = Some x -> A x \/ B x) ->
  (forall i x y, nth_error l i = Some x -> B x -> nth_error l (S i) = Some y -> B y) -> exists a b, l = a ++ b /\ Forall A a /\ Forall B b.
Proof.
  induction l as [|x l IH]; intros H S; [exists [], []; auto|].
  assert (IH' := IH (fun i y => H (Datatypes.S i) y) (fun i y z => S (Datatypes.S i) y z)). destruct (H 0 x eq_refl) as [Ax|Bx].
  - destruct IH' as (a & b & -> & HA & HB). exists (x :: a), b. auto.
  - exists [], (x :: l). split; [reflexivity|]. split; [constructor|]. apply Forall_forall. intros y Hy. apply In_nth_error in Hy. destruct Hy as [i Hi]. revert y Hi.
    induction i as [|i IHi]; intros y Hi; [injection Hi as <-; exact Bx|]. destruct (nth_error (x :: l) i) as [z|] eqn:Ez.
    + exact (S i z y Ez (IHi z eq_refl) Hi).
    + apply nth_error_None in Ez. assert (nth_error (x :: l) (Datatypes.S i) <> None) as K by (rewrite Hi; discriminate). apply nth_error_Some in K. lia.
Qed.

Lemma const_max n m l : (forall x, In x l -> x = m) -> length l = S n -> fold_right Nat.max 0 l = m.
Proof.
  revert n. induction l as [|x l IH]; intros n H L; [discriminate|]. cbn [fold_right]. rewrite (H x (or_introl eq_refl)).
  destruct l as [|y l]; [cbn; lia|]. rewrite (IH (length l)); [lia|intros z Hz; apply H; right; exact Hz|reflexivity].
Qed.
Lemma pool_split L fuel rg (conf : config f64) f conf' f1 conf2 c3 f2 : proper L -> mild_conf conf -> (2 <= ssize conf)%Z -> (forall i, plain_run L (r_draws (F64 L) rg i)) -> c_log conf = true ->
  in_range conf -> (1 <= runs conf < 2 ^ 30)%Z -> tidy f -> (forall nm, stands_for (c_file conf) nm -> contents f nm = None) ->
  run_sim (F64 L) fuel rg conf f = Ok (conf', f1) -> c_file conf2 = c_file conf -> run_average (F64 L) conf2 f1 = Ok (c3, f2) ->
  exists ts a b, timetable (F64 L) (nopp (F64 L) (trel (conf : config (num (F64 L))))) (c_dt conf) (c_t conf) (kept_plain (F64 L) conf) ts /\
    contents f2 "avg.dat" = Some (a ++ b) /\ Forall mean_row a /\ Forall nan_mean b /\ length (a ++ b) = length ts.
Proof.
  intros HL HC S2 HD CL IR R1 Ti Z E EF EA. assert (R0 : (0 <= runs conf)%Z) by lia.
  destruct (pool_files L fuel rg conf f conf' f1 conf2 c3 f2 HL HC S2 HD CL IR R1 Ti Z E EF EA) as (rows & ls & HR & C & LEN & HLs).
  assert (DT := default_times (F64 L) fuel rg conf f conf' f1 E CL IR R0). set (n := Z.to_nat (runs conf)) in *.
  assert (N1 : 1 <= n) by (unfold n; lia).
  destruct (DT 0 N1) as (_ & ts & _ & TT & _).
  assert (LR : forall j, j < n -> length (rows j) = S (length ts)).
  { intros j Hj. destruct (DT j Hj) as (rj & tj & Cj & Tj & Fj). assert (rj = rows j).
    { apply map_numbers_inj. assert (X := eq_trans (eq_sym Cj) (proj1 (HR j Hj))). injection X as X. exact X. }
    subst rj. rewrite (table_same (F64 L) _ _ _ _ _ _ Tj TT) in Fj. apply (f_equal (@length _)) in Fj. rewrite !map_length in Fj. exact Fj. }
  assert (LS : length ls = length ts).
  { rewrite LEN. apply (const_max (n - 1)).
    - intros x Hx. apply in_map_iff in Hx. destruct Hx as (j & <- & Hj). apply in_seq in Hj. rewrite LR by lia. lia.
    - rewrite map_length, seq_length. lia. }
  destruct (split_two mean_row nan_mean ls) as (a & b & EL & A & B).
  - intros i l Hl. destruct (HLs i l Hl) as [[M _]|[M _]]; auto.
  - intros i l l' Hl Hn Hl'. destruct (HLs i l Hl) as [[M _]|[_ (j & row & Hj & Hr & Nr)]]; [destruct (mean_not_nan l M Hn)|].
    destruct (HLs (S i) l' Hl') as [[_ A]|[M _]]; [exfalso|exact M].
    assert (K : nth_error (rows j) (S (S i)) <> None).
    { apply nth_error_Some. rewrite (LR j Hj). assert (Q : S i < length ls) by (apply nth_error_Some; intro X; assert (Y := eq_trans (eq_sym Hl') X); discriminate Y). rewrite LS in Q. lia. }
    destruct (nth_error (rows j) (S (S i))) as [r'|] eqn:Er; [|congruence].
    apply (full_not_nan r'); [exact (A j r' Hj Er)|]. exact (sound_stays _ _ _ _ (proj2 (HR j Hj)) Hr Nr Er).
  - exists ts, a, b. split; [exact TT|]. split; [exact (eq_trans C (f_equal Some EL))|]. split; [exact A|]. split; [exact B|]. exact (eq_trans (f_equal (@length _) (eq_sym EL)) LS).
Qed.
