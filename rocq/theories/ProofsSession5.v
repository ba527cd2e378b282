(** Averages over the logs of several invocations: the theorems. *)
From Coq Require Import String Reals ZArith List Arith Lia Lra Permutation Bool.
From Flocq Require Import Core.
From Verif Require Import Num Monad NumR Spin Config Chain Langevin Fit Files Toml Writers Average Runs Main
  SpecChain SpecTotal SpecToml SpecWriters SpecAverage SpecRuns SpecMain SpecOptions SpecSession
  ProofsChain ProofsWriters ProofsAverage ProofsDir ProofsNames ProofsToml ProofsNew ProofsFrame ProofsHistory ProofsLoop ProofsSim ProofsStrobe ProofsLangRun ProofsOptions ProofsProgram
  ProofsSession ProofsSession2 ProofsSession3 ProofsSession4.
Import ListNotations.
Local Close Scope R_scope.
Local Open Scope nat_scope.

Definition header : line ER := [Tword "#t"; Tword "E_total"; Tword "E_sub"; Tword "M_x"; Tword "M_y"; Tword "M_z"]%string.
Lemma first_default (rows : nat -> list ER) m : with_first (numbers (rows 0)) (fun k => rows (1 + k)) m = map (fun k => numbers (rows k)) (seq 0 (S m)).
Proof. unfold with_first. cbn [seq map]. f_equal. symmetry. apply (seq_map_shift 1). Qed.

Lemma default_average K f g f0 conf r dt tmax fuel w a st : session ERNum (fun a => selected a = []) K f g -> 1 <= K -> tidy f ->
  read_config ERNum f = Ok (conf, f0) -> timed r dt tmax conf -> (0 < dt)%R -> (1 <= runs conf)%Z -> (forall nm, stands_for (c_file conf) nm -> contents f nm = None) ->
  selected a = [Mavg] -> main ERNum fuel w a g = Ok st ->
  let m := Z.to_nat (Zceil ((tmax + r) / dt)) in let n := K * Z.to_nat (runs conf) in
  exists rows, (forall i, i < n -> steps_table r dt 12 (rows i)) /\
    (forall i, i < n -> contents g (log_name (c_file conf) (Z.to_nat (offset conf) + i)) = Some (map (fun k => numbers (rows i k)) (seq 0 (S m)))) /\
    contents (s_fs ERNum st) "avg.dat" = Some (map (fun k => numbers (mean_line 13 (map (fun i => rows i k) (seq 0 n)))) (seq 1 m)) /\
    steps_table r dt 12 (fun k => mean_line 13 (map (fun i => rows i k) (seq 0 n))) /\
    (forall nm, nm <> "avg.dat"%string -> contents (s_fs ERNum st) nm = contents g nm) /\ f_conf (s_fs ERNum st) = f_conf g.
Proof.
  intros Ss HK Ti Rd Tm Hd Rn No Sl E m n.
  destruct (session_average r dt 12 m 1 (fun rows => numbers (rows 0)) _ _ (adds_default' r dt tmax Hd) K f g f0 conf Ss HK Ti Rd Tm Rn No fuel w a st Sl E)
    as (rows & A & B & C & D & F). exists rows. split; [exact A|]. split; [|auto].
  intros i Hi. etransitivity; [apply (B i Hi)|]. f_equal. apply first_default.
Qed.
Lemma langevin_average K f g f0 conf r dt tmax fuel w a st : session ERNum langevin_args K f g -> 1 <= K -> tidy f ->
  read_config ERNum f = Ok (conf, f0) -> ltimed r dt tmax conf -> (0 < dt)%R -> (1 <= runs conf)%Z -> (forall nm, stands_for (c_file conf) nm -> contents f nm = None) ->
  selected a = [Mavg] -> main ERNum fuel w a g = Ok st ->
  let m := Z.to_nat (Zceil ((tmax + r) / dt)) in let n := K * Z.to_nat (runs conf) in
  exists rows, (forall i, i < n -> steps_table r dt 7 (rows i)) /\
    (forall i, i < n -> contents g (log_name (c_file conf) (Z.to_nat (offset conf) + i)) = Some (header :: map (fun k => numbers (rows i k)) (seq 0 (S m)))) /\
    contents (s_fs ERNum st) "avg.dat" = Some (map (fun k => numbers (mean_line 8 (map (fun i => rows i k) (seq 0 n)))) (seq 0 (S m))) /\
    steps_table r dt 7 (fun k => mean_line 8 (map (fun i => rows i k) (seq 0 n))) /\
    (forall nm, nm <> "avg.dat"%string -> contents (s_fs ERNum st) nm = contents g nm) /\ f_conf (s_fs ERNum st) = f_conf g.
Proof.
  intros Ss HK Ti Rd Tm Hd Rn No Sl E m n.
  exact (session_average r dt 7 (S m) 0 (fun _ => l_header ERNum) _ _ (adds_langevin r dt tmax Hd) K f g f0 conf Ss HK Ti Rd Tm Rn No fuel w a st Sl E).
Qed.

Lemma steps_ge k0 dt tmax : (0 < dt)%R -> (0 <= tmax)%R -> k0 <= Z.to_nat (Zceil ((tmax + INR k0 * dt) / dt)).
Proof.
  intros Hd Ht. assert (Z.of_nat k0 <= Zceil ((tmax + INR k0 * dt) / dt))%Z; [|lia].
  apply le_IZR. eapply Rle_trans; [|apply Zceil_ub]. rewrite <- INR_IZR_INZ.
  apply (Rmult_le_reg_r dt); [exact Hd|]. unfold Rdiv. rewrite Rmult_assoc, Rinv_l by lra. lra.
Qed.
Lemma default_two K f g f0 conf k0 dt tmax fuel w a st : session ERNum (fun a => selected a = []) K f g -> 1 <= K -> tidy f ->
  read_config ERNum f = Ok (conf, f0) -> timed (INR k0 * dt) dt tmax conf -> (1 / 100000 <= dt)%R -> (0 <= tmax)%R -> 1 <= k0 -> (1 <= runs conf)%Z ->
  (forall nm, stands_for (c_file conf) nm -> contents f nm = None) ->
  selected a = [Mtwopoint] -> main ERNum fuel w a g = Ok st ->
  let m := Z.to_nat (Zceil ((tmax + INR k0 * dt) / dt)) in let n := K * Z.to_nat (runs conf) in
  exists rows, (forall i, i < n -> steps_table (INR k0 * dt) dt 12 (rows i)) /\
    (forall i, i < n -> contents g (log_name (c_file conf) (Z.to_nat (offset conf) + i)) = Some (map (fun k => numbers (rows i k)) (seq 0 (S m)))) /\
    contents (s_fs ERNum st) "two-point.dat" = Some (map (fun k => numbers (mean_line 13 (map (fun i => against (rows i k0) (rows i k)) (seq 0 n)))) (seq 1 m)) /\
    steps_table (INR k0 * dt) dt 12 (fun k => mean_line 13 (map (fun i => against (rows i k0) (rows i k)) (seq 0 n))) /\
    (forall nm, nm <> "two-point.dat"%string -> contents (s_fs ERNum st) nm = contents g nm) /\ f_conf (s_fs ERNum st) = f_conf g.
Proof.
  intros Ss HK Ti Rd Tm Hd Ht Hk Rn No Sl E m n. assert (Hd' : (0 < dt)%R) by lra.
  assert (k0 <= m) by (apply steps_ge; assumption).
  destruct (session_two (INR k0 * dt) dt 12 m 1 (fun rows => numbers (rows 0)) _ _ (adds_default' (INR k0 * dt) dt tmax Hd') K f g f0 conf Ss HK Ti Rd Tm Rn No k0 fuel w a st eq_refl Hd ltac:(lia) Sl E)
    as (rows & A & B & C & D & F). exists rows. split; [exact A|]. split; [|auto].
  intros i Hi. etransitivity; [apply (B i Hi)|]. f_equal. apply first_default.
Qed.
Lemma langevin_two K f g f0 conf k0 dt tmax fuel w a st : session ERNum langevin_args K f g -> 1 <= K -> tidy f ->
  read_config ERNum f = Ok (conf, f0) -> ltimed (INR k0 * dt) dt tmax conf -> (1 / 100000 <= dt)%R -> (0 <= tmax)%R -> (1 <= runs conf)%Z ->
  (forall nm, stands_for (c_file conf) nm -> contents f nm = None) ->
  selected a = [Mtwopoint] -> main ERNum fuel w a g = Ok st ->
  let m := Z.to_nat (Zceil ((tmax + INR k0 * dt) / dt)) in let n := K * Z.to_nat (runs conf) in
  exists rows, (forall i, i < n -> steps_table (INR k0 * dt) dt 7 (rows i)) /\
    (forall i, i < n -> contents g (log_name (c_file conf) (Z.to_nat (offset conf) + i)) = Some (header :: map (fun k => numbers (rows i k)) (seq 0 (S m)))) /\
    contents (s_fs ERNum st) "two-point.dat" = Some (map (fun k => numbers (mean_line 8 (map (fun i => against (rows i k0) (rows i k)) (seq 0 n)))) (seq 0 (S m))) /\
    steps_table (INR k0 * dt) dt 7 (fun k => mean_line 8 (map (fun i => against (rows i k0) (rows i k)) (seq 0 n))) /\
    (forall nm, nm <> "two-point.dat"%string -> contents (s_fs ERNum st) nm = contents g nm) /\ f_conf (s_fs ERNum st) = f_conf g.
Proof.
  intros Ss HK Ti Rd Tm Hd Ht Rn No Sl E m n. assert (Hd' : (0 < dt)%R) by lra.
  assert (k0 <= m) by (apply steps_ge; assumption).
  exact (session_two (INR k0 * dt) dt 7 (S m) 0 (fun _ => l_header ERNum) _ _ (adds_langevin (INR k0 * dt) dt tmax Hd') K f g f0 conf Ss HK Ti Rd Tm Rn No k0 fuel w a st eq_refl Hd ltac:(lia) Sl E).
Qed.
Lemma default_two_panics K f g f0 conf dt tmax fuel w a b : session ERNum (fun a => selected a = []) K f g -> 1 <= K -> tidy f ->
  read_config ERNum f = Ok (conf, f0) -> timed 0 dt tmax conf -> (1 / 100000 <= dt)%R -> (0 < tmax)%R -> (1 <= runs conf)%Z ->
  (forall nm, stands_for (c_file conf) nm -> contents f nm = None) ->
  selected a = [Mtwopoint] -> a_beta a = Some b -> main ERNum fuel w a g = Panic IndexOOB.
Proof.
  intros Ss HK Ti Rd Tm Hd Ht Rn No Sl Eb. assert (Hd' : (0 < dt)%R) by lra.
  apply (session_two_panics 0 dt 12 (Z.to_nat (Zceil ((tmax + 0) / dt))) 1 (fun rows => numbers (rows 0)) _ _ (adds_default' 0 dt tmax Hd') K f g f0 conf Ss HK Ti Rd Tm Rn No 0 fuel w a b).
  - cbn. ring.
  - exact Hd.
  - lia.
  - assert (0 < Zceil ((tmax + 0) / dt))%Z; [|lia]. apply lt_IZR. eapply Rlt_le_trans; [|apply Zceil_ub]. apply Rdiv_lt_0_compat; lra.
  - lia.
  - exact Sl.
  - exact Eb.
Qed.

(** ** Averaging again *)
Section R.
Context (N : NumOps).
Notation T := (num N).
Implicit Types (f : fs T) (a : args T).
Lemma read_again f conf f0 : read_config N f = Ok (conf, f0) -> read_config N f0 = Ok (conf, f0) /\ f_conf f0 <> Missing.
Proof.
  intros H. destruct (f_conf f) as [| |l] eqn:E.
  - destruct (read_missing N f E) as (c & d & R & _ & _ & (l & El) & R2). rewrite R in H. injection H as <- <-. split; [exact R2|rewrite El; discriminate].
  - unfold read_config in H. rewrite E in H. discriminate.
  - assert (f0 = f) as -> by (apply (read_writes_nothing N f conf f0); [rewrite E; discriminate|exact H]). split; [exact H|rewrite E; discriminate].
Qed.
Lemma glob_put file nm ls f : ~ stands_for file nm -> glob file (append nm ls (create nm f)) = glob file f.
Proof.
  intros H. assert (P : (prefix file nm && ends_with ".dat" (substring (String.length file) (String.length nm - String.length file) nm))%bool = false).
  { destruct (_ && _)%bool eqn:E; [|reflexivity]. exfalso. apply H.
    assert (G : In (nm, []) (glob file (mkFs (T := T) Missing [(nm, [])]))) by (unfold glob; cbn [f_dat filter fst]; rewrite E; left; reflexivity).
    apply glob_in in G. apply G. }
  assert (Q : forall l : list (line T), forall d, filter (fun p => (prefix file (fst p) && ends_with ".dat" (substring (String.length file) (String.length (fst p) - String.length file) (fst p)))%bool) (put nm l d)
     = filter (fun p => (prefix file (fst p) && ends_with ".dat" (substring (String.length file) (String.length (fst p) - String.length file) (fst p)))%bool) d).
  { intros l d. unfold put. cbn [filter fst]. rewrite P. induction d as [|[m b] d IH]; [reflexivity|]. cbn [filter fst].
    destruct (String.eqb_spec nm m) as [<-|D]; cbn [negb filter fst].
    - rewrite P. exact IH.
    - rewrite IH. reflexivity. }
  unfold glob, append, create. cbn [f_dat]. rewrite Q. apply Q.
Qed.
Lemma average_again fuel w a f st fuel' w' a' st' conf f0 : selected a = [Mavg] -> selected a' = [Mavg] -> read_config N f = Ok (conf, f0) ->
  ~ stands_for (c_file conf) "avg.dat" -> main N fuel w a f = Ok st -> main N fuel' w' a' (s_fs N st) = Ok st' ->
  contents (s_fs N st') "avg.dat" = contents (s_fs N st) "avg.dat".
Proof.
  intros S S' Rd H E E'. rewrite (opt_avg N fuel w a f S) in E. rewrite (opt_avg N fuel' w' a' _ S') in E'.
  apply late_inv in E, E'. destruct E as (c & q & b & Rd2 & _ & M & _). rewrite Rd in Rd2. injection Rd2 as <- <-.
  destruct E' as (c' & q' & b' & Rd2 & _ & M' & _).
  unfold run_average in M, M'. apply bind_ok in M, M'. destruct M as (ls & A & M), M' as (ls' & A' & M'). apply Ok_inj in M, M'.
  assert (Es : s_fs N st = append "avg.dat" ls (create "avg.dat" f0)) by congruence.
  assert (Es' : s_fs N st' = append "avg.dat" ls' (create "avg.dat" q')) by congruence. clear M M'.
  destruct (read_again _ _ _ Rd) as [Ra Mi].
  assert (Rb : read_config N (s_fs N st) = Ok (conf, s_fs N st)) by (apply (read_conf_only N f0 (s_fs N st) conf f0); [rewrite Es; reflexivity|exact Mi|exact Ra]).
  rewrite Rb in Rd2. injection Rd2 as <- <-.
  assert (Ef : forall a b, c_file (set_beta (with_tau N a conf) b) = c_file conf) by (intros a0 b0; unfold with_tau; destruct (a_tau a0); reflexivity).
  rewrite Ef in A, A'. rewrite Es in A'. rewrite glob_put in A' by exact H.
  assert (ls' = ls) as ->.
  { revert A A'. unfold average. destruct (_ <? _)%Z; [discriminate|]. destruct (_ <? _)%Z; [discriminate|]. congruence. }
  rewrite Es', Es, !contents_append, !contents_create, String.eqb_refl. reflexivity.
Qed.
End R.
