(** Averages over the logs of several invocations: the sessions. *)
From Coq Require Import String Reals ZArith List Arith Lia Lra Permutation Bool.
From Flocq Require Import Core.
From Verif Require Import Num Monad NumR Spin Config Chain Langevin Fit Files Toml Writers Average Runs Main
  SpecChain SpecTotal SpecToml SpecWriters SpecAverage SpecRuns SpecMain SpecOptions SpecSession
  ProofsChain ProofsWriters ProofsAverage ProofsDir ProofsNames ProofsToml ProofsNew ProofsFrame ProofsHistory ProofsLoop ProofsSim ProofsStrobe ProofsLangRun ProofsOptions ProofsSession ProofsSession2 ProofsSession3.
Import ListNotations.
Local Close Scope R_scope.
Local Open Scope nat_scope.

Lemma seq_map_shift {A} s n : forall (F : nat -> A), map F (seq s n) = map (fun k => F (s + k)) (seq 0 n).
Proof.
  revert s. induction n as [|n IH]; intros s F; [reflexivity|]. cbn [seq map]. rewrite Nat.add_0_r. f_equal.
  rewrite (IH (S s)), (IH 1). apply map_ext. intros k. f_equal. lia.
Qed.

Section C.
Context (r dt : R) (w n0 s0 : nat) (hd : (nat -> list ER) -> line ER) (P : args (num ERNum) -> Prop) (Inv : config (num ERNum) -> Prop).
Let file rows : list (line ER) := with_first (hd rows) (fun k => rows (s0 + k)) n0.
Hypothesis (Adds : adds_logs ERNum P Inv (fun ls => exists rows, steps_table r dt w rows /\ ls = file rows)).
Context (K : nat) (f g f0 : fs (num ERNum)) (conf : config (num ERNum)).
Hypothesis (Ss : session ERNum P K f g) (HK : 1 <= K) (Ti : tidy f) (Rd : read_config ERNum f = Ok (conf, f0)) (I0 : Inv conf) (Rn : (1 <= runs conf)%Z)
  (No : forall nm, stands_for (c_file conf) nm -> contents f nm = None).
Let n := K * Z.to_nat (runs conf).

Lemma core : exists rows conf', (forall i, i < n -> steps_table r dt w (rows i)) /\
  (forall i, i < n -> contents g (log_name (c_file conf) (Z.to_nat (offset conf) + i)) = Some (file (rows i))) /\
  read_config ERNum g = Ok (conf', g) /\ c_file conf' = c_file conf /\
  Permutation (map snd (glob (c_file conf) g)) (map (fun i => file (rows i)) (seq 0 n)).
Proof.
  assert (O0 : (0 <= offset conf)%Z) by (destruct (read_in_range ERNum _ _ _ Rd) as [Q _]; unfold in_range in Q; lia).
  destruct (session_logs ERNum P Inv _ Adds K f g Ss conf f0 Rd I0 ltac:(lia) O0 Ti) as (conf' & g0 & Rd' & _ & G0 & _ & F' & Tg & Ls & U).
  rewrite (G0 HK) in Rd'. fold n in Ls, U.
  destruct (finite_choice (fun i rows => steps_table r dt w rows /\ contents g (log_name (c_file conf) (Z.to_nat (offset conf) + i)) = Some (file rows)) n (fun _ => [])) as [rows Hr].
  { intros i Hi. destruct (Ls i Hi) as (ls & C & rows & T & ->). eauto. }
  exists rows, conf'. split; [intros i Hi; apply Hr; exact Hi|]. split; [intros i Hi; apply Hr; exact Hi|]. split; [exact Rd'|]. split; [exact F'|].
  apply (glob_logs (c_file conf) g (Z.to_nat (offset conf)) n (fun i => file (rows i)) Tg).
  - intros i Hi. apply Hr. exact Hi.
  - intros nm Hnm Hn. rewrite U by exact Hn. apply No. exact Hnm.
Qed.
Lemma n_pos : 1 <= n.
Proof. unfold n. nia. Qed.
Lemma table_length rows : steps_table r dt w rows -> forall k, length (rows k) = S w.
Proof. intros H k. destruct (H k) as (l & L & ->). cbn. f_equal. exact L. Qed.
Lemma mean_time (rows : nat -> nat -> list ER) k : (forall i, i < n -> steps_table r dt w (rows i)) ->
  exists l, length l = w /\ mean_line (S w) (map (fun i => rows i k) (seq 0 n)) = Some (- r + INR k * dt)%R :: l.
Proof.
  intros T. unfold mean_line. cbn [seq map]. eexists. split; [rewrite map_length, seq_length; reflexivity|]. f_equal.
  apply emean_const.
  - pose proof n_pos. destruct n; [lia|discriminate].
  - rewrite map_map. apply Forall_forall. intros x Hx. apply in_map_iff in Hx. destruct Hx as (i & <- & Hi). apply in_seq in Hi. destruct (T i ltac:(lia) k) as (l & _ & ->). reflexivity.
Qed.

Lemma average_completes fuel wd a b : (forall conf', Inv conf' -> fits ERNum (set_beta (with_tau ERNum a conf') b)) -> selected a = [Mavg] -> a_beta a = Some b ->
  exists st, main ERNum fuel wd a g = Ok st.
Proof.
  intros Fi Sl Eb. assert (O0 : (0 <= offset conf)%Z) by (destruct (read_in_range ERNum _ _ _ Rd) as [Q _]; unfold in_range in Q; lia).
  destruct (session_logs ERNum P Inv _ Adds K f g Ss conf f0 Rd I0 ltac:(lia) O0 Ti) as (conf' & g0 & Rd' & _ & G0 & I' & F' & _).
  rewrite (G0 HK) in Rd'. rewrite (opt_avg ERNum fuel wd a g Sl). eexists. apply (late_ok ERNum _ _ (fun c => c) fuel a g conf' g b); [exact Rd'|unfold settled; rewrite Eb; reflexivity|].
  unfold run_average. eapply bind_eq; [apply average_total, Fi, I'|]. reflexivity.
Qed.
Theorem session_average fuel wd a st : selected a = [Mavg] -> main ERNum fuel wd a g = Ok st ->
  exists rows : nat -> nat -> list ER, (forall i, i < n -> steps_table r dt w (rows i)) /\
    (forall i, i < n -> contents g (log_name (c_file conf) (Z.to_nat (offset conf) + i)) = Some (file (rows i))) /\
    contents (s_fs ERNum st) "avg.dat" = Some (map (fun k => numbers (mean_line (S w) (map (fun i => rows i k) (seq 0 n)))) (seq s0 n0)) /\
    (forall k, exists l, length l = w /\ mean_line (S w) (map (fun i => rows i k) (seq 0 n)) = Some (- r + INR k * dt)%R :: l) /\
    (forall nm, nm <> "avg.dat"%string -> contents (s_fs ERNum st) nm = contents g nm) /\ f_conf (s_fs ERNum st) = f_conf g.
Proof.
  intros Sl E. destruct core as (rows & conf' & T & C & Rd' & F' & Pm). exists rows. split; [exact T|]. split; [exact C|].
  rewrite (opt_avg ERNum fuel wd a g Sl) in E. apply late_inv in E. destruct E as (c & q & b & Rd2 & _ & M & _). rewrite Rd' in Rd2. injection Rd2 as <- <-.
  unfold run_average in M. apply bind_ok in M. destruct M as (ls & A & M). apply Ok_inj in M.
  assert (Ef : c_file (set_beta (with_tau ERNum a conf') b) = c_file conf) by (rewrite <- F'; unfold with_tau; destruct (a_tau a); reflexivity).
  assert (A2 : average ERNum (set_beta (with_tau ERNum a conf') b) (map (fun p => with_first (fst p) (snd p) n0) (map (fun i => (hd (rows i), fun k => rows i (s0 + k))) (seq 0 n))) = Ok ls).
  { etransitivity; [|exact A]. symmetry. apply average_order. rewrite map_map. rewrite Ef. exact Pm. }
  apply (average_rows (S w)) in A2.
  2:{ pose proof n_pos. destruct n; [lia|discriminate]. }
  2:{ intros p k Hp _. apply in_map_iff in Hp. destruct Hp as (i & <- & Hi). apply in_seq in Hi. cbn [snd]. apply (table_length (rows i)), T. lia. }
  assert (Es : s_fs ERNum st = append "avg.dat" ls (create "avg.dat" g)) by congruence.
  split; [|split; [intros k; apply mean_time; exact T|split]].
  - etransitivity; [apply (f_equal (fun h => contents h "avg.dat") Es)|]. rewrite contents_append, contents_create, String.eqb_refl. cbn [app]. f_equal.
    rewrite A2. etransitivity; [|symmetry; apply (seq_map_shift s0 n0)]. apply map_ext. intros k. rewrite map_map. reflexivity.
  - intros nm Hnm. apply String.eqb_neq in Hnm. rewrite Es, contents_append, Hnm, contents_create, Hnm. reflexivity.
  - rewrite Es. reflexivity.
Qed.

Lemma two_lines k0 : r = (INR k0 * dt)%R -> (1 / 100000 <= dt)%R -> s0 <= k0 < s0 + n0 ->
  exists (rows : nat -> nat -> list ER) conf', (forall i, i < n -> steps_table r dt w (rows i)) /\
    (forall i, i < n -> contents g (log_name (c_file conf) (Z.to_nat (offset conf) + i)) = Some (file (rows i))) /\
    read_config ERNum g = Ok (conf', g) /\ c_file conf' = c_file conf /\
    two_point_average ERNum (map snd (glob (c_file conf) g)) = Ok (map (fun k => numbers (mean_line (S w) (map (fun i => against (rows i k0) (rows i k)) (seq 0 n)))) (seq s0 n0)).
Proof.
  intros Er Hdt Hk0. destruct core as (rows & conf' & T & C & Rd' & F' & Pm). exists rows, conf'. split; [exact T|]. split; [exact C|]. split; [exact Rd'|]. split; [exact F'|].
  apply Permutation_map_inv in Pm. destruct Pm as (l & El & Pm).
  assert (Il : forall i, In i l -> i < n) by (intros i Hi; apply (Permutation_in _ (Permutation_sym Pm)) in Hi; apply in_seq in Hi; lia).
  set (fs := map (fun i => (i, (hd (rows i), fun k => rows i (s0 + k)))) l).
  assert (A2 : two_point_average ERNum (map (fun p => with_first (fst p) (snd p) n0) (map snd fs))
    = Ok (map (fun k => numbers (mean_line (S w) (map (fun i => against (rows i k0) (rows i (s0 + k))) l))) (seq 0 n0))).
  { assert (TZ : forall i, i < n -> t_zero ERNum (map (fun k => rows i (s0 + k)) (seq 0 n0)) = Ok (rows i k0)).
    { intros i Hi. pose proof (T i Hi) as Ti'. rewrite Er in Ti'. etransitivity.
      - apply (f_equal (t_zero ERNum)). symmetry. apply (seq_map_shift s0 n0).
      - unfold t_zero. etransitivity; [apply (zero_fold dt k0 w (rows i) Hdt Ti')|]. f_equal. apply zero_some. apply in_seq. lia. }
    assert (Z : forall p, In p (map snd fs) -> exists z, length z = S w /\ t_zero ERNum (map (snd p) (seq 0 n0)) = Ok z).
    { intros p Hp. unfold fs in Hp. rewrite map_map in Hp. apply in_map_iff in Hp. destruct Hp as (i & <- & Hi). cbn [snd]. exists (rows i k0).
      split; [apply (table_length (rows i)), T, Il, Hi|apply TZ, Il, Hi]. }
    set (zz := fun p : line ER * (nat -> list ER) => match t_zero ERNum (map (snd p) (seq 0 n0)) with Ok z => z | _ => [] end).
    etransitivity; [apply (two_rows w n0 (map snd fs) zz)|].
    - unfold fs. pose proof n_pos. apply Permutation_length in Pm. rewrite seq_length in Pm. destruct l; [cbn in Pm; lia|discriminate].
    - intros p k Hp _. unfold fs in Hp. rewrite map_map in Hp. apply in_map_iff in Hp. destruct Hp as (i & <- & Hi). cbn [snd]. apply (table_length (rows i)), T, Il, Hi.
    - intros p Hp. destruct (Z p Hp) as (z & Lz & Ez). unfold zz. rewrite Ez. auto.
    - f_equal. apply map_ext. intros k. f_equal. f_equal. unfold fs. rewrite map_map. rewrite map_map. apply map_ext_in. intros i Hi. cbn [snd]. f_equal. unfold zz. cbn [snd].
      exact (f_equal (fun x : res (list ER) => match x with Ok z => z | _ => [] end) (TZ i (Il i Hi))). }
  assert (Efs : map snd (glob (c_file conf) g) = map (fun p => with_first (fst p) (snd p) n0) (map snd fs)).
  { etransitivity; [exact El|]. unfold fs. rewrite !map_map. reflexivity. }
  etransitivity; [apply (f_equal (two_point_average ERNum)); exact Efs|]. etransitivity; [exact A2|]. f_equal.
  etransitivity; [|symmetry; apply (seq_map_shift s0 n0)]. apply map_ext. intros k. f_equal. apply mean_perm. apply Permutation_map. apply Permutation_sym. exact Pm.
Qed.
Lemma file_same a conf' b : c_file conf' = c_file conf -> c_file (set_beta (with_tau ERNum a conf') b) = c_file conf.
Proof. intros <-. unfold with_tau. destruct (a_tau a); reflexivity. Qed.
Lemma two_completes k0 fuel wd a b : r = (INR k0 * dt)%R -> (1 / 100000 <= dt)%R -> s0 <= k0 < s0 + n0 -> selected a = [Mtwopoint] -> a_beta a = Some b ->
  exists st, main ERNum fuel wd a g = Ok st.
Proof.
  intros Er Hdt Hk0 Sl Eb. destruct (two_lines k0 Er Hdt Hk0) as (rows & conf' & _ & _ & Rd' & F' & A).
  rewrite (opt_two ERNum fuel wd a g Sl). eexists. apply (late_ok ERNum _ _ (fun c => c) fuel a g conf' g b); [exact Rd'|unfold settled; rewrite Eb; reflexivity|].
  unfold run_two_point. rewrite (file_same a conf' b F'). eapply bind_eq; [exact A|]. reflexivity.
Qed.
Theorem session_two k0 fuel wd a st : r = (INR k0 * dt)%R -> (1 / 100000 <= dt)%R -> s0 <= k0 < s0 + n0 -> selected a = [Mtwopoint] -> main ERNum fuel wd a g = Ok st ->
  exists rows : nat -> nat -> list ER, (forall i, i < n -> steps_table r dt w (rows i)) /\
    (forall i, i < n -> contents g (log_name (c_file conf) (Z.to_nat (offset conf) + i)) = Some (file (rows i))) /\
    contents (s_fs ERNum st) "two-point.dat" = Some (map (fun k => numbers (mean_line (S w) (map (fun i => against (rows i k0) (rows i k)) (seq 0 n)))) (seq s0 n0)) /\
    (forall k, exists l, length l = w /\ mean_line (S w) (map (fun i => against (rows i k0) (rows i k)) (seq 0 n)) = Some (- r + INR k * dt)%R :: l) /\
    (forall nm, nm <> "two-point.dat"%string -> contents (s_fs ERNum st) nm = contents g nm) /\ f_conf (s_fs ERNum st) = f_conf g.
Proof.
  intros Er Hdt Hk0 Sl E. destruct (two_lines k0 Er Hdt Hk0) as (rows & conf' & T & C & Rd' & F' & A0). exists rows. split; [exact T|]. split; [exact C|].
  rewrite (opt_two ERNum fuel wd a g Sl) in E. apply late_inv in E. destruct E as (c & q & b & Rd2 & _ & M & _). rewrite Rd' in Rd2. injection Rd2 as <- <-.
  unfold run_two_point in M. apply bind_ok in M. destruct M as (ls & A & M). apply Ok_inj in M.
  rewrite (file_same a conf' b F') in A. assert (A3 := eq_trans (eq_sym A) A0). apply Ok_inj in A3.
  assert (Es : s_fs ERNum st = append "two-point.dat" ls (create "two-point.dat" g)) by congruence.
  split; [|split; [|split]].
  - etransitivity; [apply (f_equal (fun h => contents h "two-point.dat") Es)|]. rewrite contents_append, contents_create, String.eqb_refl. cbn [app]. f_equal. exact A3.
  - intros k. apply (mean_time (fun i k => against (rows i k0) (rows i k)) k). intros i Hi k'. destruct (T i Hi k') as (q & Lq & ->). unfold against. eexists. split; [|reflexivity].
    rewrite map_length, seq_length. cbn [length]. rewrite Nat.sub_succ, Nat.sub_0_r. exact Lq.
  - intros nm Hnm. apply String.eqb_neq in Hnm. rewrite Es, contents_append, Hnm, contents_create, Hnm. reflexivity.
  - rewrite Es. reflexivity.
Qed.
(** no line at time 0 *)
Theorem session_two_panics k0 fuel wd a b : r = (INR k0 * dt)%R -> (1 / 100000 <= dt)%R -> ~ (s0 <= k0 < s0 + n0) -> 1 <= n0 -> 1 <= w ->
  selected a = [Mtwopoint] -> a_beta a = Some b -> main ERNum fuel wd a g = Panic IndexOOB.
Proof.
  intros Er Hdt Hk0 Hn0 Hw Sl Eb. destruct core as (rows & conf' & T & C & Rd' & F' & Pm).
  rewrite (opt_two ERNum fuel wd a g Sl). unfold late_mode. rewrite Rd'. cbn [bind]. unfold settle_beta. rewrite Eb. cbn [bind s_conf s_fs s_default s_trace].
  unfold do_run. cbn [s_conf s_fs]. unfold run_two_point.
  assert (Ef : c_file (set_beta (with_tau ERNum a conf') b) = c_file conf) by (rewrite <- F'; unfold with_tau; destruct (a_tau a); reflexivity).
  rewrite Ef. apply Permutation_map_inv in Pm. destruct Pm as (l & El & Pm).
  assert (Il : forall i, In i l -> i < n) by (intros i Hi; apply (Permutation_in _ (Permutation_sym Pm)) in Hi; apply in_seq in Hi; lia).
  assert (X : two_point_average ERNum (map snd (glob (c_file conf) g)) = Panic IndexOOB).
  { etransitivity; [apply (f_equal (two_point_average ERNum)); exact El|]. pose proof n_pos as Np. pose proof (Permutation_length Pm) as Lp. rewrite seq_length in Lp.
    destruct l as [|i l]; [cbn in Lp; lia|]. unfold two_point_average. cbn [map foldM].
    assert (Y : two_point_file ERNum (file (rows i)) ([], []) = Panic IndexOOB).
    { pose proof (T i (Il i (or_introl eq_refl))) as Ti'. assert (Ti2 := Ti'). rewrite Er in Ti'. unfold two_point_file. cbv zeta.
      assert (R : map (parse_line ERNum) (skipn 1 (file (rows i))) = map (rows i) (seq s0 n0)).
      { etransitivity; [apply rows_with_first|]. symmetry. apply (seq_map_shift s0 n0). }
      etransitivity; [exact (f_equal (fun ls => let* z0 := t_zero ERNum ls in let* vs := mapM (times_zero ERNum z0) ls in add_lines ERNum 0 vs ([], [])) R)|].
      assert (TZ : t_zero ERNum (map (rows i) (seq s0 n0)) = Ok []).
      { unfold t_zero. etransitivity; [apply (zero_fold dt k0 w (rows i) Hdt Ti')|]. apply (f_equal (@Ok (list ER))). apply zero_none. intros Hin. apply in_seq in Hin. lia. }
      eapply bind_eq; [exact TZ|].
      assert (V : mapM (times_zero ERNum []) (map (rows i) (seq s0 n0)) = Panic IndexOOB).
      { destruct n0 as [|n1]; [lia|]. cbn [seq map mapM]. destruct (Ti2 s0) as (q & Lq & Eq). destruct q as [|x q]; [cbn in Lq; lia|].
        assert (Z : times_zero ERNum [] (rows i s0) = Panic IndexOOB) by (rewrite Eq; reflexivity).
        exact (f_equal (fun x => bind x _) Z). }
      exact (f_equal (fun x => bind x _) V). }
    exact (f_equal (fun x => bind (bind x _) _) Y). }
  exact (f_equal (fun x => bind (bind x _) _) X).
Qed.
End C.

(** ** Default runs *)
Section Default.
Context (K : nat) (f g f0 : fs (num ERNum)) (conf : config (num ERNum)) (r dt tmax : R).
Hypothesis (Ss : session ERNum (fun a => selected a = []) K f g) (HK : 1 <= K) (Ti : tidy f) (Rd : read_config ERNum f = Ok (conf, f0)) (Tm : timed r dt tmax conf) (Rn : (1 <= runs conf)%Z)
  (No : forall nm, stands_for (c_file conf) nm -> contents f nm = None) (Hd : (0 < dt)%R).
Lemma adds_default' : adds_logs ERNum (fun a => selected a = []) (timed r dt tmax)
  (fun ls => exists rows, steps_table r dt 12 rows /\ ls = with_first (numbers (rows 0)) (fun k => rows (1 + k)) (Z.to_nat (Zceil ((tmax + r) / dt)))).
Proof.
  intros fuel w a q st c q0 H1 H2 H3 H4. destruct (adds_default r dt tmax Hd fuel w a q st c q0 H1 H2 H3 H4) as (c' & A & B & C & D & E & F & G & U).
  exists c'. repeat (split; [assumption|]). split; [|exact U]. intros i Hi. destruct (G i Hi) as (ls & X & rows & T & ->). eexists. split; [exact X|]. exists rows. split; [exact T|].
  unfold with_first. cbn [seq map]. f_equal. apply (seq_map_shift 1).
Qed.
End Default.
