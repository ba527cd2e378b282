(** Two-point averages over logs with no line at time 0. *)
From Coq Require Import String ZArith Reals List Lia Lra Bool Arith Permutation.
From Coq Require Import Floats.SpecFloat.
From Flocq Require Import Core.
From Verif Require Import Num Monad NumR NumF64 Config Chain Fit Files Writers Average Runs Main SpecVec SpecChain SpecTotal SpecToml SpecRuns SpecRound SpecClose SpecSession SpecClock
  ProofsFlocq ProofsRound ProofsChain ProofsDir ProofsNames ProofsFrame ProofsSession ProofsSession2 ProofsSession3 ProofsSim ProofsPool2 ProofsWarm ProofsLangRun ProofsClock.
Import ListNotations.
Local Open Scope nat_scope.

Section G.
Context (N : NumOps).
Notation T := (num N).
Lemma log_width (c : chain T) l : chain_log N c = Ok l -> Forall (fun r => length r = 13) l.
Proof.
  unfold chain_log. cbv zeta. intros H. do 7 (apply bind_ok in H; destruct H as (? & _ & H)). injection H as <-. destruct (has_file c); repeat constructor.
Qed.
Lemma loop_all {A} (time : A -> T) tmax (P : list T -> Prop) (body : nat -> A -> res (A * list (list T))) :
  (forall k a a' l, body k a = Ok (a', l) -> Forall P l) -> forall fuel k a a' l, time_loop N time tmax body fuel k a = Ok (a', l) -> Forall P l.
Proof.
  intros HB. induction fuel as [|fuel IH]; intros k a a' l E; cbn [time_loop] in E.
  - destruct (nltb N (time a) tmax); [discriminate|]. injection E as _ <-. constructor.
  - destruct (nltb N (time a) tmax); [|injection E as _ <-; constructor].
    apply bind_ok in E. destruct E as ([a1 l1] & E1 & E). apply bind_ok in E. destruct E as ([a2 l2] & E2 & E). injection E as _ <-.
    apply Forall_app. split; [exact (HB _ _ _ _ E1)|exact (IH _ _ _ _ E2)].
Qed.
Lemma sim_width fuel d c out : sim_worker N (chain_log N) fuel d c = Ok out -> Forall (fun r => length r = 13) out.
Proof.
  intros E. unfold sim_worker in E. apply bind_ok in E. destruct E as (c0 & _ & E). unfold sim_run in E. cbv zeta in E. apply bind_ok in E. destruct E as (first & EF & E).
  apply bind_ok in E. destruct E as ([c' l] & EL & E). injection E as <-. apply Forall_app. split; [exact (log_width _ _ EF)|]. revert EL. apply loop_all.
  intros k a a' l' Eb. unfold sim_body in Eb. apply bind_ok in Eb. destruct Eb as (a1 & U & Eb). apply bind_ok in Eb. destruct Eb as (b & D & Eb). apply bind_ok in Eb. destruct Eb as (l1 & L1 & Eb).
  injection Eb as _ <-. destruct b; [exact (log_width _ _ L1)|injection L1 as <-; constructor].
Qed.
Lemma default_rows fuel rg (conf : config T) f conf' f' : run_sim N fuel rg conf f = Ok (conf', f') -> c_log conf = true -> in_range conf -> (0 <= runs conf)%Z ->
  forall i, i < Z.to_nat (runs conf) -> exists rows, contents f' (log_name (c_file conf) (Z.to_nat (offset conf) + i)) = Some (map numbers rows) /\ Forall (fun r => length r = 13) rows /\
    exists ts, timetable N (nopp N (trel conf)) (c_dt conf) (c_t conf) (kept_plain N conf) ts /\ first_column N rows (nopp N (trel conf) :: ts).
Proof.
  intros E CL IR R0 i Hi. apply run_frame_wrote in E. destruct E as ((lss & F2 & W) & _). rewrite CL in W. destruct W as [W1 _].
  assert (NR : num_runs N conf = Z.to_nat (runs conf)) by exact (proj1 (num_runs_small N conf IR R0)).
  assert (LL := F2_length _ _ _ F2). rewrite seq_length in LL.
  destruct (nth_error lss i) as [ls|] eqn:EN; [|apply nth_error_None in EN; lia].
  destruct (F2_nth _ _ _ F2 i ls EN) as (c & out & EC & EW & ->). exists out. split; [apply W1; exact (logs_in _ _ _ _ _ EN)|]. split; [exact (sim_width _ _ _ _ EW)|].
  exact (sim_times _ _ _ _ _ _ _ EC CL EW).
Qed.

(** no line of the file is at time 0 *)
Lemma zero_free (rows : list (list T)) ts : first_column N rows ts -> Forall (fun x => nltb N (nabs N x) (nlit N 1 5) = false) ts -> t_zero N rows = Ok [].
Proof.
  unfold t_zero, first_column. intros H HT. generalize (@nil T) as z. revert ts H HT. induction rows as [|r rows IH]; intros ts H HT z; [reflexivity|].
  destruct ts as [|x ts]; [discriminate|]. cbn [map] in H. injection H as H1 H2. destruct r as [|y r]; [discriminate|]. cbn [hd_error] in H1. injection H1 as ->.
  inversion HT as [|? ? A B]; subst. cbn [foldM idx nth_error bind]. rewrite A. exact (IH ts H2 B z).
Qed.
Lemma file_panics (r : list T) rows ts s : first_column N rows ts -> ts <> [] -> Forall (fun r => 2 <= length r) rows ->
  Forall (fun x => nltb N (nabs N x) (nlit N 1 5) = false) ts -> two_point_file N (map numbers (r :: rows)) s = Panic IndexOOB.
Proof.
  intros H NE W HT. unfold two_point_file. cbv zeta. cbn [map skipn].
  assert (R : map (parse_line N) (map numbers rows) = rows) by (rewrite map_map, <- (map_id rows) at 1; rewrite map_id; rewrite <- (map_id rows) at 2; apply map_ext; intro; apply parse_numbers).
  rewrite R, (zero_free rows ts H HT). cbn [bind]. destruct rows as [|v rows]; [destruct ts; [congruence|discriminate H]|].
  inversion W as [|? ? A B]; subst. destruct v as [|x [|y v]]; cbn in A; [lia|lia|]. reflexivity.
Qed.

Lemma glob_after fuel rg (conf : config T) f conf' f1 (rows : nat -> list (list T)) : c_log conf = true -> in_range conf -> (0 <= runs conf)%Z -> tidy f ->
  (forall nm, stands_for (c_file conf) nm -> contents f nm = None) -> run_sim N fuel rg conf f = Ok (conf', f1) ->
  (forall j, j < Z.to_nat (runs conf) -> contents f1 (log_name (c_file conf) (Z.to_nat (offset conf) + j)) = Some (map numbers (rows j))) ->
  Permutation (map snd (glob (c_file conf) f1)) (map (fun j => map numbers (rows j)) (seq 0 (Z.to_nat (runs conf)))).
Proof.
  intros CL IR R0 Ti Z E HR. set (n := Z.to_nat (runs conf)) in *. set (o := Z.to_nat (offset conf)) in *.
  assert (T1 : tidy f1) by exact (frame_tidy N _ _ _ _ _ _ E Ti).
  assert (U : forall nm, (forall j, (j < n)%nat -> nm <> log_name (c_file conf) (o + j)) -> contents f1 nm = contents f nm).
  { intros nm Hnm. destruct (run_frame_wrote N _ _ _ _ _ _ E) as ((lss & F2 & W) & _). rewrite CL in W. destruct W as [_ W2]. apply W2. intros Hin.
    apply logs_names in Hin. destruct Hin as (j & Hj & ->). apply (Hnm j); [|reflexivity].
    assert (NR : num_runs N conf = n) by exact (proj1 (num_runs_small N conf IR R0)).
    assert (LL := F2_length _ _ _ F2). rewrite seq_length in LL. lia. }
  exact (glob_logs (c_file conf) f1 o n (fun j => map numbers (rows j)) T1 HR (fun nm S Hnm => eq_trans (U nm Hnm) (Z nm S))).
Qed.

Lemma origin_panics fuel rg (conf : config T) f conf' f1 conf2 : c_log conf = true -> in_range conf -> (1 <= runs conf)%Z -> tidy f ->
  (forall nm, stands_for (c_file conf) nm -> contents f nm = None) -> run_sim N fuel rg conf f = Ok (conf', f1) -> c_file conf2 = c_file conf ->
  (forall ts, timetable N (nopp N (trel conf)) (c_dt conf) (c_t conf) (kept_plain N conf) ts -> ts <> [] /\ Forall (fun x => nltb N (nabs N x) (nlit N 1 5) = false) ts) ->
  run_two_point N conf2 f1 = Panic IndexOOB.
Proof.
  intros CL IR R1 Ti Z E EF HT. assert (R0 : (0 <= runs conf)%Z) by lia.
  destruct (finite_choice _ (Z.to_nat (runs conf)) [] (default_rows fuel rg conf f conf' f1 E CL IR R0)) as [rows HR].
  assert (PM := glob_after fuel rg conf f conf' f1 rows CL IR R0 Ti Z E (fun j Hj => proj1 (HR j Hj))).
  destruct (Permutation_map_inv _ _ PM) as (l & El & Pl). unfold run_two_point. rewrite EF, El.
  assert (Ll := Permutation_length Pl). rewrite seq_length in Ll. destruct l as [|j l]; [cbn in Ll; lia|].
  assert (Hj : j < Z.to_nat (runs conf)) by (assert (X := Permutation_in j (Permutation_sym Pl) (or_introl eq_refl)); apply in_seq in X; lia).
  destruct (HR j Hj) as (_ & W & ts & TT & FC). destruct (HT ts TT) as [NE FT]. unfold two_point_average. cbn [map foldM].
  unfold first_column in FC. destruct (rows j) as [|r rs]; [discriminate|]. cbn [map] in FC. injection FC as _ FC.
  inversion W as [|? ? _ W']; subst.
  rewrite (file_panics r rs ts ([], []) FC NE); [reflexivity| |exact FT]. eapply Forall_impl; [|exact W']. cbn beta. intros v ->. lia.
Qed.
End G.

(** * binary64 *)
Local Open Scope R_scope.
Lemma lost_add x y : f_finite x = false -> f_finite (f_add x y) = false.
Proof. destruct x as [s|s| |s m e]; try discriminate; intros _; destruct y as [s'|s'| |s' m' e']; try reflexivity; destruct s, s'; reflexivity. Qed.
Lemma lost_far x : f_finite x = false -> SFltb (SFabs x) (f_lit 1 5) = false.
Proof. assert (Q : exists m e, f_lit 1 5 = S754_finite false m e) by (vm_compute; eauto). destruct Q as (m & e & ->). destruct x as [s|s| |s m' e']; try discriminate; reflexivity. Qed.
Definition beyond (dt x : f64) : Prop := f_finite x = false \/ (vfin x /\ fval dt <= fval x).
Lemma beyond_step dt a : vfin dt -> 0 < fval dt -> (beyond dt a \/ exists s, a = S754_zero s) -> beyond dt (f_add a dt).
Proof.
  intros Vd Pd H. destruct (f_finite (f_add a dt)) eqn:F; [right|left; exact F].
  assert (V : vfin a /\ 0 <= fval a).
  { destruct H as [[H|[V B]]|[s ->]]; [rewrite (lost_add a dt H) in F; discriminate|split; [exact V|lra]|]. split; [split; [reflexivity|reflexivity]|]. unfold fval. cbn. lra. }
  destruct V as [V B]. destruct (add_fin a dt V Vd F) as [V2 E]. split; [exact V2|]. rewrite E, <- (rnd_fval dt Vd) at 1. apply round_le; [apply FLT_exp_valid; reflexivity|apply valid_rnd_N|]. lra.
Qed.
Lemma beyond_clock L dt s k : vfin dt -> 0 < fval dt -> beyond dt (clock (F64 L) (S754_zero s : num (F64 L)) dt (S k)).
Proof.
  intros Vd Pd. induction k as [|k IH]; [apply (beyond_step dt (S754_zero s) Vd Pd); right; exists s; reflexivity|].
  exact (beyond_step dt _ Vd Pd (or_introl IH)).
Qed.
Lemma beyond_far dt x : vfin dt -> 0 < fval dt -> SFltb dt (f_lit 1 5) = false -> beyond dt x -> SFltb (SFabs x) (f_lit 1 5) = false.
Proof.
  intros Vd Pd Hd [F|[V B]]; [exact (lost_far x F)|].
  assert (VL : vfin (f_lit 1 5)) by (split; vm_compute; reflexivity). destruct (abs_val x V) as [VA EA].
  destruct (SFltb (SFabs x) (f_lit 1 5)) eqn:Q; [|reflexivity]. apply (ltb_val _ _ VA VL) in Q. rewrite EA, Rabs_pos_eq in Q by lra.
  assert (SFltb dt (f_lit 1 5) = true) by (apply (ltb_val _ _ Vd VL); lra). congruence.
Qed.
Lemma zero_panics L fuel rg (conf : config f64) f conf' f1 conf2 : c_log conf = true -> in_range conf -> (1 <= runs conf)%Z -> tidy f ->
  (forall nm, stands_for (c_file conf) nm -> contents f nm = None) -> run_sim (F64 L) fuel rg conf f = Ok (conf', f1) -> c_file conf2 = c_file conf ->
  (exists s, trel conf = S754_zero s) -> is_number (c_dt conf) -> 0 < value (c_dt conf) -> SFltb (c_dt conf) (f_lit 1 5) = false ->
  strob conf = false -> SFltb (S754_zero false) (c_t conf) = true ->
  run_two_point (F64 L) conf2 f1 = Panic IndexOOB.
Proof.
  intros CL IR R1 Ti Z E EF [s Hs] Vd Pd Hd St Ht. rewrite value_fval in Pd.
  refine (origin_panics (F64 L) fuel rg conf f conf' f1 conf2 CL IR R1 Ti Z E EF _).
  intros ts (m & M1 & M2 & ->).
  assert (E0 : nopp (F64 L) (trel (conf : config (num (F64 L)))) = S754_zero (negb s)) by exact (f_equal SFopp Hs).
  rewrite E0 in *. clear E0.
  assert (Fk : forall l, filter (kept_plain (F64 L) conf) l = l).
  { intro l. induction l as [|x l IH]; [reflexivity|]. cbn [filter]. unfold kept_plain at 1, on_beat at 1. assert (St' : @strob (num (F64 L)) conf = false) by exact St. rewrite St'. cbn [negb orb]. f_equal. exact IH. }
  rewrite Fk. split.
  - destruct m as [|m]; [|discriminate]. exfalso. cbn [clock] in M2. assert (Q : SFltb (S754_zero (negb s)) (c_t conf) = false) by exact M2.
    assert (SFltb (S754_zero (negb s)) (c_t conf) = SFltb (S754_zero false) (c_t conf)) by (destruct s, (c_t conf) as [?|?| |? ? ?]; reflexivity). congruence.
  - apply Forall_forall. intros x Hx. apply in_map_iff in Hx. destruct Hx as (k & <- & Hk). apply in_seq in Hk. destruct k as [|k]; [lia|].
    exact (beyond_far (c_dt conf) _ Vd Pd Hd (beyond_clock L (c_dt conf) (negb s) k Vd Pd)).
Qed.
