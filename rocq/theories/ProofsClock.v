(** The times in the logs. *)
From Coq Require Import String Bool List ZArith Arith Lia.
From Verif Require Import Num Monad Config Chain Langevin Fit Files Writers Runs SpecChain SpecTotal SpecRuns SpecToml SpecClock
  ProofsNames ProofsDir ProofsFrame ProofsSim ProofsWarm ProofsLangRun.
Import ListNotations.
Local Open Scope nat_scope.

Section C.
Context (N : NumOps).
Notation T := (num N).

Lemma clock_shift (a dt : T) k : clock N (nadd N a dt) dt k = clock N a dt (S k).
Proof. induction k as [|k IH]; [reflexivity|]. cbn [clock] in *. rewrite IH. reflexivity. Qed.
Lemma due_beat v steps (x : T) b : due N v steps x = Ok b -> b = on_beat N v steps x.
Proof.
  unfold due, on_beat. destruct (strob v); [|intros [= <-]; reflexivity]. destruct (steps =? 0)%Z; [discriminate|]. intros [= <-]. reflexivity.
Qed.

(** * Loops *)
Lemma loop_table {A} (time : A -> T) (dt tmax : T) (Inv : A -> Prop) (kept : T -> bool) (body : nat -> A -> res (A * list (list T))) :
  (forall k a a' l, Inv a -> body k a = Ok (a', l) -> Inv a' /\ time a' = nadd N (time a) dt /\ map (@hd_error T) l = if kept (time a') then [Some (time a')] else []) ->
  forall fuel k a a' l, Inv a -> time_loop N time tmax body fuel k a = Ok (a', l) ->
  exists ts, timetable N (time a) dt tmax kept ts /\ first_column N l ts.
Proof.
  intros HB. unfold first_column. induction fuel as [|fuel IH]; intros k a a' l I E; cbn [time_loop] in E.
  - destruct (nltb N (time a) tmax) eqn:B; [discriminate|]. injection E as <- <-. exists []. split; [|reflexivity]. exists 0. split; [intros j Hj; lia|]. split; [exact B|reflexivity].
  - destruct (nltb N (time a) tmax) eqn:B.
    2:{ injection E as <- <-. exists []. split; [|reflexivity]. exists 0. split; [intros j Hj; lia|]. split; [exact B|reflexivity]. }
    apply bind_ok in E. destruct E as ([a1 l1] & E1 & E). apply bind_ok in E. destruct E as ([a2 l2] & E2 & E). injection E as <- <-.
    destruct (HB _ _ _ _ I E1) as (I1 & T1 & L1). destruct (IH _ _ _ _ I1 E2) as (ts & (m & M1 & M2 & M3) & L2).
    exists (filter kept (map (clock N (time a) dt) (seq 1 (S m)))). rewrite T1 in *. split.
    + exists (S m). split; [|split; [rewrite <- clock_shift; exact M2|reflexivity]]. intros [|j] Hj; [exact B|]. rewrite <- clock_shift. apply M1. lia.
    + rewrite map_app, L1, L2, M3. cbn [seq map filter]. cbn [clock].
      replace (map (clock N (time a) dt) (seq 2 m)) with (map (clock N (nadd N (time a) dt) dt) (seq 1 m)).
      2:{ rewrite <- (seq_shift m 1), map_map. apply map_ext. intros j. apply clock_shift. }
      destruct (kept (nadd N (time a) dt)); reflexivity.
Qed.
Lemma table_same start dt tmax kept ts ts' : timetable N start dt tmax kept ts -> timetable N start dt tmax kept ts' -> ts = ts'.
Proof.
  intros (m & A1 & A2 & ->) (m' & B1 & B2 & ->). assert (m = m') as ->; [|reflexivity].
  destruct (Nat.lt_trichotomy m m') as [H|[H|H]]; [|exact H|]; exfalso.
  - rewrite (B1 m H) in A2. discriminate.
  - rewrite (A1 m' H) in B2. discriminate.
Qed.

(** * Chains *)
Definition same_clock (c : chain T) (a : chain T) : Prop := vars a = vars c /\ has_file a = has_file c.
Lemma update_clock sc c : update N sc = Ok c -> same_clock sc c /\ t c = nadd N (t sc) (c_dt (vars sc)).
Proof.
  unfold update. cbv zeta. intros H. apply bind_ok in H. destruct H as (h & _ & H). apply bind_ok in H. destruct H as (sp & _ & H). injection H as <-. repeat split.
Qed.
Lemma update_nf_clock sc c : update_no_field N sc = Ok c -> same_clock sc c /\ t c = nadd N (t sc) (c_dt (vars sc)).
Proof.
  unfold update_no_field. cbv zeta. intros H. apply bind_ok in H. destruct H as (h & _ & H). apply bind_ok in H. destruct H as (sp & _ & H). injection H as <-. repeat split.
Qed.
Lemma accept_clock (sc c : chain T) i v de u : accept N sc i v de u = Ok c -> same_clock sc c /\ t c = t sc.
Proof.
  unfold accept. intros H. match type of H with (if ?b then _ else _) = _ => destruct b end; [apply bind_ok in H; destruct H as (? & _ & H)|]; injection H as <-; repeat split.
Qed.
Lemma metro_clock d sc c : metropolis_update N d sc = Ok c -> same_clock sc c /\ t c = t sc.
Proof.
  unfold metropolis_update. cbv zeta. intros H. do 9 (apply bind_ok in H; destruct H as (? & _ & H)). exact (accept_clock _ _ _ _ _ _ H).
Qed.
Lemma iter_keeps {A} (P : A -> Prop) (f : nat -> A -> res A) : (forall k a b, f k a = Ok b -> P a -> P b) -> forall n k a b, iterMi f k n a = Ok b -> P a -> P b.
Proof.
  intros H. induction n as [|n IH]; intros k a b E Pa; cbn [iterMi] in E; [injection E as <-; exact Pa|]. apply bind_ok in E. destruct E as (a1 & E1 & E2). eauto.
Qed.
Lemma therm_clock d n c c' : thermalise N d n c = Ok c' -> same_clock c c' /\ t c' = t c.
Proof.
  intros E. unfold thermalise in E. revert E. generalize (Z.to_nat n). intros k E.
  refine (iter_keeps (fun a => same_clock c a /\ t a = t c) _ _ k 0 c c' E _); [|split; [split; reflexivity|reflexivity]].
  intros j a b Eb [[V F] Tt]. destruct (metro_clock _ _ _ Eb) as [[V1 F1] T1]. split; [split; congruence|congruence].
Qed.
Lemma new_clock conf d c : chain_new N conf d = Ok c -> vars c = conf /\ has_file c = c_log conf /\ t c = nopp N (trel conf).
Proof.
  unfold chain_new. cbv zeta. intros H. repeat (apply bind_ok in H; destruct H as (? & _ & H)). injection H as <-. repeat split.
Qed.
Lemma log_time (c : chain T) l : chain_log N c = Ok l -> map (@hd_error T) l = if has_file c then [Some (t c)] else [].
Proof.
  unfold chain_log. cbv zeta. intros H. do 7 (apply bind_ok in H; destruct H as (? & _ & H)). injection H as <-. destruct (has_file c); reflexivity.
Qed.

Lemma sim_times fuel d conf dn c out : chain_new N conf dn = Ok c -> c_log conf = true -> sim_worker N (chain_log N) fuel d c = Ok out ->
  exists ts, timetable N (nopp N (trel conf)) (c_dt conf) (c_t conf) (kept_plain N conf) ts /\ first_column N out (nopp N (trel conf) :: ts).
Proof.
  intros EN CL E. destruct (new_clock _ _ _ EN) as (V0 & F0 & T0). unfold sim_worker in E. apply bind_ok in E. destruct E as (c0 & E0 & E).
  destruct (therm_clock _ _ _ _ E0) as [[V1 F1] T1]. unfold sim_run in E. cbv zeta in E. apply bind_ok in E. destruct E as (first & EF & E). apply bind_ok in E. destruct E as ([c' l] & EL & E). injection E as <-.
  assert (V : vars c0 = conf) by congruence. rewrite V in EL. assert (Tt : t c0 = nopp N (trel conf)) by congruence. assert (F : has_file c0 = true) by congruence.
  apply (loop_table (@t T) (c_dt conf) (c_t conf) (fun a => vars a = conf /\ has_file a = true) (kept_plain N conf)) in EL.
  - destruct EL as (ts & Q & C). rewrite Tt in Q. exists ts. split; [exact Q|]. unfold first_column in *. rewrite map_app, C, (log_time _ _ EF), F, Tt. reflexivity.
  - intros k a a' l' [Va Fa] Eb. unfold sim_body in Eb. apply bind_ok in Eb. destruct Eb as (a1 & U & Eb). apply bind_ok in Eb. destruct Eb as (b & D & Eb). apply bind_ok in Eb. destruct Eb as (l1 & L1 & Eb).
    injection Eb as <- <-. destruct (update_clock _ _ U) as [[V2 F2] T2]. assert (V3 : vars a1 = conf) by congruence. rewrite V3 in D. apply due_beat in D. fold (kept_plain N conf (t a1)) in D.
    rewrite Va in T2. split; [split; [exact V3|congruence]|]. split; [exact T2|]. rewrite <- D. destruct b; [|injection L1 as <-; reflexivity]. rewrite (log_time _ _ L1). rewrite F2, Fa. reflexivity.
  - split; assumption.
Qed.

Lemma response_times fuel d conf dn c out : chain_new N conf dn = Ok c -> c_log conf = true -> response_worker N fuel d c = Ok out ->
  exists ts, timetable N (nopp N (c_t conf)) (c_dt conf) (c_t conf) (kept_response N conf) ts /\ first_column N out (nopp N (trel conf) :: ts).
Proof.
  intros EN CL E. destruct (new_clock _ _ _ EN) as (V0 & F0 & T0). unfold response_worker in E. apply bind_ok in E. destruct E as (c0 & E0 & E).
  destruct (therm_clock _ _ _ _ E0) as [[V1 F1] T1]. cbv zeta in E. apply bind_ok in E. destruct E as (first & EF & E). apply bind_ok in E. destruct E as ([c' l] & EL & E). injection E as <-.
  assert (V : vars c0 = conf) by congruence. assert (Tt : t c0 = nopp N (trel conf)) by congruence. assert (F : has_file c0 = true) by congruence.
  change (vars (set_t c0 (nopp N (c_t (vars c0))))) with (vars c0) in EL. rewrite V in EL.
  apply (loop_table (@t T) (c_dt conf) (c_t conf) (fun a => vars a = conf /\ has_file a = true) (kept_response N conf)) in EL.
  - destruct EL as (ts & Q & C). exists ts. split; [exact Q|]. unfold first_column in *. rewrite map_app, C, (log_time _ _ EF), F, Tt. reflexivity.
  - intros k a a' l' [Va Fa] Eb. unfold response_body in Eb. apply bind_ok in Eb. destruct Eb as (a1 & U & Eb). apply bind_ok in Eb. destruct Eb as (b & D & Eb). apply bind_ok in Eb. destruct Eb as (l1 & L1 & Eb).
    injection Eb as <- <-. assert (UU : same_clock a a1 /\ t a1 = nadd N (t a) (c_dt (vars a))) by (destruct (nltb N (t a) (nofZ N 0)); [exact (update_clock _ _ U)|exact (update_nf_clock _ _ U)]).
    destruct UU as [[V2 F2] T2]. assert (V3 : vars a1 = conf) by congruence. rewrite V3 in D. apply due_beat in D. fold (kept_plain N conf (nabs N (t a1))) in D. fold (kept_response N conf (t a1)) in D.
    rewrite Va in T2. split; [split; [exact V3|congruence]|]. split; [exact T2|]. rewrite <- D. destruct b; [|injection L1 as <-; reflexivity]. rewrite (log_time _ _ L1). rewrite F2, Fa. reflexivity.
  - split; [exact V|exact F].
Qed.

(** * Langevin *)
Lemma lmetro_clock d (lc lc' : lchain T) : lmetropolis_update N d lc = Ok lc' -> vars (base lc') = vars (base lc) /\ t (base lc') = t (base lc).
Proof.
  unfold lmetropolis_update. cbv zeta. intros H. do 8 (apply bind_ok in H; destruct H as (? & _ & H)). apply bind_ok in H. destruct H as (b & A & H). injection H as <-.
  destruct (accept_clock _ _ _ _ _ _ A) as [[V _] Tt]. split; assumption.
Qed.
Lemma lupdate_clock zl zr (lc lc' : lchain T) : lupdate N zl zr lc = Ok lc' -> vars (base lc') = vars (base lc) /\ t (base lc') = nadd N (t (base lc)) (c_dt (vars (base lc))).
Proof.
  unfold lupdate. cbv zeta. intros H. do 3 (apply bind_ok in H; destruct H as (? & _ & H)). injection H as <-. split; reflexivity.
Qed.
Lemma llog_time (lc : lchain T) l : lchain_log N lc = Ok l -> map (@hd_error T) l = [Some (t (base lc))].
Proof. unfold lchain_log. cbv zeta. intros H. do 3 (apply bind_ok in H; destruct H as (? & _ & H)). injection H as <-. reflexivity. Qed.
Lemma langevin_times fuel d noise g conf dn lc out : lchain_new N conf g dn = Ok lc -> langevin_worker N fuel d noise lc = Ok out ->
  exists ts, timetable N (nopp N (trel conf)) (c_dt conf) (c_t conf) (kept_langevin N conf) ts /\ first_column N out (nopp N (trel conf) :: ts).
Proof.
  intros EN E. unfold lchain_new in EN. apply bind_ok in EN. destruct EN as (c & EC & EN). injection EN as <-. destruct (new_clock _ _ _ EC) as (V0 & _ & T0).
  unfold langevin_worker in E. cbv zeta in E. apply bind_ok in E. destruct E as (c0 & E0 & E).
  assert (K : vars (base c0) = conf /\ t (base c0) = nopp N (trel conf)).
  { revert E0. generalize (Z.to_nat 20000000). intros n E0. refine (iter_keeps (fun lc => vars (base lc) = conf /\ t (base lc) = nopp N (trel conf)) _ _ n 0 _ c0 E0 _); [|split; assumption].
    intros j a b Eb [Va Ta]. destruct (lmetro_clock _ _ _ Eb) as [V1 T1]. split; congruence. }
  destruct K as [V Tt]. apply bind_ok in E. destruct E as (first & EF & E). apply bind_ok in E. destruct E as ([c' l] & EL & E). injection E as <-. rewrite V in EL.
  apply (loop_table (fun lc : lchain T => t (base lc)) (c_dt conf) (c_t conf) (fun a => vars (base a) = conf) (kept_langevin N conf)) in EL.
  - destruct EL as (ts & Q & C). rewrite Tt in Q. exists ts. split; [exact Q|]. unfold first_column in *. rewrite map_app, C, (llog_time _ _ EF), Tt. reflexivity.
  - intros k a a' l' Va Eb. unfold langevin_body in Eb. apply bind_ok in Eb. destruct Eb as (a1 & U & Eb). apply bind_ok in Eb. destruct Eb as (b & D & Eb). apply bind_ok in Eb. destruct Eb as (l1 & L1 & Eb).
    injection Eb as <- <-. destruct (lupdate_clock _ _ _ _ U) as [V2 T2]. assert (V3 : vars (base a1) = conf) by congruence. rewrite V3 in D. apply due_beat in D. fold (kept_langevin N conf (t (base a1))) in D.
    rewrite Va in T2. split; [exact V3|]. split; [exact T2|]. rewrite <- D. destruct b; [|injection L1 as <-; reflexivity]. exact (llog_time _ _ L1).
  - exact V.
Qed.

(** * The log files *)
Lemma frame_times (worker : draws N -> chain T -> res (list (list T))) start kept rg (conf : config T) (f f' : fs T) conf' :
  (forall d dn c out, chain_new N conf dn = Ok c -> c_log conf = true -> worker d c = Ok out ->
    exists ts, timetable N start (c_dt conf) (c_t conf) kept ts /\ first_column N out (nopp N (trel conf) :: ts)) ->
  run_frame N worker rg conf f = Ok (conf', f') -> c_log conf = true -> in_range conf -> (0 <= runs conf)%Z ->
  forall i, i < Z.to_nat (runs conf) -> exists rows ts, contents f' (log_name (c_file conf) (Z.to_nat (offset conf) + i)) = Some (map numbers rows) /\
    timetable N start (c_dt conf) (c_t conf) kept ts /\ first_column N rows (nopp N (trel conf) :: ts).
Proof.
  intros HW E CL IR R0 i Hi. apply run_frame_wrote in E. destruct E as ((lss & F2 & W) & _). rewrite CL in W. destruct W as [W1 _].
  assert (NR : num_runs N conf = Z.to_nat (runs conf)) by exact (proj1 (num_runs_small N conf IR R0)).
  assert (LL := F2_length _ _ _ F2). rewrite seq_length in LL.
  destruct (nth_error lss i) as [ls|] eqn:EN; [|apply nth_error_None in EN; lia].
  destruct (F2_nth _ _ _ F2 i ls EN) as (c & out & EC & EW & ->). destruct (HW _ _ _ _ EC CL EW) as (ts & A & B).
  exists out, ts. split; [|split; assumption]. apply W1. exact (logs_in _ _ _ _ _ EN).
Qed.
Lemma default_times fuel rg (conf : config T) f conf' f' : run_sim N fuel rg conf f = Ok (conf', f') -> c_log conf = true -> in_range conf -> (0 <= runs conf)%Z ->
  forall i, i < Z.to_nat (runs conf) -> exists rows ts, contents f' (log_name (c_file conf) (Z.to_nat (offset conf) + i)) = Some (map numbers rows) /\
    timetable N (nopp N (trel conf)) (c_dt conf) (c_t conf) (kept_plain N conf) ts /\ first_column N rows (nopp N (trel conf) :: ts).
Proof. apply frame_times. intros d dn c out. apply sim_times. Qed.
Lemma response_log_times fuel rg (conf : config T) f conf' f' : run_sim_response N fuel rg conf f = Ok (conf', f') -> c_log conf = true -> in_range conf -> (0 <= runs conf)%Z ->
  forall i, i < Z.to_nat (runs conf) -> exists rows ts, contents f' (log_name (c_file conf) (Z.to_nat (offset conf) + i)) = Some (map numbers rows) /\
    timetable N (nopp N (c_t conf)) (c_dt conf) (c_t conf) (kept_response N conf) ts /\ first_column N rows (nopp N (trel conf) :: ts).
Proof. apply frame_times. intros d dn c out. apply response_times. Qed.
Lemma langevin_log_times fuel g rg (conf : config T) f conf' f' : run_langevin N fuel g rg conf f = Ok (conf', f') -> in_range conf -> (0 <= runs conf)%Z ->
  forall i, i < Z.to_nat (runs conf) -> exists rows ts, contents f' (log_name (c_file conf) (Z.to_nat (offset conf) + i)) =
      Some ([Tword "#t"; Tword "E_total"; Tword "E_sub"; Tword "M_x"; Tword "M_y"; Tword "M_z"]%string :: map numbers rows) /\
    timetable N (nopp N (trel conf)) (c_dt conf) (c_t conf) (kept_langevin N conf) ts /\ first_column N rows (nopp N (trel conf) :: ts).
Proof.
  intros E IR R0 i Hi. unfold run_langevin in E. apply bind_ok in E. destruct E as (u & _ & E). apply bind_ok in E. destruct E as (f1 & E2 & E3).
  pose proof (finish_ok _ _ _ _ _ _ E3) as (_ & _ & D & _).
  assert (NR : num_runs N conf = Z.to_nat (runs conf)) by exact (proj1 (num_runs_small N conf IR R0)).
  unfold range in E2. rewrite Nat.sub_0_r in E2.
  apply (fold_wrote (fun f => f) _ (c_file conf) (fun _ ls => exists r ts, ls = l_header N :: map numbers r /\
    timetable N (nopp N (trel conf)) (c_dt conf) (c_t conf) (kept_langevin N conf) ts /\ first_column N r (nopp N (trel conf) :: ts)) 0 (num_runs N conf) (Z.to_nat (offset conf))) in E2.
  - destruct E2 as (lss & F2 & W). assert (LL := F2_length _ _ _ F2). rewrite seq_length in LL.
    destruct (nth_error lss i) as [ls|] eqn:EN; [|apply nth_error_None in EN; lia].
    destruct (F2_nth _ _ _ F2 i ls EN) as (r & ts & -> & Q). exists r, ts. split; [|exact Q].
    destruct (wrote_dat _ _ _ _ _ W D) as [WW _]. apply WW. exact (logs_in _ _ _ _ _ EN).
  - intros j h h' Hj Eh. cbv zeta in Eh. apply bind_ok in Eh. destruct Eh as (lc & Elc & Eh). apply bind_ok in Eh. destruct Eh as (out & Eo & Eh).
    injection Eh as <-. exists (l_header N :: map numbers out). split.
    + destruct (langevin_times _ _ _ _ _ _ _ _ Elc Eo) as (ts & A & B). exists out, ts. auto.
    + rewrite Nat.sub_0_r. apply (wrote_append _ _ _ [l_header N] (map numbers out)). apply (wrote_append _ _ _ [] [l_header N]). apply wrote_create.
Qed.
End C.
