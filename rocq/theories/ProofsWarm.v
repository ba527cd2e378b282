(** Runs as moves followed by time steps. *)
From Coq Require Import String Bool List ZArith Arith Lia.
From Verif Require Import Num Monad Config Chain Fit Files Writers Runs SpecChain SpecTotal SpecRuns SpecWarm SpecToml
  ProofsNames ProofsDir ProofsFrame ProofsSim.
Import ListNotations.
Local Open Scope nat_scope.

Section W.
Context (N : NumOps).
Notation T := (num N).
Implicit Types (c sc : chain T).

Lemma update_same_vars sc c : update N sc = Ok c -> vars c = vars sc.
Proof.
  unfold update. cbv zeta. intros H. apply bind_ok in H. destruct H as (h & _ & H). apply bind_ok in H. destruct H as (sp & _ & H). injection H as <-. reflexivity.
Qed.
Lemma metro_same_vars d sc c : metropolis_update N d sc = Ok c -> vars c = vars sc.
Proof.
  unfold metropolis_update. cbv zeta. intros H. do 9 (apply bind_ok in H; destruct H as (? & _ & H)).
  unfold accept in H. match type of H with (if ?b then _ else _) = _ => destruct b end; [apply bind_ok in H; destruct H as (? & _ & H)|]; injection H as <-; reflexivity.
Qed.
Lemma iterMi_states {A} (f : nat -> A -> res A) n : forall k a b, iterMi f k n a = Ok b ->
  exists st, st 0 = a /\ (forall i, i < n -> f (k + i) (st i) = Ok (st (S i))) /\ st n = b.
Proof.
  induction n as [|n IH]; intros k a b E; cbn [iterMi] in E.
  - injection E as <-. exists (fun _ => a). split; [reflexivity|]. split; [intros i Hi; lia|reflexivity].
  - apply bind_ok in E. destruct E as (a1 & E1 & E2). destruct (IH _ _ _ E2) as (st & S0 & S1 & S2).
    exists (fun i => match i with 0 => a | S j => st j end). split; [reflexivity|]. split; [|exact S2].
    intros [|i] Hi; [rewrite Nat.add_0_r, S0; exact E1|]. rewrite <- Nat.add_succ_comm. apply S1. lia.
Qed.
Lemma warmed_intro d c c' : thermalise N d 20000000 c = Ok c' -> warmed N d c c' /\ vars c' = vars c.
Proof.
  unfold thermalise, warmed. assert (EN : Z.of_nat (Z.to_nat 20000000) = 20000000%Z) by (apply Z2Nat.id; lia).
  revert EN. generalize (Z.to_nat 20000000). intros n EN E. destruct (iterMi_states _ _ _ _ _ E) as (st & S0 & S1 & S2). split.
  - exists st. split; [exact S0|]. split; [|exact S2]. intros k Hk. apply (S1 k). lia.
  - assert (V : forall i, i <= n -> vars (st i) = vars c).
    { induction i as [|i IH]; intro Hi; [rewrite S0; reflexivity|]. rewrite (metro_same_vars _ _ _ (S1 i ltac:(lia))). apply IH. lia. }
    rewrite <- S2. apply V. lia.
Qed.
Lemma loop_states {L} tmax (body : nat -> chain T -> res (chain T * list L)) fuel : forall k c c' l,
  time_loop N (@t T) tmax body fuel k c = Ok (c', l) ->
  exists m st ls, st 0 = c /\ st m = c' /\ (forall i, i < m -> body (k + i) (st i) = Ok (st (S i), ls (S i))) /\
    (forall i, i < m -> nltb N (t (st i)) tmax = true) /\ nltb N (t (st m)) tmax = false /\ l = flat_map ls (seq 1 m).
Proof.
  induction fuel as [|fuel IH]; intros k c c' l E; cbn [time_loop] in E.
  - destruct (nltb N (t c) tmax) eqn:B; [discriminate|]. injection E as <- <-.
    exists 0, (fun _ => c), (fun _ : nat => @nil L). repeat split; auto; intros i Hi; lia.
  - destruct (nltb N (t c) tmax) eqn:B.
    2:{ injection E as <- <-. exists 0, (fun _ => c), (fun _ : nat => @nil L). repeat split; auto; intros i Hi; lia. }
    apply bind_ok in E. destruct E as ([c1 l1] & E1 & E). apply bind_ok in E. destruct E as ([c2 l2] & E2 & E). injection E as <- <-.
    destruct (IH _ _ _ _ E2) as (m & st & ls & S0 & S1 & S2 & S3 & S4 & S5).
    exists (S m), (fun i => match i with 0 => c | S j => st j end), (fun i => match i return list L with 0 => [] | 1 => l1 | S j => ls j end).
    split; [reflexivity|]. split; [exact S1|]. split; [|split; [|split; [exact S4|]]].
    + intros [|i] Hi; [rewrite Nat.add_0_r; rewrite S0; exact E1|]. rewrite <- Nat.add_succ_comm. exact (S2 i ltac:(lia)).
    + intros [|i] Hi; [exact B|]. exact (S3 i ltac:(lia)).
    + cbn [seq flat_map]. f_equal. rewrite S5. rewrite <- (seq_shift m 1), !flat_map_concat_map, map_map. f_equal. apply map_ext_in. intros i Hi. apply in_seq in Hi. destruct i; [lia|reflexivity].
Qed.

Lemma flat_filter {A} (f g : nat -> list A) (p : nat -> bool) l : (forall k, In k l -> f k = if p k then g k else []) -> flat_map f l = flat_map g (filter p l).
Proof.
  intro H. induction l as [|k l IH]; [reflexivity|]. cbn [flat_map filter]. rewrite H by (left; reflexivity). rewrite IH by (intros j Hj; apply H; right; exact Hj).
  destruct (p k); reflexivity.
Qed.

Lemma sim_rows log fuel d c out : sim_worker N log fuel d c = Ok out -> run_rows N log d c out.
Proof.
  unfold sim_worker. intros E. apply bind_ok in E. destruct E as (c0 & E0 & E). destruct (warmed_intro _ _ _ E0) as [W V].
  unfold sim_run in E. cbv zeta in E. apply bind_ok in E. destruct E as (first & EF & E). apply bind_ok in E. destruct E as ([c' l] & EL & E). injection E as <-.
  destruct (loop_states _ _ _ _ _ _ _ EL) as (m & st & ls & S0 & S1 & S2 & S3 & S4 & S5). rewrite V in S2, S3, S4.
  set (ts := ntou64 N (ndiv N (tau (vars c)) (c_dt (vars c)))) in *.
  assert (U : forall k, k < m -> update N (st k) = Ok (st (S k)) /\ exists b, due N (vars (st (S k))) ts (t (st (S k))) = Ok b /\
      (if b then log (st (S k)) else Ok []) = Ok (ls (S k))).
  { intros k Hk. specialize (S2 k Hk). unfold sim_body in S2. apply bind_ok in S2. destruct S2 as (c1 & U & S2). apply bind_ok in S2. destruct S2 as (b & D & S2).
    apply bind_ok in S2. destruct S2 as (l1 & L1 & S2). injection S2 as A B. rewrite A in *. rewrite B in *. split; [exact U|]. exists b. split; [exact D|exact L1]. }
  assert (VS : forall k, k <= m -> vars (st k) = vars c).
  { induction k as [|k IH]; intro Hk; [rewrite S0; exact V|]. rewrite (update_same_vars _ _ (proj1 (U k ltac:(lia)))). apply IH. lia. }
  exists c0, st, m, first, (fun k => match due N (vars c) ts (t (st k)) with Ok b => b | _ => false end), ls.
  split; [exact W|]. split; [exact V|]. split; [split; [exact S0|]; split; [intros k Hk; exact (proj1 (U k Hk))|]; split; [exact S3|exact S4]|]. split; [exact EF|].
  assert (D : forall k, 1 <= k <= m -> exists b, due N (vars c) ts (t (st k)) = Ok b /\ (if b then log (st k) else Ok []) = Ok (ls k)).
  { intros [|k] Hk; [lia|]. destruct (U k ltac:(lia)) as (_ & b & Db & Lb). rewrite VS in Db by lia. exists b. split; assumption. }
  split; [|split].
  - intros k Hk. destruct (D k Hk) as (b & Db & _). rewrite Db. unfold due in Db. unfold logged_at. fold ts.
    destruct (strob (vars c)); [|injection Db as <-; split; auto]. destruct (ts =? 0)%Z; [discriminate|]. cbv zeta in Db. injection Db as <-.
    rewrite Z.eqb_eq. split; [auto|]. intros [X|X]; [discriminate|exact X].
  - intros k Hk. destruct (D k Hk) as (b & Db & Lb). rewrite Db. intros ->. exact Lb.
  - f_equal. rewrite S5. apply flat_filter. intros k Hk. apply in_seq in Hk. destruct (D k ltac:(lia)) as (b & Db & Lb). rewrite Db.
    destruct b; [reflexivity|]. injection Lb as <-. reflexivity.
Qed.

(** * Profiles *)
Lemma find_first {A} (f : A -> bool) l z : find f l = Some z <-> exists b a, l = b ++ z :: a /\ f z = true /\ Forall (fun y => f y = false) b.
Proof.
  split.
  - induction l as [|y l IH]; intro H; [discriminate|]. cbn [find] in H. destruct (f y) eqn:F.
    + injection H as ->. exists [], l. auto.
    + destruct (IH H) as (b & a & -> & Fz & Fb). exists (y :: b), a. repeat split; auto.
  - intros (b & a & -> & Fz & Fb). induction Fb as [|y b Hy Fb IH]; cbn [app find]; [rewrite Fz; reflexivity|]. rewrite Hy. exact IH.
Qed.
Lemma profile_sends fuel d c out z : profile_worker N fuel d c = Ok out -> run_sends N d c z (sent_to N z out).
Proof.
  unfold profile_worker. intros E. apply bind_ok in E. destruct E as (c0 & E0 & E). destruct (warmed_intro _ _ _ E0) as [W V].
  unfold profile_run in E. apply bind_ok in E. destruct E as ([c' l] & EL & E). injection E as <-.
  destruct (loop_states _ _ _ _ _ _ _ EL) as (m & st & ls & S0 & S1 & S2 & S3 & S4 & S5). rewrite V in S3, S4.
  assert (U : forall k, k < m -> update N (st k) = Ok (st (S k)) /\
      match checkpoint N (vars (st (S k))) (t (st (S k))) with Some y => exists ms, snapshot N (st (S k)) = Ok ms /\ ls (S k) = [(y, ms)] | None => ls (S k) = [] end).
  { intros k Hk. specialize (S2 k Hk). unfold profile_body in S2. apply bind_ok in S2. destruct S2 as (c1 & U & S2). 
    destruct (checkpoint N (vars c1) (t c1)) as [y|] eqn:CK.
    - apply bind_ok in S2. destruct S2 as (ms & M & S2). injection S2 as A B. rewrite A in *. split; [exact U|]. rewrite CK. exists ms. auto.
    - injection S2 as A B. rewrite A in *. split; [exact U|]. rewrite CK. auto. }
  assert (VS : forall k, k <= m -> vars (st k) = vars c).
  { induction k as [|k IH]; intro Hk; [rewrite S0; exact V|]. rewrite (update_same_vars _ _ (proj1 (U k ltac:(lia)))). apply IH. lia. }
  assert (D : forall k, 1 <= k <= m -> match checkpoint N (vars c) (t (st k)) with Some y => exists ms, snapshot N (st k) = Ok ms /\ ls k = [(y, ms)] | None => ls k = [] end).
  { intros [|k] Hk; [lia|]. destruct (U k ltac:(lia)) as (_ & Db). rewrite VS in Db by lia. exact Db. }
  exists c0, st, m, (fun k => match checkpoint N (vars c) (t (st k)) with Some y => (y =? z)%Z | None => false end), (fun k => sent_to N z (ls k)).
  split; [exact W|]. split; [exact V|]. split; [split; [exact S0|]; split; [intros k Hk; exact (proj1 (U k Hk))|]; split; [exact S3|exact S4]|].
  split; [|split].
  - intros k Hk. transitivity (checkpoint N (vars c) (t (st k)) = Some z).
    + destruct (checkpoint _ _ _) as [y|]; [|split; discriminate]. rewrite Z.eqb_eq. split; congruence.
    + unfold checkpoint. rewrite find_first. reflexivity.
  - intros k Hk. specialize (D k Hk). destruct (checkpoint _ _ _) as [y|]; [|discriminate]. intro Y. destruct D as (ms & M & ->). rewrite M. unfold sent_to. cbn [flat_map fst snd]. rewrite Y, app_nil_r. reflexivity.
  - rewrite S5. transitivity (flat_map (fun k => sent_to N z (ls k)) (seq 1 m)).
    + generalize (seq 1 m). intro q. induction q as [|k q IH]; [reflexivity|]. cbn [flat_map]. unfold sent_to in *. rewrite flat_map_app, IH. reflexivity.
    + apply flat_filter. intros k Hk. apply in_seq in Hk. specialize (D k ltac:(lia)). destruct (checkpoint _ _ _) as [y|].
      * destruct D as (ms & _ & ->). unfold sent_to. cbn [flat_map fst snd]. destruct (y =? z)%Z; reflexivity.
      * rewrite D. reflexivity.
Qed.
(** * The modes *)
Lemma rows_files log (worker : nat -> draws N -> chain T -> res (list (list T))) fuel rg (conf : config T) (f f' : fs T) conf' :
  (forall d c out, worker fuel d c = Ok out -> run_rows N log d c out) ->
  run_frame N (worker fuel) rg conf f = Ok (conf', f') -> c_log conf = true -> in_range conf -> (0 <= runs conf)%Z ->
  forall i, i < Z.to_nat (runs conf) -> exists c rows, chain_new N conf (dr_new (r_draws N rg i)) = Ok c /\
    contents f' (log_name (c_file conf) (Z.to_nat (offset conf) + i)) = Some (map numbers rows) /\ run_rows N log (r_draws N rg i) c rows.
Proof.
  intros HW E CL IR R0 i Hi. apply run_frame_wrote in E. destruct E as ((lss & F2 & W) & _). rewrite CL in W. destruct W as [W1 _].
  assert (NR : num_runs N conf = Z.to_nat (runs conf)) by exact (proj1 (num_runs_small N conf IR R0)).
  assert (LL := F2_length _ _ _ F2). rewrite seq_length in LL.
  destruct (nth_error lss i) as [ls|] eqn:EN; [|apply nth_error_None in EN; lia].
  assert (ER : is_run N (worker fuel) rg conf i ls).
  { clear - F2 EN Hi NR. rewrite NR in F2. revert EN. assert (G : forall n k xs, Forall2 (is_run N (worker fuel) rg conf) (seq k n) xs -> forall j, nth_error xs j = Some ls -> is_run N (worker fuel) rg conf (k + j) ls).
    { induction n as [|n IH]; intros k xs FF j EJ; cbn [seq] in FF; inversion FF; subst; [destruct j; discriminate|].
      destruct j as [|j]; cbn in EJ; [injection EJ as <-; rewrite Nat.add_0_r; assumption|]. rewrite <- Nat.add_succ_comm. eapply IH; eassumption. }
    exact (G _ 0 _ F2 i). }
  destruct ER as (c & out & EC & EW & ->). exists c, out. split; [exact EC|]. split; [|exact (HW _ _ _ EW)]. apply W1. exact (logs_in _ _ _ _ _ EN).
Qed.
Lemma default_rows fuel rg (conf : config T) f conf' f' : run_sim N fuel rg conf f = Ok (conf', f') -> c_log conf = true -> in_range conf -> (0 <= runs conf)%Z ->
  forall i, i < Z.to_nat (runs conf) -> exists c rows, chain_new N conf (dr_new (r_draws N rg i)) = Ok c /\
    contents f' (log_name (c_file conf) (Z.to_nat (offset conf) + i)) = Some (map numbers rows) /\ run_rows N (chain_log N) (r_draws N rg i) c rows.
Proof. apply (rows_files (chain_log N) (fun fuel => sim_worker N (chain_log N) fuel)). intros d c out. apply sim_rows. Qed.
Lemma ext_rows fuel rg (conf : config T) f conf' f' : run_ext N fuel rg conf f = Ok (conf', f') -> c_log conf = true -> in_range conf -> (0 <= runs conf)%Z ->
  forall i, i < Z.to_nat (runs conf) -> exists c rows, chain_new N conf (dr_new (r_draws N rg i)) = Ok c /\
    contents f' (log_name (c_file conf) (Z.to_nat (offset conf) + i)) = Some (map numbers rows) /\ run_rows N (log_ext N) (r_draws N rg i) c rows.
Proof. apply (rows_files (log_ext N) (fun fuel => sim_worker N (log_ext N) fuel)). intros d c out. apply sim_rows. Qed.

Lemma fold_gather {S A} (acc : S -> list A) (step : nat -> S -> res S) (P : nat -> A -> Prop) :
  (forall i s s', step i s = Ok s' -> exists x, acc s' = acc s ++ [x] /\ P i x) ->
  forall n k s s', foldM step (seq k n) s = Ok s' -> exists xs, acc s' = acc s ++ xs /\ Forall2 P (seq k n) xs.
Proof.
  intros H. induction n as [|n IH]; intros k s s' E; cbn [seq foldM] in E.
  - injection E as <-. exists []. rewrite app_nil_r. split; [reflexivity|constructor].
  - apply bind_ok in E. destruct E as (s1 & E1 & E2). destruct (H _ _ _ E1) as (x & A1 & P1). destruct (IH _ _ _ E2) as (xs & A2 & P2).
    exists (x :: xs). split; [rewrite A2, A1, <- app_assoc; reflexivity|constructor; assumption].
Qed.
Lemma mean_starts rg (conf : config T) f e f' : trajectory_mean_e N rg conf f = Ok (e, f') -> in_range conf -> (0 <= runs conf)%Z ->
  exists ess, Forall2 (fun i es => exists c c0, chain_new N conf (dr_new (r_draws N rg i)) = Ok c /\ warmed N (dr_mc (r_draws N rg i)) c c0 /\ traj_run N c0 = Ok es)
    (seq 0 (Z.to_nat (runs conf))) ess /\ e = traj_mean N (r_nums N rg ess).
Proof.
  intros E IR R0. unfold trajectory_mean_e in E. apply bind_ok in E. destruct E as (u & _ & E). apply bind_ok in E. destruct E as ([l f1] & E1 & E). injection E as <- <-.
  rewrite (proj1 (num_runs_small N conf IR R0)) in E1. unfold range in E1. rewrite Nat.sub_0_r in E1.
  apply (fold_gather fst _ (fun i es => exists c c0, chain_new N conf (dr_new (r_draws N rg i)) = Ok c /\ warmed N (dr_mc (r_draws N rg i)) c c0 /\ traj_run N c0 = Ok es)) in E1.
  - destruct E1 as (xs & A & F). cbn [fst app] in A. subst l. exists xs. auto.
  - intros i [l0 g] [l1 g1] Es. apply bind_ok in Es. destruct Es as ([c g2] & E2 & Es). apply bind_ok in Es. destruct Es as (c0 & E3 & Es). apply bind_ok in Es. destruct Es as (es & E4 & Es).
    injection Es as <- <-. unfold new_logged in E2. apply bind_ok in E2. destruct E2 as (c' & E5 & E6). injection E6 as <- _.
    exists es. split; [reflexivity|]. exists c', c0. split; [exact E5|]. split; [exact (proj1 (warmed_intro _ _ _ E3))|exact E4].
Qed.

Lemma profile_file (g : Z -> res (list (line T))) l : NoDup (map profile_name l) -> forall f f', foldM (fun z f => let* ls := g z in Ok (append (profile_name z) ls f)) l f = Ok f' ->
  (forall n, ~ In n (map profile_name l) -> contents f' n = contents f n) /\
  forall z, In z l -> exists ls, g z = Ok ls /\ contents f' (profile_name z) = Some (match contents f (profile_name z) with Some a => a ++ ls | None => ls end).
Proof.
  induction l as [|y l IH]; intros ND f f' E; cbn [foldM] in E.
  - injection E as <-. split; [reflexivity|intros z []].
  - cbn [map] in ND. inversion ND as [|a b NI ND']; subst. apply bind_ok in E. destruct E as (f1 & E1 & E2). apply bind_ok in E1. destruct E1 as (ls & G & E1). injection E1 as <-.
    destruct (IH ND' _ _ E2) as [A B]. split.
    + intros n Hn. cbn [map In] in Hn. rewrite A by tauto. rewrite contents_append. destruct (String.eqb_spec n (profile_name y)) as [->|]; [tauto|reflexivity].
    + intros z [->|Hz].
      * exists ls. split; [exact G|]. rewrite A by exact NI. rewrite contents_append, String.eqb_refl. reflexivity.
      * destruct (B z Hz) as (ls' & G' & C'). exists ls'. split; [exact G'|]. rewrite C', contents_append.
        destruct (String.eqb_spec (profile_name z) (profile_name y)) as [Q|]; [|reflexivity]. destruct NI. rewrite <- Q. apply in_map. exact Hz.
Qed.
Lemma created_profiles l : forall (f : fs T) z, In z l \/ contents f (profile_name z) = Some [] -> contents (fold_left (fun f z => create (profile_name z) f) l f) (profile_name z) = Some [].
Proof.
  induction l as [|y l IH]; intros f z H; cbn [fold_left].
  - destruct H as [[]|H]. exact H.
  - apply IH. destruct H as [[->|H]|H]; [right|left; exact H|right]; rewrite contents_create; [rewrite String.eqb_refl; reflexivity|]. destruct (String.eqb _ _); [reflexivity|exact H].
Qed.
Lemma fold_keeps {S A} (P : S -> Prop) (step : A -> S -> res S) l : (forall i s s', step i s = Ok s' -> P s -> P s') -> forall s s', foldM step l s = Ok s' -> P s -> P s'.
Proof.
  intro H. induction l as [|a l IH]; intros s s' E HP; cbn [foldM] in E; [injection E as <-; exact HP|].
  apply bind_ok in E. destruct E as (s1 & E1 & E2). exact (IH _ _ E2 (H _ _ _ E1 HP)).
Qed.
Lemma profile_starts fuel rg (conf : config T) f conf' f' : run_dyn_profile N fuel rg conf f = Ok (conf', f') -> in_range conf -> (0 <= runs conf)%Z ->
  exists ws : list (Z -> list (pmsg N)),
  Forall2 (fun i w => exists c, chain_new N (set_ct conf (nmul N (tau conf) (nofZ N 4000))) (dr_new (r_draws N rg i)) = Ok c /\ forall z, run_sends N (r_draws N rg i) c z (w z))
    (seq 0 (Z.to_nat (runs conf))) ws /\
  forall z, In z [500; 1000; 1500; 2000; 2500; 3000; 3500; 4000]%Z -> exists ls,
    profile_in_bg N (as_usize (hsize conf)) (Z.to_nat (runs conf)) true (r_msgs N rg (map (fun w => w z) ws)) = Ok ls /\ contents f' (profile_name z) = Some ls.
Proof.
  intros E IR R0. unfold run_dyn_profile in E. cbv zeta in E. apply bind_ok in E. destruct E as (u & _ & E). apply bind_ok in E.
  destruct E as ([f2 sent] & E2 & E3). apply bind_ok in E3. destruct E3 as (f3 & E3 & E4). pose proof (finish_ok _ _ _ _ _ _ E4) as (_ & _ & D & _).
  rewrite (proj1 (num_runs_small N conf IR R0)) in E2, E3. unfold range in E2. rewrite Nat.sub_0_r in E2.
  set (cf := set_ct conf _) in *.
  assert (K : forall z, In z checkpoints -> contents f2 (profile_name z) = Some []).
  { intros z Hz. revert E2. match goal with |- foldM ?stp ?ll ?ss = _ -> _ => intro E2; apply (fold_keeps (fun s => contents (fst s) (profile_name z) = Some []) stp ll) in E2 end.
    - exact E2.
    - intros i [g s0] [g' s1] Eh Hg. apply bind_ok in Eh. destruct Eh as ([sc h1] & E5 & E6). apply bind_ok in E6. destruct E6 as (l & E7 & E8).
      injection E8 as <- <-. unfold new_logged in E5. apply bind_ok in E5. destruct E5 as (sc' & E9 & E10). injection E10 as _ <-. cbn [fst] in *.
      destruct (c_log conf); [|exact Hg]. rewrite contents_create. destruct (String.eqb_spec (profile_name z) (log_name (c_file conf) (i + Z.to_nat (offset conf)))) as [Q|]; [|exact Hg].
      destruct (log_not_profile _ _ _ (eq_sym Q)).
    - cbn [fst]. apply created_profiles. left. exact Hz. }
  apply (fold_gather snd _ (fun i l => exists c, chain_new N cf (dr_new (r_draws N rg i)) = Ok c /\ profile_worker N fuel (r_draws N rg i) c = Ok l)) in E2.
  2:{ intros i [g s0] [g' s1] Eh. apply bind_ok in Eh. destruct Eh as ([sc h1] & E5 & E6). apply bind_ok in E6. destruct E6 as (l & E7 & E8).
      injection E8 as <- <-. unfold new_logged in E5. apply bind_ok in E5. destruct E5 as (sc' & E9 & E10). injection E10 as <- _. exists l. split; [reflexivity|]. exists sc'. auto. }
  destruct E2 as (xs & A & F). cbn [snd app] in A. subst sent.
  exists (map (fun l z => sent_to N z l) xs). split.
  - clear - F. induction F as [|i l is xs (c & EC & EW) F IH]; [constructor|]. cbn [map]. constructor; [|exact IH]. exists c. split; [exact EC|]. intro z. exact (profile_sends _ _ _ _ _ EW).
  - intros z Hz. assert (ND : NoDup (map profile_name checkpoints)).
    { cbn [map checkpoints]. repeat constructor; cbn [In]; vm_compute; intuition discriminate. }
    destruct (profile_file (fun z => profile_in_bg N (as_usize (hsize cf)) (Z.to_nat (runs conf)) true (r_msgs N rg (map (sent_to N z) xs))) checkpoints ND _ _ E3) as [_ B].
    destruct (B z Hz) as (ls & G & C). exists ls. split.
    + rewrite map_map. exact G.
    + rewrite (K z Hz) in C. unfold contents in *. rewrite D. exact C.
Qed.
End W.
