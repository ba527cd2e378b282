(** Steps, lines and termination of the simulation runs. *)
From Coq Require Import String SpecFloat Reals Lra Lia List ZArith Arith Bool.
From Flocq Require Import Core.
From Verif Require Import Num Monad NumR NumF64 Spin Config Chain Langevin Fit Files Toml Writers Runs SpecVec SpecChain SpecTotal SpecToml SpecRuns
  ProofsChain ProofsEnergy ProofsDyn ProofsMC ProofsNew ProofsTotal ProofsToml ProofsNames ProofsFrame ProofsLoop.
Import ListNotations.
Local Close Scope R_scope.
Local Open Scope nat_scope.

Section Gen.
Context (N : NumOps).
Notation T := (num N).
Implicit Types (conf : config T) (f : fs T).

Lemma new_wf conf d : conf_ok N conf -> (0 <= ssize conf <= hsize conf)%Z -> exists sc, chain_new N conf d = Ok sc /\
  wf (Z.to_nat (hsize conf)) (Z.to_nat (ssize conf)) sc /\ vars sc = conf /\ t sc = nopp N (trel conf) /\ has_file sc = c_log conf.
Proof.
  intros C H. destruct (chain_new_ok N conf d C) as (sc & E & L1 & L2 & L3 & Tt & V & F). exists sc. split; [exact E|].
  split; [|auto]. destruct C as (Hh & _). constructor; rewrite ?V; lia.
Qed.
Lemma conf_hs conf : conf_ok N conf -> hs_ok conf.
Proof. intros (_ & _ & _ & _ & H) _. exact H. Qed.

Lemma run_chains_total worker rg conf num f : conf_ok N conf ->
  (forall i sc, i < num -> chain_new N conf (dr_new (r_draws N rg i)) = Ok sc -> returns (worker (r_draws N rg i) sc)) ->
  returns (run_chains N worker rg conf num f).
Proof.
  intros C H. unfold run_chains. apply returns_foldM. intros i g Hi. unfold range in Hi. apply in_seq in Hi. unfold new_logged.
  destruct (chain_new_ok N conf (dr_new (r_draws N rg i)) C) as (sc & E & _). rewrite E. cbn [bind].
  destruct (H i sc ltac:(lia) E) as [ls El]. rewrite El. apply returns_ok.
Qed.
Lemma finish_total conf num f : in_range conf -> (offset conf + u32 (Z.of_nat num) < 2 ^ 32)%Z -> returns (finish N conf num f).
Proof.
  intros R H. unfold finish, ck32. unfold in_range in R. pose proof (Z.mod_pos_bound (Z.of_nat num) (2 ^ 32) ltac:(lia)) as B. fold (u32 (Z.of_nat num)) in B.
  destruct (_ && _)%bool eqn:Bb; [|apply andb_false_iff in Bb; lia]. cbn [bind]. unfold save_config.
  destruct (to_toml_ok N (set_offset conf (offset conf + u32 (Z.of_nat num)))) as [l ->]; [unfold in_range; cbn; lia|]. apply returns_ok.
Qed.
Lemma pool_ok z : (1 <= z)%Z -> pool_new z = Ok tt.
Proof. intros H. unfold pool_new. destruct (Z.eqb_spec z 0); [lia|reflexivity]. Qed.

Lemma num_runs_small conf : in_range conf -> (0 <= runs conf)%Z -> num_runs N conf = Z.to_nat (runs conf) /\ u32 (Z.of_nat (num_runs N conf)) = runs conf.
Proof.
  intros R H. assert (A : num_runs N conf = Z.to_nat (runs conf)).
  { unfold num_runs, as_usize. unfold in_range in R. rewrite Z.mod_small by lia. reflexivity. }
  split; [exact A|]. rewrite A, Z2Nat.id by lia. unfold u32. unfold in_range in R. apply Z.mod_small. lia.
Qed.
Lemma run_frame_total worker rg conf f : usable N conf ->
  (forall i sc, i < Z.to_nat (runs conf) -> chain_new N conf (dr_new (r_draws N rg i)) = Ok sc -> returns (worker (r_draws N rg i) sc)) ->
  returns (run_frame N worker rg conf f).
Proof.
  intros (C & R & _ & _ & Th & Rn & Off) H. unfold run_frame. rewrite pool_ok by lia. cbn [bind].
  destruct (num_runs_small conf R Rn) as [E1 E2].
  destruct (run_chains_total worker rg conf (num_runs N conf) f C) as [f1 ->]; [rewrite E1; exact H|]. cbn [bind].
  apply finish_total; [exact R|lia].
Qed.

(** A worker that runs for ever makes the mode run for ever *)
Lemma run_frame_hangs worker rg conf f : usable N conf -> (1 <= runs conf)%Z ->
  (forall sc, chain_new N conf (dr_new (r_draws N rg 0)) = Ok sc -> worker (r_draws N rg 0) sc = OutOfFuel) ->
  run_frame N worker rg conf f = OutOfFuel.
Proof.
  intros (C & R & _ & _ & Th & Rn & Off) H1 H. unfold run_frame. rewrite pool_ok by lia. cbn [bind].
  destruct (num_runs_small conf R Rn) as [E1 _]. rewrite E1. unfold run_chains, range. destruct (Z.to_nat (runs conf)) as [|k] eqn:Ek; [lia|].
  cbn [Nat.sub seq foldM]. unfold new_logged. destruct (chain_new_ok N conf (dr_new (r_draws N rg 0)) C) as (sc & E & _). rewrite E. cbn [bind].
  rewrite (H sc E). reflexivity.
Qed.

Lemma no_strobe conf ts x : strob conf = false -> due N conf ts x = Ok true.
Proof. intros H. unfold due. rewrite H. reflexivity. Qed.

(** one line per state *)
Lemma concat_lines (g : nat -> list (list T)) l : (forall k, In k l -> length (g k) = 1) -> length (concat (map g l)) = length l.
Proof.
  induction l as [|k l IH]; intros H; [reflexivity|]. cbn. rewrite app_length, H by (left; reflexivity). rewrite IH; [reflexivity|]. intros; apply H; right; assumption.
Qed.
Lemma concat_single {A} (h : nat -> A) l : concat (map (fun k => [h k]) l) = map h l.
Proof. induction l as [|k l IH]; [reflexivity|]. cbn. rewrite IH. reflexivity. Qed.

(** The plain run without strobing *)
Lemma sim_plain n s sc m fuel : quarter N -> wf n s sc -> 2 <= n -> 1 <= s -> hs_ok (vars sc) -> strob (vars sc) = false ->
  (forall k, k < m -> nltb N (after_steps N k (c_dt (vars sc)) (t sc)) (c_t (vars sc)) = true) ->
  (nltb N (after_steps N m (c_dt (vars sc)) (t sc)) (c_t (vars sc)) = false -> m <= fuel ->
    exists st lines, dynamics N sc st /\ (forall k, chain_log N (st k) = Ok (lines k)) /\
      (forall k, exists l, length l = 12 /\ lines k = if has_file sc then [after_steps N k (c_dt (vars sc)) (t sc) :: l] else []) /\
      sim_run N (chain_log N) fuel sc = Ok (concat (map lines (seq 0 (S m))))) /\
  (fuel < m -> sim_run N (chain_log N) fuel sc = OutOfFuel).
Proof.
  intros Q W Hn Hs Hh St B.
  destruct (sim_states N (chain_log N) n s sc (fun _ => true) m fuel W Hn Hh) as (st & lines & D & X & P & Fin & Sh).
  - intros c Wc Hc. exact (chain_log_ok N n s c Wc Hc Q Hs).
  - exact (chain_log_ok N n s sc W Hh Q Hs).
  - exact B.
  - intros k _. apply no_strobe. exact St.
  - split; [|exact Sh]. intros E Hf. exists st, lines. split; [exact D|]. split; [exact X|]. split.
    + intros k. destruct (P k) as (Wk & V & F & Tk). destruct (chain_log_line N n s (st k) Q Wk ltac:(rewrite V; exact Hh) Hs) as (l & Ll & El).
      exists l. split; [exact Ll|]. rewrite X in El. injection El as ->. rewrite F, Tk. reflexivity.
    + destruct (Fin E Hf) as (l0 & E0 & ->). rewrite <- (proj1 D), X in E0. injection E0 as <-. reflexivity.
Qed.
End Gen.

(** ** Exact arithmetic *)
Theorem sim_steps n s sc x dt tmax fuel : wf n s sc -> (2 <= n)%nat -> (1 <= s)%nat -> hs_ok (vars sc) -> strob (vars sc) = false ->
  t sc = Some x -> c_dt (vars sc) = Some dt -> c_t (vars sc) = Some tmax -> (0 < dt)%R ->
  let m := Z.to_nat (Zceil ((tmax - x) / dt)) in
  ((m <= fuel)%nat -> exists st lines, dynamics ERNum sc st /\ (forall k, chain_log ERNum (st k) = Ok (lines k)) /\
      (forall k, exists l, length l = 12%nat /\ lines k = if has_file sc then [Some (x + INR k * dt)%R :: l] else []) /\
      sim_run ERNum (chain_log ERNum) fuel sc = Ok (concat (map lines (seq 0 (S m))))) /\
  ((fuel < m)%nat -> sim_run ERNum (chain_log ERNum) fuel sc = OutOfFuel).
Proof.
  intros W Hn Hs Hh St Ex Ed Et Hd m. fold (nsteps x tmax dt) in m.
  assert (A : forall k, after_steps ERNum k (c_dt (vars sc)) (t sc) = Some (x + INR k * dt)%R).
  { intros k. transitivity (after_steps ERNum k (Some dt) (Some x)); [|apply after_ER]. f_equal; assumption. }
  destruct (sim_plain ERNum n s sc m fuel quarter_ER W Hn Hs Hh St) as [P1 P2].
  - intros k Hk. etransitivity; [apply f_equal2; [apply A|exact Et]|]. apply ltb_ER. apply nsteps_before; assumption.
  - split; [|exact P2]. intros Hf. destruct P1 as (st & lines & D & X & Y & E).
    + etransitivity; [apply f_equal2; [apply A|exact Et]|]. apply ltb_ER_false. apply nsteps_after; [assumption|reflexivity].
    + exact Hf.
    + exists st, lines. split; [exact D|]. split; [exact X|]. split; [|exact E].
      intros k. destruct (Y k) as (l & Ll & El). exists l. split; [exact Ll|]. rewrite El. rewrite A. reflexivity.
Qed.

Lemma nth_numbers (h : nat -> list ER) m k : (k < m)%nat -> nth_error (map numbers (map h (seq 0 m))) k = Some (numbers (h k)).
Proof.
  intros H. rewrite map_map. rewrite nth_error_map.
  assert (E : nth_error (seq 0 m) k = Some k).
  { rewrite (nth_error_nth' _ 0%nat) by (rewrite seq_length; exact H). rewrite seq_nth by exact H. reflexivity. }
  rewrite E. reflexivity.
Qed.

(** the whole mode *)
Theorem run_sim_files fuel rg conf f r dt tmax : usable ERNum conf -> c_log conf = true -> strob conf = false ->
  trel conf = Some r -> c_dt conf = Some dt -> c_t conf = Some tmax -> (0 < dt)%R ->
  let m := Z.to_nat (Zceil ((tmax + r) / dt)) in (m <= fuel)%nat ->
  exists conf' f', run_sim ERNum fuel rg conf f = Ok (conf', f') /\
    (forall i, (i < Z.to_nat (runs conf))%nat -> exists ls, contents f' (log_name (c_file conf) (Z.to_nat (offset conf) + i)) = Some ls /\
       length ls = S m /\ forall k, (k <= m)%nat -> exists rest, length rest = 12%nat /\ nth_error ls k = Some (numbers (Some (- r + INR k * dt)%R :: rest))) /\
    (forall nm, (forall i, (i < Z.to_nat (runs conf))%nat -> nm <> log_name (c_file conf) (Z.to_nat (offset conf) + i)) -> contents f' nm = contents f nm).
Proof.
  intros U L St Er Ed Et Hd m Hf. assert (U' := U). destruct U' as (C & Rg & Hh & Hs & Th & Rn & Off).
  assert (WK : forall i sc, chain_new ERNum conf (dr_new (r_draws ERNum rg i)) = Ok sc ->
    exists out, sim_worker ERNum (chain_log ERNum) fuel (r_draws ERNum rg i) sc = Ok out /\
     exists h : nat -> list ER, out = map h (seq 0 (S m)) /\ forall k, exists rest, length rest = 12%nat /\ h k = Some (- r + INR k * dt)%R :: rest).
  { intros i sc E. destruct (new_wf ERNum conf (dr_new (r_draws ERNum rg i)) C ltac:(lia)) as (sc0 & E0 & W & V & Tt & F).
    rewrite E0 in E. injection E as <-. unfold sim_worker.
    destruct (thermalise_ok ERNum _ _ (dr_mc (r_draws ERNum rg i)) 20000000 sc0 W ltac:(lia)) as (sc1 & E1 & W1 & V1 & T1 & F1); [rewrite V; exact (conf_hs ERNum conf C)|].
    rewrite E1. cbn [bind]. rewrite V in V1.
    destruct (sim_steps _ _ sc1 (- r) dt tmax fuel W1 ltac:(lia) ltac:(lia)) as [P _].
    - exact (eq_ind_r (fun c => hs_ok c) (conf_hs ERNum conf C) V1).
    - exact (eq_ind_r (fun c => strob c = false) St V1).
    - etransitivity; [exact T1|]. etransitivity; [exact Tt|]. etransitivity; [apply f_equal; exact Er|]. reflexivity.
    - exact (eq_ind_r (fun c => c_dt c = Some dt) Ed V1).
    - exact (eq_ind_r (fun c => c_t c = Some tmax) Et V1).
    - exact Hd.
    - replace (tmax - - r)%R with (tmax + r)%R in P by ring. fold m in P. destruct (P Hf) as (st & lines & D & X & Y & E2). eexists. split; [exact E2|].
      assert (HF : @has_file (option R) sc1 = true) by (etransitivity; [exact F1|]; etransitivity; [exact F|exact L]).
      exists (fun k => match lines k with l :: _ => l | [] => [] end). split.
      + etransitivity; [|apply concat_single]. f_equal. apply map_ext. intros k. destruct (Y k) as (l & _ & ->). rewrite HF. reflexivity.
      + intros k. destruct (Y k) as (l & Ll & ->). rewrite HF. eauto. }
  destruct (run_frame_total ERNum (sim_worker ERNum (chain_log ERNum) fuel) rg conf f U) as [[conf' f'] E].
  { intros i sc _ E. destruct (WK i sc E) as (out & Eo & _). eexists; exact Eo. }
  exists conf', f'. split; [exact E|]. apply run_frame_wrote in E. destruct E as [(lss & F & W1 & W2) _].
  destruct (num_runs_small ERNum conf Rg Rn) as [En _]. rewrite L in W1, W2. split.
  - intros i Hi. pose proof (F2_length _ _ _ F) as FL. rewrite seq_length in FL.
    destruct (nth_error lss i) as [ls|] eqn:El; [|apply nth_error_None in El; lia]. exists ls. split; [apply W1; apply logs_in; exact El|].
    assert (IR : is_run ERNum (sim_worker ERNum (chain_log ERNum) fuel) rg conf i ls).
    { clear - F El Hi En. assert (G : forall k n l, Forall2 (is_run ERNum (sim_worker ERNum (chain_log ERNum) fuel) rg conf) (seq k n) l ->
          forall i ls, nth_error l i = Some ls -> is_run ERNum (sim_worker ERNum (chain_log ERNum) fuel) rg conf (k + i) ls).
      { intros k n l H. remember (seq k n) as q eqn:Eq. revert k n Eq. induction H as [|a b q l HR H IH]; intros k n Eq j ls' Hj; [destruct j; discriminate|].
        destruct n; [discriminate|]. injection Eq as -> Eq. destruct j; cbn in Hj; [injection Hj as <-; rewrite Nat.add_0_r; exact HR|].
        rewrite Nat.add_succ_r. apply (IH (S k) n Eq). exact Hj. }
      apply (G 0%nat _ _ F i ls El). }
    destruct IR as (sc & out & En' & Eo & ->). destruct (WK i sc En') as (out' & Eo' & h & -> & Hrow).
    rewrite Eo' in Eo. assert (Q : map h (seq 0 (S m)) = out) by congruence. subst out. clear Eo. split; [rewrite !map_length, seq_length; reflexivity|].
    intros k Hk. destruct (Hrow k) as (rest & Lr & Ek). exists rest. split; [exact Lr|].
    rewrite nth_numbers by lia. rewrite Ek. reflexivity.
  - intros nm Hnm. apply W2. intros Hin. apply logs_names in Hin. destruct Hin as (i & Hi & ->). pose proof (F2_length _ _ _ F) as FL. rewrite seq_length in FL.
    apply (Hnm i); [lia|reflexivity].
Qed.
