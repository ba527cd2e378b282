(** The run modes complete. *)
From Coq Require Import String SpecFloat Reals Lra Lia List ZArith Arith Bool.
From Verif Require Import Num Monad NumR NumF64 Spin Config Chain Langevin Fit Files Toml Writers Runs SpecVec SpecChain SpecTotal SpecToml SpecWriters SpecRuns
  ProofsChain ProofsEnergy ProofsDyn ProofsMC ProofsNew ProofsTotal ProofsToml ProofsNames ProofsFrame ProofsLang ProofsLoop ProofsSim ProofsFit ProofsWriters ProofsCheckpoints ProofsTraj.
Import ListNotations.
Local Close Scope R_scope.
Local Open Scope nat_scope.

Section Gen.
Context (N : NumOps).
Notation T := (num N).
Implicit Types (conf : config T) (f : fs T).

Lemma iter_swap {A} (g : A -> A) m x : Nat.iter m g (g x) = Nat.iter (S m) g x.
Proof. induction m as [|m IH]; [reflexivity|]. change (g (Nat.iter m g (g x)) = g (Nat.iter (S m) g x)). f_equal. exact IH. Qed.

Lemma loop_total {A L} (time : A -> T) (tmax dt : T) (body : nat -> A -> res (A * list L)) (I : A -> Prop) :
  (forall k s, I s -> exists s' l, body k s = Ok (s', l) /\ I s' /\ time s' = nadd N (time s) dt) ->
  forall fuel k s, I s -> ends N (time s) dt tmax fuel -> exists s' l, time_loop N time tmax body fuel k s = Ok (s', l) /\ I s'.
Proof.
  intros B. induction fuel as [|fuel IH]; intros k s Is (m & Hm & E).
  - assert (m = 0) by lia. subst m. cbn in E. cbn [time_loop]. rewrite E. eauto.
  - cbn [time_loop]. destruct (nltb N (time s) tmax) eqn:Q; [|eauto].
    destruct m as [|m]; [cbn in E; congruence|]. destruct (B k s Is) as (s1 & l & -> & I1 & T1). cbn [bind].
    destruct (IH (S k) s1 I1) as (s2 & l2 & -> & I2).
    { exists m. split; [lia|]. rewrite T1. rewrite <- E. exact (f_equal (fun z => nltb N z tmax) (iter_swap (fun y => nadd N y dt) m (time s))). }
    cbn [bind]. eauto.
Qed.

Lemma update_good n s (sc : chain T) : wf n s sc -> 2 <= n -> hs_ok (vars sc) ->
  exists sc', update N sc = Ok sc' /\ wf n s sc' /\ vars sc' = vars sc /\ t sc' = nadd N (t sc) (c_dt (vars sc)).
Proof.
  intros W Hn Hh. destruct (update_pure N n s sc W Hn Hh) as (sp & E & L & _). eexists. split; [exact E|].
  destruct W. split; [constructor; cbn; auto; congruence|]. split; reflexivity.
Qed.
Lemma update_nf_good n s (sc : chain T) : wf n s sc -> 2 <= n -> hs_ok (vars sc) ->
  exists sc', update_no_field N sc = Ok sc' /\ wf n s sc' /\ vars sc' = vars sc /\ t sc' = nadd N (t sc) (c_dt (vars sc)).
Proof.
  intros W Hn Hh. destruct (update_no_field_pure N n s sc W Hn Hh) as (sp & E & L & _). eexists. split; [exact E|].
  destruct W. split; [constructor; cbn; auto; congruence|]. split; reflexivity.
Qed.
Lemma due_total conf ts x : (strob conf = true -> ts <> 0%Z) -> returns (due N conf ts x).
Proof.
  intros H. unfold due. destruct (strob conf); [|apply returns_ok]. destruct (Z.eqb_spec ts 0); [exfalso; now apply H|apply returns_ok].
Qed.

(** ** run_sim, run_ext *)
Lemma sim_run_total log n s (sc : chain T) fuel : (forall sc, wf n s sc -> hs_ok (vars sc) -> returns (log sc)) ->
  quarter N -> wf n s sc -> 2 <= n -> 1 <= s -> hs_ok (vars sc) ->
  (strob (vars sc) = true -> ntou64 N (ndiv N (tau (vars sc)) (c_dt (vars sc))) <> 0%Z) ->
  ends N (t sc) (c_dt (vars sc)) (c_t (vars sc)) fuel -> returns (sim_run N log fuel sc).
Proof.
  intros Hl Q W Hn Hs Hh Hst E. unfold sim_run. cbv zeta. destruct (chain_log_ok N n s sc W Hh Q Hs) as [l0 ->]. cbn [bind].
  destruct (loop_total t (c_t (vars sc)) (c_dt (vars sc)) (sim_body N log (ntou64 N (ndiv N (tau (vars sc)) (c_dt (vars sc)))))
     (fun c => wf n s c /\ vars c = vars sc)) with (fuel := fuel) (k := 0) (s := sc) as (s' & l & -> & _); [|auto|exact E|apply returns_ok].
  intros k c [Wc V]. unfold sim_body. destruct (update_good n s c Wc Hn) as (c' & -> & W' & V' & T'); [rewrite V; exact Hh|]. cbn [bind]. rewrite V', V.
  destruct (due_total (vars sc) _ (t c') Hst) as [b ->]. cbn [bind].
  assert (X : returns (if b then log c' else Ok [])) by (destruct b; [apply Hl; [exact W'|rewrite V', V; exact Hh]|apply returns_ok]).
  destruct X as [l ->]. cbn [bind]. eexists _, _. split; [reflexivity|]. rewrite T', V. split; [split; [exact W'|congruence]|reflexivity].
Qed.
Lemma sim_worker_total log conf d fuel sc : (forall n s sc, 1 <= s -> wf n s sc -> hs_ok (vars sc) -> returns (log sc)) ->
  quarter N -> conf_ok N conf -> (2 <= hsize conf)%Z -> (1 <= ssize conf <= hsize conf)%Z ->
  (strob conf = true -> ntou64 N (ndiv N (tau conf) (c_dt conf)) <> 0%Z) ->
  ends N (nopp N (trel conf)) (c_dt conf) (c_t conf) fuel ->
  chain_new N conf (dr_new d) = Ok sc -> returns (sim_worker N log fuel d sc).
Proof.
  intros Hl Q C Hh Hs Hst En E. destruct (new_wf N conf (dr_new d) C ltac:(lia)) as (sc0 & E0 & W & V & Tt & _).
  rewrite E0 in E. apply (f_equal (fun r => match r with Ok c => c | _ => sc end)) in E. subst sc0. unfold sim_worker.
  destruct (thermalise_ok N _ _ (dr_mc d) 20000000 sc W ltac:(lia)) as (sc1 & -> & W1 & V1 & T1 & _); [rewrite V; exact (conf_hs N conf C)|]. cbn [bind].
  rewrite V in V1. eapply sim_run_total; [intros c; apply Hl| | exact W1| | | | |]; rewrite ?V1, ?T1, ?Tt; try assumption; try lia; exact (conf_hs N conf C).
Qed.
Theorem run_sim_total fuel rg conf f : quarter N -> usable N conf ->
  (strob conf = true -> ntou64 N (ndiv N (tau conf) (c_dt conf)) <> 0%Z) ->
  ends N (nopp N (trel conf)) (c_dt conf) (c_t conf) fuel -> returns (run_sim N fuel rg conf f).
Proof.
  intros Q U St En. apply run_frame_total; [exact U|]. intros i sc _ E. destruct U as (C & _ & H1 & H2 & _).
  eapply sim_worker_total; eauto. intros n s c H W Hh. eapply chain_log_ok; eauto.
Qed.
Theorem run_ext_total fuel rg conf f : quarter N -> usable N conf ->
  (strob conf = true -> ntou64 N (ndiv N (tau conf) (c_dt conf)) <> 0%Z) ->
  ends N (nopp N (trel conf)) (c_dt conf) (c_t conf) fuel -> returns (run_ext N fuel rg conf f).
Proof.
  intros Q U St En. apply run_frame_total; [exact U|]. intros i sc _ E. destruct U as (C & _ & H1 & H2 & _).
  eapply sim_worker_total; eauto. intros n s c H W Hh. eapply log_ext_ok; eauto.
Qed.

(** ** run_sim_response *)
Theorem run_response_total fuel rg conf f : quarter N -> usable N conf ->
  (strob conf = true -> ntou64 N (ndiv N (tau conf) (c_dt conf)) <> 0%Z) ->
  ends N (nopp N (c_t conf)) (c_dt conf) (c_t conf) fuel -> returns (run_sim_response N fuel rg conf f).
Proof.
  intros Q U St En. apply run_frame_total; [exact U|]. intros i sc _ E. destruct U as (C & _ & H1 & H2 & _).
  destruct (new_wf N conf (dr_new (r_draws N rg i)) C ltac:(lia)) as (sc0 & E0 & W & V & Tt & _).
  rewrite E0 in E. apply (f_equal (fun r => match r with Ok c => c | _ => sc end)) in E. subst sc0. unfold response_worker.
  set (n := Z.to_nat (hsize conf)) in *. set (s := Z.to_nat (ssize conf)) in *.
  destruct (thermalise_ok N _ _ (dr_mc (r_draws N rg i)) 20000000 sc W ltac:(lia)) as (sc1 & -> & W1 & V1 & T1 & _); [rewrite V; exact (conf_hs N conf C)|]. cbn [bind]. cbv zeta.
  rewrite V in V1. assert (Hh : hs_ok (vars sc1)) by (rewrite V1; exact (conf_hs N conf C)).
  destruct (chain_log_ok N n s sc1 W1 Hh Q ltac:(lia)) as [l0 ->]. cbn [bind].
  set (sc2 := set_t sc1 _).
  assert (V2 : vars sc2 = conf) by exact V1. assert (T2 : t sc2 = nopp N (c_t conf)) by (unfold sc2; cbn; rewrite V1; reflexivity).
  rewrite V1, V2.
  destruct (loop_total t (c_t conf) (c_dt conf) (response_body N (ntou64 N (ndiv N (tau conf) (c_dt conf))))
     (fun c => wf n s c /\ vars c = conf)) with (fuel := fuel) (k := 0) (s := sc2) as (s' & l & -> & _); [|split; [|exact V2]|rewrite T2; exact En|apply returns_ok].
  - intros k c [Wc Vc]. unfold response_body.
    assert (X : exists c', (if nltb N (t c) (nofZ N 0) then update N c else update_no_field N c) = Ok c' /\ wf n s c' /\ vars c' = vars c /\ t c' = nadd N (t c) (c_dt (vars c))).
    { destruct (nltb N (t c) (nofZ N 0)); [apply update_good|apply update_nf_good]; try exact Wc; try lia; rewrite Vc; exact (conf_hs N conf C). }
    destruct X as (c' & -> & W' & V' & T'). cbn [bind]. rewrite V', Vc.
    destruct (due_total conf _ (nabs N (t c')) St) as [b ->]. cbn [bind].
    assert (X : returns (if b then chain_log N c' else Ok [])).
    { destruct b; [|apply returns_ok]. apply (chain_log_ok N n s); [exact W'|rewrite V', Vc; exact (conf_hs N conf C)|exact Q|lia]. }
    destruct X as [l ->]. cbn [bind]. eexists _, _. split; [reflexivity|]. rewrite T', Vc. split; [split; [exact W'|congruence]|reflexivity].
  - destruct W1. constructor; cbn; assumption.
Qed.

(** ** run_langevin *)
Lemma lupdate_good n s zl zr (lc : lchain T) : wf n s (base lc) -> 2 <= n -> hs_ok (vars (base lc)) -> noise_finite N lc ->
  exists lc', lupdate N zl zr lc = Ok lc' /\ wf n s (base lc') /\ vars (base lc') = vars (base lc) /\ gamma lc' = gamma lc /\
    t (base lc') = nadd N (t (base lc)) (c_dt (vars (base lc))).
Proof.
  intros W Hn Hh Z. destruct (act_returns N n s lc W Hh (Alupdate zl zr) Hn Z) as (lc' & E & W' & V' & G').
  exists lc'. cbn [act] in E. split; [exact E|]. repeat (split; [assumption|]).
  unfold lupdate in E. cbv zeta in E. apply bind_ok in E. destruct E as (he & _ & E). apply bind_ok in E. destruct E as (hn & _ & E).
  apply bind_ok in E. destruct E as (sp & _ & E). injection E as <-. reflexivity.
Qed.
Theorem run_langevin_total fuel g rg conf f : quarter N -> usable N conf -> (2 <= ssize conf)%Z ->
  nfinite N (nsqrt N (ndiv N (nmul N (nmul N (nofZ N 2) g) (c_dt conf)) (beta conf))) = true ->
  (strob conf = true -> ntou64 N (nround N (ndiv N (tau conf) (c_dt conf))) <> 0%Z) ->
  ends N (nopp N (trel conf)) (c_dt conf) (c_t conf) fuel -> returns (run_langevin N fuel g rg conf f).
Proof.
  intros Q U Hs2 Z St En. assert (U' := U). destruct U' as (C & Rg & H1 & H2 & Th & Rn & Off). unfold run_langevin. rewrite pool_ok by lia. cbn [bind].
  set (n := Z.to_nat (hsize conf)) in *. set (s := Z.to_nat (ssize conf)) in *. pose proof (conf_hs N conf C) as Hh.
  apply returns_bind.
  2:{ intros f' _. destruct (num_runs_small N conf Rg Rn) as [_ E2]. apply finish_total; [exact Rg|lia]. }
  apply returns_foldM. intros i h _. cbv zeta.
  destruct (new_wf N conf (dr_new (r_draws N rg i)) C ltac:(lia)) as (sc0 & E0 & W & V & Tt & _).
  destruct (lchain_new_shape N conf g (dr_new (r_draws N rg i)) sc0 E0) as (lc & -> & L1 & L2 & L3 & L4 & L5 & _ & L7). cbn [bind].
  assert (Wl : wf n s (base lc)) by (destruct W; constructor; rewrite ?L1, ?L2, ?L3, ?L5; assumption).
  apply returns_bind; [|intros; apply returns_ok]. unfold langevin_worker.
  assert (G : forall j k (lc : lchain T), wf n s (base lc) -> vars (base lc) = conf -> gamma lc = g -> exists lc',
     iterMi (fun k lc => lmetropolis_update N (dr_mc (r_draws N rg i) k) lc) k j lc = Ok lc' /\ wf n s (base lc') /\ vars (base lc') = conf /\ gamma lc' = g /\ t (base lc') = t (base lc)).
  { induction j as [|j IH]; intros k c Wc Vc Gc; cbn [iterMi]; [eauto 10|].
    destruct (act_returns N n s c Wc ltac:(rewrite Vc; exact Hh) (Alplain (dr_mc (r_draws N rg i) k))) as (c' & E & W' & V' & G'); [cbn; lia|exact I|]. cbn [act] in E. rewrite E. cbn [bind].
    destruct (IH (S k) c' W' ltac:(congruence) ltac:(congruence)) as (c2 & E2 & W2 & V2 & G2 & T2). exists c2. repeat (split; [assumption|]). rewrite T2.
    clear - E. unfold lmetropolis_update in E. cbv zeta in E. do 8 (apply bind_ok in E; destruct E as (? & _ & E)).
    apply bind_ok in E. destruct E as (b' & A & E). injection E as <-. cbn [base]. unfold accept in A. destruct (_ || _)%bool; [|injection A as <-; reflexivity].
    apply bind_ok in A. destruct A as (? & _ & A). injection A as <-. reflexivity. }
  destruct (G (Z.to_nat 20000000) 0 lc Wl ltac:(congruence) L7) as (lc1 & -> & W1 & V1 & G1 & T1). cbn [bind]. cbv zeta. rewrite V1.
  assert (LG : forall c : lchain T, wf n s (base c) -> vars (base c) = conf -> returns (lchain_log N c)).
  { intros c Wc Vc. apply forget_returns. apply (proj1 (query_total N n s c Wc ltac:(rewrite Vc; exact Hh) Qllog Q)). cbn. lia. }
  destruct (LG lc1 W1 V1) as [l0 ->]. cbn [bind].
  destruct (loop_total (fun lc : lchain T => t (base lc)) (c_t conf) (c_dt conf) (langevin_body N (r_noise N rg i) (ntou64 N (nround N (ndiv N (tau conf) (c_dt conf)))))
     (fun c => wf n s (base c) /\ vars (base c) = conf /\ gamma c = g)) with (fuel := fuel) (k := 0) (s := lc1) as (s' & l & -> & _); [|auto| |apply returns_ok].
  - intros k c (Wc & Vc & Gc). unfold langevin_body.
    destruct (lupdate_good n s (fst (r_noise N rg i k)) (snd (r_noise N rg i k)) c Wc ltac:(lia)) as (c' & -> & W' & V' & G' & T').
    { rewrite Vc. exact Hh. } { unfold noise_finite. rewrite Vc, Gc. exact Z. }
    cbn [bind]. rewrite V', Vc. destruct (due_total conf _ (t (base c')) St) as [b ->]. cbn [bind].
    assert (X : returns (if b then lchain_log N c' else Ok [])) by (destruct b; [apply LG; [exact W'|congruence]|apply returns_ok]).
    destruct X as [l ->]. cbn [bind]. eexists _, _. split; [reflexivity|]. rewrite T', Vc. split; [split; [exact W'|split; congruence]|reflexivity].
  - rewrite T1, L4, Tt. exact En.
Qed.

(** ** Monte-Carlo modes *)
Lemma mc_frame_total {A} (worker : draws N -> Z -> chain T -> res A) rg conf f (P : Z -> A -> Prop) :
  conf_ok N conf -> (1 <= threads conf)%Z -> (1 <= mc_points conf < 2 ^ 31)%Z ->
  (forall d n sc, (1 <= n)%Z -> chain_new N conf (dr_new d) = Ok sc -> exists a, worker d n sc = Ok a /\ P n a) ->
  exists parts l f', mc_split (threads conf) (mc_points conf) = Ok parts /\ zsum parts = mc_points conf /\
    mc_frame N worker rg conf f = Ok (l, f') /\ Forall2 P parts l.
Proof.
  intros C Th Pt W. destruct (mc_split_ok (threads conf) (mc_points conf) Th Pt) as (parts & E & _ & F & Sm). unfold mc_frame. rewrite E. cbn [bind].
  exists parts.
  assert (G : forall ps k l f, (forall i, i < length ps -> nth_error ps i = nth_error parts (k + i)) -> Forall (fun n => (1 <= n)%Z) ps ->
    exists l' f', foldM (fun i lf => let '(l, f) := lf in
      let* '(sc, f) := new_logged N conf i (dr_new (r_draws N rg i)) f in
      let* n := idx parts i in let* a := worker (r_draws N rg i) n sc in Ok (l ++ [a], f)) (seq k (length ps)) (l, f) = Ok (l ++ l', f') /\ Forall2 P ps l').
  { induction ps as [|p ps IH]; intros k l g Hn Hf; [exists [], g; rewrite app_nil_r; split; [reflexivity|constructor]|].
    cbn [length seq foldM]. unfold new_logged at 1. destruct (chain_new_ok N conf (dr_new (r_draws N rg k)) C) as (sc & En & _). rewrite En. cbn [bind].
    pose proof (Hn 0 ltac:(cbn; lia)) as H0. rewrite Nat.add_0_r in H0. cbn [nth_error] in H0. unfold idx at 1. rewrite <- H0. cbn [bind].
    inversion Hf as [|? ? Hp Hf']; subst. destruct (W (r_draws N rg k) p sc Hp En) as (a & -> & Pa). cbn [bind].
    destruct (IH (S k) (l ++ [a]) (if c_log conf then create (log_name (c_file conf) k) g else g)) as (l' & f' & -> & F2).
    - intros i Hi. specialize (Hn (S i) ltac:(cbn; lia)). cbn [nth_error] in Hn. rewrite Hn. f_equal. lia.
    - exact Hf'.
    - exists (a :: l'), f'. rewrite <- app_assoc. split; [reflexivity|]. constructor; assumption. }
  destruct (G parts 0 [] f ltac:(reflexivity) F) as (l & f' & E' & F2). exists l, f'. split; [reflexivity|]. split; [exact Sm|].
  rewrite range0. split; [exact E'|exact F2].
Qed.
Lemma mc_worker_total {A} upd inner (obs : chain T -> res A) conf d n sc : conf_ok N conf -> (1 <= ssize conf <= hsize conf)%Z ->
  sampler_ok N upd (Z.to_nat (hsize conf)) ->
  (forall sc, wf (Z.to_nat (hsize conf)) (Z.to_nat (ssize conf)) sc -> vars sc = conf -> returns (obs sc)) ->
  chain_new N conf (dr_new d) = Ok sc -> exists l, mc_worker N upd inner obs d n sc = Ok l /\ length l = Z.to_nat n.
Proof.
  intros C Hs Hu Ho E. destruct (new_wf N conf (dr_new d) C ltac:(lia)) as (sc0 & E0 & W & V & Tt & _).
  rewrite E0 in E. apply (f_equal (fun r => match r with Ok c => c | _ => sc end)) in E. subst sc0. unfold mc_worker.
  eapply (sample_loop_total N upd obs _ _ conf); try eassumption.
  intros d' sc' W' V'. destruct (Hu _ d' sc' W') as (sc2 & E2 & W2 & V2); [rewrite V'; exact (conf_hs N conf C)|]. exists sc2. rewrite V2. auto.
Qed.
Lemma quarter_idx n s (sc : chain T) : quarter N -> wf n s sc -> 1 <= s ->
  returns (idx (spins sc) (Z.to_nat (ntou64 N (ndiv N (nofZ N (ssize (vars sc))) (nofZ N 4))))) /\
  returns (idx (spins sc) (Z.to_nat (ntou64 N (ndiv N (nmul N (nofZ N 3) (nofZ N (ssize (vars sc)))) (nofZ N 4))))).
Proof.
  intros Q W Hs. destruct W as [w1 w2 w3 w4 w5 w6 w7]. 
  destruct (Q (ssize (vars sc))) as [-> ->]; [lia|].
  split; apply returns_idx; rewrite w5, w2.
  - apply Nat2Z.inj_lt. rewrite Z2Nat.id by (apply Z.div_pos; lia). apply Z.div_lt_upper_bound; lia.
  - apply Nat2Z.inj_lt. rewrite Z2Nat.id by (apply Z.div_pos; lia). apply Z.div_lt_upper_bound; lia.
Qed.
(** the queries used below *)
Lemma q_rets n s (sc : chain T) : quarter N -> wf n s sc -> hs_ok (vars sc) ->
  returns (m N sc) /\ returns (m_tot N sc) /\ (1 <= n -> returns (total_energy2 N sc)) /\ (1 <= s -> returns (system_energy N sc)) /\ (1 <= s -> returns (mc_system_energy N sc)).
Proof.
  intros Q W Hh. assert (A : forall q, query_needs q n s -> returns (ask N q (mkL sc (nofZ N 0)))) by (intros q Hq; apply (query_ret N sc n s q Q W Hh Hq)).
  repeat split; intros; apply forget_returns.
  - exact (A Qm I).
  - exact (A Qm_tot I).
  - exact (A Qtotal_energy2 ltac:(assumption)).
  - exact (A Qsystem_energy ltac:(assumption)).
  - exact (A Qmc_system_energy ltac:(assumption)).
Qed.
Lemma mc_line_total n s (sc : chain T) : quarter N -> wf n s sc -> 1 <= s -> 1 <= n -> hs_ok (vars sc) -> returns (mc_line N sc).
Proof.
  intros Q W Hs Hn Hh. unfold mc_line. destruct (q_rets n s sc Q W Hh) as (Am & At & Ae & _ & As).
  destruct Am as [mm ->]. cbn [bind]. destruct At as [mt ->]. cbn [bind]. cbv zeta. destruct (Ae Hn) as [e ->]. cbn [bind]. destruct (As Hs) as [es ->]. cbn [bind].
  destruct (quarter_idx n s sc Q W Hs) as [[x ->] [y ->]]. apply returns_ok.
Qed.
Lemma magfull_sampler n : 2 <= n -> sampler_ok N (metropolis_update_mag_full N) n.
Proof. intro H. apply (sampler_of N (@Amagfull N)); cbn; auto. Qed.
Lemma magnus_sampler n : 2 <= n -> sampler_ok N (metropolis_update_magnus N) n.
Proof. intro H. apply (sampler_of N (@Amagnus N)); cbn; auto. Qed.
Lemma run_mc_with_total upd rg conf f : quarter N -> samplable N conf -> sampler_ok N upd (Z.to_nat (hsize conf)) -> returns (run_mc_with N upd rg conf f).
Proof.
  intros Q (C & Hs & Th & Pt) Hu. unfold run_mc_with. cbv zeta.
  destruct (mc_frame_total (mc_worker N upd 1000000 (mc_line N)) rg conf (append "mc_live.dat" [] f) (fun n l => length l = Z.to_nat n) C Th Pt) as (ps & l & f' & _ & _ & -> & _); [|apply returns_ok].
  intros d n sc _ E. eapply mc_worker_total; try eassumption. intros c Wc Vc. eapply mc_line_total; try eassumption; try lia. rewrite Vc. exact (conf_hs N conf C).
Qed.
Theorem run_mc_total rg conf f : quarter N -> samplable N conf -> returns (run_mc N rg conf f).
Proof. intros Q S. apply run_mc_with_total; [exact Q|exact S|]. apply plain_sampler. destruct S as (_ & H & _). lia. Qed.
Theorem run_mc_magnus_total rg conf f : quarter N -> samplable N conf -> (2 <= hsize conf)%Z -> returns (run_mc_magnus N rg conf f).
Proof. intros Q S H2. apply run_mc_with_total; [exact Q|exact S|]. apply magfull_sampler. lia. Qed.

(** ** Histograms and trajectories *)
Lemma hist_head_total n s (sc : chain T) x : quarter N -> wf n s sc -> 1 <= s -> hs_ok (vars sc) -> returns (hist_head N x sc).
Proof.
  intros Q W Hs Hh. unfold hist_head. destruct (q_rets n s sc Q W Hh) as ([mm ->] & _ & _ & As & _). cbn [bind]. cbv zeta. destruct (As Hs) as [es ->]. apply returns_ok.
Qed.
Lemma hist_line_total n s (sc : chain T) i : quarter N -> wf n s sc -> 1 <= s -> hs_ok (vars sc) -> returns (hist_line N i sc).
Proof.
  intros Q W Hs Hh. unfold hist_line. destruct (hist_head_total n s sc (nofZ N (Z.of_nat i)) Q W Hs Hh) as [h ->]. cbn [bind]. cbv zeta.
  destruct (quarter_idx n s sc Q W Hs) as [[x ->] [y ->]]. apply returns_ok.
Qed.
Lemma hist_loop_total n s conf step : quarter N -> 1 <= s -> hs_ok conf ->
  (forall i sc, wf n s sc -> vars sc = conf -> exists sc', step i sc = Ok sc' /\ wf n s sc' /\ vars sc' = conf) ->
  forall k i sc, wf n s sc -> vars sc = conf -> exists sc' l, hist_loop N step i k sc = Ok (sc', l) /\ wf n s sc' /\ vars sc' = conf /\ length l = k.
Proof.
  intros Q Hs Hh St. induction k as [|k IH]; intros i sc W V; cbn [hist_loop]; [eauto 6|].
  destruct (St i sc W V) as (c1 & -> & W1 & V1). cbn [bind]. destruct (hist_line_total n s c1 i Q W1 Hs) as [l ->]; [rewrite V1; exact Hh|]. cbn [bind].
  destruct (IH (S i) c1 W1 V1) as (c2 & l2 & -> & W2 & V2 & L2). cbn [bind]. eexists _, _. split; [reflexivity|]. cbn. auto.
Qed.
Lemma mc_steps_total upd d n s conf : sampler_ok N upd n -> hs_ok conf ->
  forall i (sc : chain T), wf n s sc -> vars sc = conf -> exists sc', mc_steps N upd d i sc = Ok sc' /\ wf n s sc' /\ vars sc' = conf.
Proof.
  intros Hu Hh i sc W V. apply (iterMi_wf N upd n s conf d); [|exact W|exact V].
  intros d' sc' W' V'. destruct (Hu s d' sc' W') as (sc2 & E2 & W2 & V2); [rewrite V'; exact Hh|]. exists sc2. rewrite V2. auto.
Qed.
Lemma updates_total n s conf : 2 <= n -> hs_ok conf -> forall k (sc : chain T), wf n s sc -> vars sc = conf ->
  exists sc', iterM (update N) k sc = Ok sc' /\ wf n s sc' /\ vars sc' = conf /\ t sc' = Nat.iter k (fun y => nadd N y (c_dt conf)) (t sc).
Proof.
  intros Hn Hh. induction k as [|k IH]; intros sc W V; cbn [iterM]; [eauto|].
  destruct (update_good n s sc W Hn) as (c1 & -> & W1 & V1 & T1); [rewrite V; exact Hh|]. cbn [bind].
  destruct (IH c1 W1 ltac:(congruence)) as (c2 & E2 & W2 & V2 & T2). exists c2. repeat (split; [assumption|]). rewrite T2, T1, V. exact (iter_swap (fun y => nadd N y (c_dt conf)) k (t sc)).
Qed.
Theorem gen_hist_magnus_total samples rg conf f : quarter N -> steppable N conf -> returns (gen_hist_magnus N samples rg conf f).
Proof.
  intros Q (C & H1 & H2 & _). unfold gen_hist_magnus. cbv zeta. set (conf1 := set_hist_conf N conf).
  assert (C1 : conf_ok N conf1) by exact C. assert (D1 : hsize conf1 = hsize conf) by reflexivity. assert (D2 : ssize conf1 = ssize conf) by reflexivity. unfold new_logged.
  destruct (new_wf N conf1 (dr_new (r_draws N rg 0)) C1 ltac:(lia)) as (sc & -> & W & V & _). cbn [bind].
  destruct (hist_loop_total (Z.to_nat (hsize conf1)) (Z.to_nat (ssize conf1)) conf1 (mc_steps N (metropolis_update_magnus N) (dr_mc (r_draws N rg 0))) Q ltac:(lia) (conf_hs N conf1 C1)
    (mc_steps_total _ _ _ _ conf1 (magnus_sampler (Z.to_nat (hsize conf1)) ltac:(lia)) (conf_hs N conf1 C1)) samples 0 sc W V) as (c2 & l & -> & _). apply returns_ok.
Qed.
Theorem gen_hist_dynamics_total samples rg conf f : quarter N -> steppable N conf -> 1 <= samples -> returns (gen_hist_dynamics N samples rg conf f).
Proof.
  intros Q (C & H1 & H2 & Th) Hsm. unfold gen_hist_dynamics. cbv zeta. rewrite pool_ok by (unfold mc_threads; destruct (Z.of_nat samples <=? threads conf)%Z; lia). cbn [bind].
  apply returns_bind; [|intros [l g] _; apply returns_ok]. apply returns_foldM. intros i [l g] _. unfold new_logged.
  destruct (new_wf N conf (dr_new (r_draws N rg i)) C ltac:(lia)) as (sc & -> & W & V & _). cbn [bind].
  destruct (updates_total (Z.to_nat (hsize conf)) (Z.to_nat (ssize conf)) conf ltac:(lia) (conf_hs N conf C) (Z.to_nat (ntou64 N (ndiv N (c_t conf) (c_dt conf)))) sc W V) as (c1 & -> & W1 & V1 & _). cbn [bind].
  destruct (hist_head_total (Z.to_nat (hsize conf)) (Z.to_nat (ssize conf)) c1 (nofZ N (Z.of_nat i)) Q W1 ltac:(lia)) as [h ->]; [rewrite V1; exact (conf_hs N conf C)|]. apply returns_ok.
Qed.
Theorem gen_single_traj_total fuel samples rg conf f : quarter N -> steppable N conf ->
  ntou64 N (ndiv N (tau conf) (c_dt conf)) <> 0%Z ->
  let x := Nat.iter (Z.to_nat (ntou64 N (ndiv N (nmul N (nofZ N 30) (tau conf)) (c_dt conf)))) (fun y => nadd N y (c_dt conf)) (nopp N (trel conf)) in
  ends N x (c_dt conf) (nmul N (nadd N (nofZ N (Z.of_nat samples)) (nofZ N 30)) (tau conf)) fuel -> returns (gen_single_traj N fuel samples rg conf f).
Proof.
  intros Q (C & H1 & H2 & Th) Hc x En. unfold gen_single_traj. cbv zeta. unfold new_logged.
  destruct (new_wf N conf (dr_new (r_draws N rg 0)) C ltac:(lia)) as (sc & -> & W & V & Tt & _). cbn [bind].
  destruct (updates_total (Z.to_nat (hsize conf)) (Z.to_nat (ssize conf)) conf ltac:(lia) (conf_hs N conf C) (Z.to_nat (ntou64 N (ndiv N (nmul N (nofZ N 30) (tau conf)) (c_dt conf)))) sc W V) as (c1 & -> & W1 & V1 & T1). cbn [bind].
  rewrite Tt in T1.
  match goal with |- context [time_loop N t ?tm ?b fuel 0 c1] =>
    destruct (loop_total t tm (c_dt conf) b (fun c => wf (Z.to_nat (hsize conf)) (Z.to_nat (ssize conf)) c /\ vars c = conf)) with (fuel := fuel) (k := 0) (s := c1) as (s' & l & -> & _) end;
    [|auto|rewrite T1; exact En|apply returns_ok].
  intros k c [Wc Vc]. unfold traj_body. destruct (update_good (Z.to_nat (hsize conf)) (Z.to_nat (ssize conf)) c Wc ltac:(lia)) as (c' & -> & W' & V' & T'); [rewrite Vc; exact (conf_hs N conf C)|]. cbn [bind].
  destruct (Z.eqb_spec (ntou64 N (ndiv N (tau conf) (c_dt conf))) 0); [contradiction|]. rewrite T', Vc.
  destruct (_ =? 0)%Z; [|eexists _, _; split; [reflexivity|]; split; [split; [exact W'|congruence]|rewrite T', Vc; reflexivity]].
  destruct (hist_head_total (Z.to_nat (hsize conf)) (Z.to_nat (ssize conf)) c' (nadd N (t c) (c_dt conf)) Q W' ltac:(lia)) as [h ->]; [rewrite V', Vc; exact (conf_hs N conf C)|]. cbn [bind].
  eexists _, _; split; [reflexivity|]; split; [split; [exact W'|congruence]|rewrite T', Vc; reflexivity].
Qed.

(** ** run_tau *)
Theorem run_tau_total fuel taus steps rg conf f : quarter N -> steppable N conf ->
  (forall x, In x taus -> ends N (nopp N (trel conf)) (tau_dt N x) (nmul N (nofZ N steps) x) fuel) -> returns (run_tau N fuel taus steps rg conf f).
Proof.
  intros Q (C & H1 & H2 & Th) En. unfold run_tau. rewrite pool_ok by lia. cbn [bind]. cbv zeta.
  apply returns_bind; [|intros [l g] _; apply returns_ok]. apply returns_foldM. intros i [l g] Hi. unfold range in Hi. apply in_seq in Hi.
  destruct (nth_error taus i) as [x|] eqn:Ex; [|apply nth_error_None in Ex; lia]. unfold idx. rewrite Ex. cbn [bind]. unfold new_logged.
  destruct (new_wf N conf (dr_new (r_draws N rg i)) C ltac:(lia)) as (sc & -> & W & V & Tt & _). cbn [bind].
  set (v := set_ct _ _). set (n := Z.to_nat (hsize conf)) in *. set (s := Z.to_nat (ssize conf)) in *.
  assert (Wv : wf n s (set_vars sc v)).
  { destruct W. constructor; cbn; rewrite ?V in *; assumption. }
  assert (Hh : hs_ok v) by (unfold v; rewrite V; exact (conf_hs N conf C)).
  apply returns_bind; [|intros [l0 o] _; apply returns_ok]. unfold tau_worker.
  destruct (thermalise_ok N _ _ (dr_mc (r_draws N rg i)) 20000000 (set_vars sc v) Wv ltac:(lia) Hh) as (sc1 & -> & W1 & V1 & T1 & _). cbn [bind]. change (vars (set_vars sc v)) with v in V1.
  destruct (chain_log_ok N n s sc1 W1 ltac:(rewrite V1; exact Hh) Q ltac:(lia)) as [l0 ->]. cbn [bind]. rewrite V1.
  destruct (loop_total t (c_t v) (c_dt v) (plain_body N) (fun c => wf n s c /\ vars c = v)) with (fuel := fuel) (k := 0) (s := sc1) as (s' & l1 & -> & W2 & V2).
  - intros k c [Wc Vc]. unfold plain_body. destruct (update_good n s c Wc ltac:(lia)) as (c' & -> & W' & V' & T'); [rewrite Vc; exact Hh|]. cbn [bind].
    eexists _, _; split; [reflexivity|]; split; [split; [exact W'|congruence]|rewrite T', Vc; reflexivity].
  - auto.
  - rewrite T1. cbn [set_vars t]. rewrite Tt. apply En. eapply nth_error_In; exact Ex.
  - cbn [bind]. destruct (q_rets n s s' Q W2 ltac:(rewrite V2; exact Hh)) as (Am & _ & Ae & As & _).
    destruct (As ltac:(lia)) as [es ->]. cbn [bind]. destruct (Ae ltac:(lia)) as [e ->]. cbn [bind]. destruct Am as [mm ->]. apply returns_ok.
Qed.

(** ** trajectory_mean_e *)
Theorem trajectory_total rg conf f : quarter N -> steppable N conf ->
  (1 <= ntou64 N (ndiv N (tau conf) (c_dt conf)))%Z -> (99 * ntou64 N (ndiv N (tau conf) (c_dt conf)) < 2 ^ 64)%Z ->
  returns (trajectory_mean_e N rg conf f).
Proof.
  intros Q (C & H1 & H2 & Th) Hc Hb. unfold trajectory_mean_e. rewrite pool_ok by lia. cbn [bind].
  apply returns_bind; [|intros [l g] _; apply returns_ok]. apply returns_foldM. intros i [l g] _. unfold new_logged.
  destruct (new_wf N conf (dr_new (r_draws N rg i)) C ltac:(lia)) as (sc & -> & W & V & Tt & _). cbn [bind].
  destruct (thermalise_ok N _ _ (dr_mc (r_draws N rg i)) 20000000 sc W ltac:(lia)) as (sc1 & -> & W1 & V1 & T1 & _); [rewrite V; exact (conf_hs N conf C)|]. cbn [bind]. rewrite V in V1.
  assert (Hh : hs_ok (vars sc1)) by (rewrite V1; exact (conf_hs N conf C)).
  set (c := ntou64 N (ndiv N (tau conf) (c_dt conf))) in *.
  apply returns_bind; [|intros; apply returns_ok]. unfold traj_run. cbv zeta. rewrite V1. fold c.
  generalize 0%Z. generalize (Z.to_nat (ntou64 N (ndiv N (nmul N (nofZ N 1000) (tau conf)) (c_dt conf)))).
  clear - W1 V1 Q C H1 H2 Hc Hb. intros m. revert sc1 W1 V1. induction m as [|m IH]; intros sc W V cnt; cbn [traj_loop]; [apply returns_ok|].
  unfold traj_step. destruct (update_good (Z.to_nat (hsize conf)) (Z.to_nat (ssize conf)) sc W ltac:(lia)) as (c' & -> & W' & V' & T'); [rewrite V; exact (conf_hs N conf C)|]. cbn [bind].
  destruct (Z.eqb_spec c 0); [lia|].
  assert (X : returns (if (cnt mod c =? 0)%Z then if (2 ^ 64 <=? 99 * c)%Z then Panic Overflow else if (99 * c <? cnt)%Z then let* e := system_energy N c' in Ok (c', [e]) else Ok (c', []) else Ok (c', []))
     /\ forall p, (if (cnt mod c =? 0)%Z then if (2 ^ 64 <=? 99 * c)%Z then Panic Overflow else if (99 * c <? cnt)%Z then let* e := system_energy N c' in Ok (c', [e]) else Ok (c', []) else Ok (c', [])) = Ok p -> fst p = c').
  { destruct (cnt mod c =? 0)%Z; [|split; [apply returns_ok|intros p [= <-]; reflexivity]]. destruct (Z.leb_spec (2 ^ 64) (99 * c)); [lia|].
    destruct (99 * c <? cnt)%Z; [|split; [apply returns_ok|intros p [= <-]; reflexivity]].
    destruct (q_rets (Z.to_nat (hsize conf)) (Z.to_nat (ssize conf)) c' Q W' ltac:(rewrite V', V; exact (conf_hs N conf C))) as (_ & _ & _ & As & _). destruct (As ltac:(lia)) as [es ->]. cbn [bind].
    split; [apply returns_ok|intros p [= <-]; reflexivity]. }
  destruct X as [[[c2 l2] E2] X2]. specialize (X2 _ E2). cbn in X2. subst c2. rewrite E2. cbn [bind].
  destruct (IH c' W' ltac:(congruence) (cnt + 1)%Z) as [l3 ->]. apply returns_ok.
Qed.

(** ** Observables after a fit *)
Lemma observe_total upd inner energy d conf : conf_ok N conf -> (1 <= hsize conf)%Z -> sampler_ok N upd (Z.to_nat (hsize conf)) ->
  (forall sc, wf (Z.to_nat (hsize conf)) (Z.to_nat (hsize conf)) sc -> hs_ok (vars sc) -> returns (energy (set_ssize conf (hsize conf)) sc)) ->
  quarter N -> exists r0 r1 r2 r3, observe N upd inner energy d conf = Ok (r0, r1, r2, r3, set_ssize conf (hsize conf)).
Proof.
  intros C H1 Hu He Q. unfold observe. cbv zeta. set (conf1 := set_ssize conf (hsize conf)) in *. assert (C1 : conf_ok N conf1) by exact C.
  destruct (new_wf N conf1 (dr_new d) C1 ltac:(cbn; lia)) as (sc & -> & W & V & _). cbn [bind].
  match goal with |- context [sample_loop N upd ?o _ _ _ _ _] => destruct (sample_loop_total N upd o (Z.to_nat (hsize conf)) (Z.to_nat (hsize conf)) conf1 (Z.to_nat inner) (dr_mc d)) with (j := Z.to_nat 8000) (k := 0) (sc := sc) as (l & -> & _) end.
  - intros d' sc' W' V'. destruct (Hu _ d' sc' W') as (sc2 & E2 & W2 & V2); [rewrite V'; exact (conf_hs N conf1 C1)|]. exists sc2. rewrite V2. auto.
  - intros c Wc Vc. assert (Hh : hs_ok (vars c)) by (rewrite Vc; exact (conf_hs N conf1 C1)). destruct (He c Wc Hh) as [e ->]. cbn [bind].
    destruct (q_rets _ _ c Q Wc Hh) as ([mm ->] & _). apply returns_ok.
  - exact W.
  - exact V.
  - cbn [bind]. eauto.
Qed.

(** ** run_mc_profile *)
Lemma add_at_good (l : list T) i x : i < length l -> exists l', add_at N l i x = Ok l' /\ length l' = length l.
Proof.
  intros H. unfold add_at. destruct (returns_idx l i H) as [y ->]. cbn [bind]. unfold set_idx. destruct (Nat.ltb_spec i (length l)); [|lia].
  eexists. split; [reflexivity|]. apply upd_length.
Qed.
Lemma profile_good size pts alive (ms : list (pmsg N)) : (Z.of_nat size * Z.of_nat pts < 2 ^ 64)%Z ->
  Forall (fun m => p_i m < size) ms -> size * pts <= length ms -> exists ls, profile_in_bg N size pts alive ms = Ok ls /\ length ls = size.
Proof.
  intros Hb Hi Hl. unfold profile_in_bg. destruct (Z.leb_spec (2 ^ 64) (Z.of_nat size * Z.of_nat pts)); [lia|].
  assert (Z0 : length (repeat (nofZ N 0) size) = size) by apply repeat_length.
  assert (RL : forall ms, Forall (fun m => p_i m < size)%nat ms -> forall a : pacc N,
    length (a_e a) = size -> length (a_x a) = size -> length (a_y a) = size -> length (a_z a) = size ->
    exists a', foldM (profile_recv N) ms a = Ok a' /\ length (a_e a') = size /\ length (a_x a') = size /\ length (a_y a') = size /\ length (a_z a') = size).
  { clear. induction 1 as [|m ms Hm H IH]; intros a H1 H2 H3 H4; [exists a; auto|]. cbn [foldM]. unfold profile_recv at 1.
    destruct (add_at_good (a_e a) (p_i m) (p_e m)) as (e & -> & L1); [lia|]. cbn [bind].
    destruct (add_at_good (a_x a) (p_i m) (p_x m)) as (x & -> & L2); [lia|]. cbn [bind].
    destruct (add_at_good (a_y a) (p_i m) (p_y m)) as (y & -> & L3); [lia|]. cbn [bind].
    destruct (add_at_good (a_z a) (p_i m) (p_z m)) as (z & -> & L4); [lia|]. cbn [bind].
    apply IH; cbn; lia. }
  destruct (RL (firstn (size * pts) ms)) with (a := mkAcc (N := N) (repeat (nofZ N 0) size) (repeat (nofZ N 0) size) (repeat (nofZ N 0) size) (repeat (nofZ N 0) size))
    as (a & -> & L1 & L2 & L3 & L4); try exact Z0.
  { apply Forall_forall. intros m Hm. rewrite Forall_forall in Hi. apply Hi. rewrite <- (firstn_skipn (size * pts) ms). apply in_or_app. left. exact Hm. }
  cbn [bind]. destruct (Nat.ltb_spec (length ms) (size * pts)); [lia|].
  match goal with |- exists ls, mapM ?f _ = _ /\ _ => destruct (mapM_spec f (fun _ _ => True) (range 0 size)) as (ls & -> & F) end.
  - intros i Hi'. unfold range in Hi'. apply in_seq in Hi'.
    destruct (returns_idx (a_e a) i ltac:(lia)) as [e ->]. cbn [bind].
    destruct (returns_idx (a_x a) i ltac:(lia)) as [x ->]. cbn [bind].
    destruct (returns_idx (a_y a) i ltac:(lia)) as [y ->]. cbn [bind].
    destruct (returns_idx (a_z a) i ltac:(lia)) as [z ->]. cbn [bind]. eauto.
  - exists ls. split; [reflexivity|]. apply F2_length in F. unfold range in F. rewrite seq_length in F. lia.
Qed.
Lemma snapshots_total n s conf upd inner d : 1 <= n -> sampler_ok N upd n -> hs_ok conf -> forall j k (sc : chain T), wf n s sc -> vars sc = conf ->
  exists l, sample_loop N upd (snapshot N) inner d j k sc = Ok l /\ Forall (fun w => map p_i w = seq 0 n) l /\ length l = j.
Proof.
  intros Hn Hu Hh. induction j as [|j IH]; intros k sc W V; cbn [sample_loop]; [eauto|].
  destruct (iterMi_wf N upd n s conf d) with (j := inner) (k := k) (sc := sc) as (c1 & -> & W1 & V1); [|exact W|exact V|].
  { intros d' sc' W' V'. destruct (Hu s d' sc' W') as (sc2 & E2 & W2 & V2); [rewrite V'; exact Hh|]. exists sc2. rewrite V2. auto. }
  cbn [bind]. destruct (snapshot_total N n s c1 W1 Hn) as (ms & -> & M). cbn [bind]. destruct (IH (k + inner) c1 W1 V1) as (l & -> & F & L). cbn [bind].
  eexists. split; [reflexivity|]. split; [constructor; assumption|cbn; lia].
Qed.
Theorem run_mc_profile_total rg conf f : samplable N conf -> (forall ws, interleaving ws (r_msgs N rg ws)) -> returns (run_mc_profile N rg conf f).
Proof.
  intros (C & Hs & Th & Pt) IL. unfold run_mc_profile. cbv zeta. set (n := Z.to_nat (hsize conf)).
  destruct (mc_frame_total (fun d m sc => let* l := mc_worker N (metropolis_update N) 1000000 (snapshot N) d m sc in Ok (concat l)) rg conf (create "mc_profile.dat" f)
    (fun m (l : list (pmsg N)) => Forall (fun q => p_i q < n) l /\ length l = Z.to_nat m * n) C Th Pt) as (ps & l & f' & Es & Sm & -> & F2).
  { intros d m sc _ E. destruct (new_wf N conf (dr_new d) C ltac:(lia)) as (sc0 & E0 & W & V & Tt & _).
    rewrite E0 in E. apply (f_equal (fun r => match r with Ok c => c | _ => sc end)) in E. subst sc0. unfold mc_worker.
    destruct (snapshots_total n (Z.to_nat (ssize conf)) conf (metropolis_update N) (Z.to_nat 1000000) (dr_mc d)) with (j := Z.to_nat m) (k := 0) (sc := sc) as (l & -> & F & L);
      [unfold n; lia|apply plain_sampler; unfold n; lia|exact (conf_hs N conf C)|exact W|exact V|].
    cbn [bind]. eexists. split; [reflexivity|]. clear - F L. subst. rewrite <- L. clear L.
    induction F as [|w l Hw F IH]; [split; [constructor|reflexivity]|]. destruct IH as [I1 I2]. cbn [concat]. split.
    - apply Forall_app. split; [|exact I1]. apply Forall_forall. intros q Hq. apply (in_map p_i) in Hq. rewrite Hw in Hq. apply in_seq in Hq. lia.
    - rewrite app_length, I2. rewrite <- (map_length p_i w), Hw, seq_length. cbn. lia. }
  cbn [bind]. apply returns_bind; [|intros; apply returns_ok].
  assert (An : as_usize (hsize conf) = n) by (unfold as_usize; destruct C as (Hh & _); rewrite Z.mod_small by lia; reflexivity). rewrite An.
  destruct (mc_split_ok (threads conf) (mc_points conf) Th Pt) as (ps' & Es' & _ & F1 & _). rewrite Es in Es'. injection Es' as <-.
  assert (Ln : length (concat l) = Z.to_nat (mc_points conf) * n).
  { rewrite <- Sm. clear - F2 F1. induction F2 as [|p w ps l [_ Hw] F2 IH]; [reflexivity|]. cbn [concat]. inversion F1; subst. rewrite app_length, Hw, IH by assumption.
    assert (0 <= zsum ps)%Z. { match goal with H : Forall _ ps |- _ => clear - H; induction H as [|q qs Hq H IH]; [reflexivity|]; change (zsum (q :: qs)) with (q + zsum qs)%Z; lia end. }
    change (zsum (p :: ps)) with (p + zsum ps)%Z. rewrite Z2Nat.inj_add by lia. lia. }
  destruct (profile_good n (Z.to_nat (mc_points conf)) true (r_msgs N rg l)) as (ls & -> & _).
  - unfold n. destruct C as (Hh & _). nia.
  - apply (il_forall _ l); [apply IL|]. clear - F2. induction F2 as [|p w ps l [Hw _] F2 IH]; constructor; assumption.
  - rewrite (il_length l) by apply IL. rewrite Ln. lia.
  - apply returns_ok.
Qed.
End Gen.
