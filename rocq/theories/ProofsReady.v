(** Invocations that complete. *)
From Coq Require Import String SpecFloat Reals Lra Lia List ZArith Arith Bool.
From Verif Require Import Num Monad NumR NumF64 Spin Config Chain Langevin Fit Files Toml Writers Average Runs Main SpecVec SpecChain SpecTotal SpecToml SpecWriters SpecRuns SpecFit SpecMain SpecReady
  ProofsChain ProofsNew ProofsTotal ProofsToml ProofsFrame ProofsSim ProofsFit ProofsFitR ProofsMain ProofsHistory ProofsFlow ProofsRunTotal.
Import ListNotations.
Local Close Scope R_scope.
Local Open Scope nat_scope.

Definition trees N := forall s, tree0 N (nlit N 1 (low_dec s)).
Lemma arith_quarter N : arithmetic N -> quarter N.
Proof. destruct 1; [exact quarter_ER|apply quarter_F64]. Qed.
Lemma arith_trees N : arithmetic N -> trees N.
Proof. destruct 1; intros s; [apply tree_ER|exact (tree_F64 L s)]. Qed.

Section F.
Context (N : NumOps) (Q : quarter N) (TR : trees N).
Notation T := (num N).
Context (fuel : nat) (w : world N) (a : args T) (conf : config T) (RD : ready N fuel w a conf) (RG : in_range conf).

Definition tau0 : T := match a_tau a with Some x => x | None => tau conf end.
Definition Inv (k : Z) (c : config T) : Prop :=
  conf_ok N c /\ in_range c /\ (2 <= ssize c <= hsize c)%Z /\ threads c = threads conf /\ mc_points c = mc_points conf /\
  runs c = runs conf /\ (offset c + k * runs conf < 2 ^ 32)%Z /\ c_dt c = c_dt conf /\ c_t c = c_t conf /\ trel c = trel conf /\
  (tau c = tau0 \/ periods N a (tau c)).

Lemma inv_usable k c : Inv k c -> (1 <= k)%Z -> usable N c.
Proof.
  intros (A1 & A2 & A3 & A4 & A5 & A6 & A7 & _) Hk. destruct RD as [_ _ (B1 & B2 & B3 & B4) (B5 & B6) _ _ _ _ _ _ _ _].
  unfold usable. rewrite A4, A6. split; [exact A1|]. split; [exact A2|]. repeat split; try lia; nia.
Qed.
Lemma inv_samplable k c : Inv k c -> samplable N c.
Proof.
  intros (A1 & A2 & A3 & A4 & A5 & A6 & A7 & _). destruct RD as [_ _ (B1 & B2 & B3 & B4) _ _ _ _ _ _ _ _ _].
  unfold samplable. rewrite A4, A5. split; [exact A1|]. repeat split; lia.
Qed.
Lemma inv_steppable k c : Inv k c -> steppable N c.
Proof.
  intros (A1 & A2 & A3 & A4 & A5 & A6 & A7 & _). destruct RD as [_ _ (B1 & B2 & B3 & B4) _ _ _ _ _ _ _ _ _].
  unfold steppable. rewrite A4. split; [exact A1|]. repeat split; lia.
Qed.
Lemma inv_period k c : Inv k c -> period_ok N (c_dt c) (tau c) /\
  forall o, a_singletraj a = Some o -> traj_ends N (trel c) (c_dt c) (tau c) (match o with Some z => Z.of_nat (Z.to_nat z) | None => 1000 end) fuel.
Proof.
  intros (_ & _ & _ & _ & _ & _ & _ & A8 & _ & A10 & A11). rewrite A8, A10. apply (rd_period _ _ _ _ _ RD). exact A11.
Qed.
Lemma inv_time k c : Inv k c -> ends N (nopp N (trel c)) (c_dt c) (c_t c) fuel.
Proof. intros (_ & _ & _ & _ & _ & _ & _ & A8 & A9 & A10 & _). rewrite A8, A9, A10. exact (rd_time _ _ _ _ _ RD). Qed.
Lemma inv_back k c : Inv k c -> a_response a = true -> ends N (nopp N (c_t c)) (c_dt c) (c_t c) fuel.
Proof. intros (_ & _ & _ & _ & _ & _ & _ & A8 & A9 & A10 & _) H. rewrite A8, A9. exact (rd_back _ _ _ _ _ RD H). Qed.
Lemma inv_fit k c s : Inv k c -> fit_ok N s c.
Proof.
  intros ((C1 & C2 & C3 & C4 & C5) & A2 & A3 & _). unfold fit_ok. cbv zeta.
  destruct s; cbn [fit_conf set_ssize ssize hsize jvar hvar hfield hs]; repeat split; try assumption; lia.
Qed.
Lemma inv_find k c s rng : Inv k c -> exists b, find_of N s fuel rng c = Ok (b, fit_conf s c).
Proof.
  intros H. destruct (find_total N s fuel rng c Q (TR s) (inv_fit k c s H)) as [X _].
  destruct (X (rd_fuel _ _ _ _ _ RD)) as (b & E & _). eauto.
Qed.

(** changes of the configuration that keep the invariant *)
Lemma inv_beta k c b : Inv k c -> Inv k (set_beta c b).
Proof. exact (fun H => H). Qed.
Lemma inv_ssize k c : Inv k c -> Inv k (set_ssize c (hsize c)).
Proof.
  intros (A1 & A2 & A3 & A4). split; [exact A1|]. split; [unfold in_range in *; cbn; lia|]. split; [cbn; lia|exact A4].
Qed.
Lemma inv_hsize k c : Inv k c -> Inv k (set_hsize c (ssize c)).
Proof.
  intros (A1 & A2 & A3 & A4). split; [unfold conf_ok in *; cbn; destruct A1 as (B1 & B2); split; [lia|exact B2]|].
  split; [unfold in_range in *; cbn; lia|]. split; [cbn; lia|exact A4].
Qed.
Lemma inv_hs k c x y z : Inv k c -> Inv k (set_hs c [x; y; z]).
Proof. intros ((C1 & C2 & C3 & C4 & C5) & A). split; [|exact A]. repeat split; cbn; try assumption; try lia. Qed.
Lemma inv_hfield k c x y z : Inv k c -> Inv k (set_hfield c [x; y; z]).
Proof. intros ((C1 & C2 & C3 & C4 & C5) & A). split; [|exact A]. repeat split; cbn; try assumption; try lia. Qed.
Lemma inv_tau k c x : Inv k c -> periods N a x -> Inv k (set_tau c x).
Proof.
  intros (A1 & A2 & A3 & A4 & A5 & A6 & A7 & A8 & A9 & A10 & A11) H. unfold Inv. cbn [tau set_tau]. repeat (split; [assumption|]). right. exact H.
Qed.
Lemma inv_ednsty k c x : Inv k c -> Inv k (set_ednsty c x).
Proof. exact (fun H => H). Qed.
Lemma inv_fitconf k c s : Inv k c -> Inv k (fit_conf s c).
Proof. intros H. destruct s; try exact H. exact (inv_ssize k c H). Qed.
Lemma inv_hist k c : Inv k c -> Inv k (set_hist_conf N c).
Proof. exact (fun H => H). Qed.
Lemma inv_finish k c num f c' f' : Inv k c -> (1 <= k)%Z -> num = num_runs N c -> finish N c num f = Ok (c', f') -> Inv (k - 1) c'.
Proof.
  intros I Hk -> E. assert (I' := I). destruct I' as (A1 & A2 & A3 & A4 & A5 & A6 & A7 & A8). apply finish_left in E.
  destruct (rd_room _ _ _ _ _ RD) as [B1 B2]. rewrite E, A6.
  assert (X : (runs conf mod 2 ^ 32 = runs conf)%Z) by (apply Z.mod_small; unfold in_range in RG; lia). rewrite X.
  split; [exact A1|]. split; [unfold in_range in *; cbn; nia|]. split; [exact A3|]. split; [exact A4|]. split; [exact A5|]. split; [exact A6|].
  split; [cbn; lia|]. exact A8.
Qed.

(** Steps of main *)
Definition good (P : state N -> Prop) (r : res (state N)) : Prop := exists s, r = Ok s /\ P s.
Definition at_conf (P : config T -> Prop) (s : state N) : Prop := P (s_conf N s).
Lemma good_bind (P P' : state N -> Prop) (r : res (state N)) (g : state N -> res (state N)) :
  good P r -> (forall s, P s -> good P' (g s)) -> good P' (bind r g).
Proof. intros (s & -> & H) G. exact (G s H). Qed.
Lemma good_when {A} (P : state N -> Prop) (o : option A) g (s : state N) : P s -> (forall x, o = Some x -> good P (g x s)) -> good P (when N o g s).
Proof. intros H G. destruct o as [x|]; [exact (G x eq_refl)|exists s; auto]. Qed.
Lemma good_run (P P' : config T -> Prop) md mk (s : state N) : P (s_conf N s) ->
  (P (s_conf N s) -> exists c' f', mk (s_conf N s) (s_fs N s) = Ok (c', f') /\ P' c') -> good (at_conf P') (do_run N md mk s).
Proof. intros H G. unfold do_run. destruct (G H) as (c' & f' & -> & H'). cbn [bind]. eexists. split; [reflexivity|exact H']. Qed.
Lemma keep_conf (r : res (config T * fs T)) (P : config T -> Prop) (c : config T) : returns r -> (forall c' f', r = Ok (c', f') -> c' = c) -> P c -> exists c' f', r = Ok (c', f') /\ P c'.
Proof. intros [[c' f'] E] H Hp. exists c', f'. split; [exact E|]. rewrite (H _ _ E). exact Hp. Qed.

Ltac oks E := repeat (apply bind_ok in E; let x := fresh "x" in let H := fresh "H" in destruct E as (x & H & E);
   repeat match type of x with (_ * _)%type => destruct x as [x ?] end).

Lemma inv_obs k c upd inner en d : Inv k c -> sampler_ok N upd (Z.to_nat (hsize c)) ->
  (forall sc, wf (Z.to_nat (hsize c)) (Z.to_nat (hsize c)) sc -> hs_ok (vars sc) -> returns (en (set_ssize c (hsize c)) sc)) ->
  exists r0 r1 r2 r3, observe N upd inner en d c = Ok (r0, r1, r2, r3, set_ssize c (hsize c)).
Proof. intros (A1 & A2 & A3 & _) Hu He. apply observe_total; auto. lia. Qed.
Lemma plus_mx c0 (c : config T) sc : (1 <= hsize c)%Z -> wf (Z.to_nat (hsize c)) (Z.to_nat (hsize c)) sc -> hs_ok (vars sc) -> returns (energy_plus_mx N c0 sc).
Proof.
  intros H W Hh. destruct (q_rets N _ _ sc Q W Hh) as ([mm E1] & _ & _ & _ & A). destruct (A ltac:(lia)) as [e E2].
  unfold energy_plus_mx. rewrite E2. cbn [bind]. rewrite E1. apply returns_ok.
Qed.
Lemma obs_rot_total k c d : Inv k c -> exists r0 r1 r2 r3, get_obs_rot N d c = Ok (r0, r1, r2, r3, set_ssize c (hsize c)).
Proof. intros H. assert (A := H). destruct A as (_ & _ & A & _). apply (inv_obs k); [exact H|apply rot_sampler; lia|]. intros sc W Hh. eapply plus_mx; eauto. lia. Qed.
Lemma obs_maglab_total k c d : Inv k c -> exists r0 r1 r2 r3, get_obs_maglab N d c = Ok (r0, r1, r2, r3, set_ssize c (hsize c)).
Proof. intros H. assert (A := H). destruct A as (_ & _ & A & _). apply (inv_obs k); [exact H|apply maglab_sampler; lia|]. intros sc W Hh. eapply plus_mx; eauto. lia. Qed.
Lemma obsh_total k c d : Inv k c -> exists r0 r1 r2 r3, get_obsh N d c = Ok (r0, r1, r2, r3, set_ssize c (hsize c)).
Proof.
  intros H. assert (A := H). destruct A as (_ & _ & A & _). apply (inv_obs k); [exact H|apply plain_sampler; lia|]. intros sc W Hh.
  destruct (q_rets N _ _ sc Q W Hh) as (_ & _ & _ & _ & X). apply X. lia.
Qed.
Lemma obs_total k c d : Inv k c -> exists r0 r1 r2 r3, get_obs N d c = Ok (r0, r1, r2, r3, set_ssize c (hsize c)).
Proof.
  intros H. assert (A := H). destruct A as (_ & _ & A & _). apply (inv_obs k); [exact H|apply plain_sampler; lia|]. intros sc W Hh.
  destruct (q_rets N _ _ sc Q W Hh) as ([mm E1] & _ & _ & _ & X). destruct (X ltac:(lia)) as [e E2]. cbv zeta. rewrite E2. cbn [bind]. rewrite E1. apply returns_ok.
Qed.

Lemma good_fit k md name fd s ob mid te ce (st : state N) : Inv k ce -> (forall rng c, fd rng c = find_of N s fuel rng c) ->
  (forall c, Inv k c -> Inv k (mid c)) ->
  (forall d c, Inv k c -> exists r0 r1 r2 r3, ob d c = Ok (r0, r1, r2, r3, set_ssize c (hsize c))) ->
  good (at_conf (Inv k)) (fit_and_observe N md name w fd ob mid te ce st).
Proof.
  intros I Hf Hm Ho. unfold fit_and_observe. rewrite Hf. destruct (inv_find k ce s (r_draws N (w_rng N w md)) I) as [b ->]. cbn [bind].
  assert (I2 : Inv k (mid (set_beta (fit_conf s ce) b))) by (apply Hm, inv_beta, inv_fitconf, I).
  destruct (Ho (w_obs N w md) _ I2) as (r0 & r1 & r2 & r3 & ->). cbn [bind]. eexists. split; [reflexivity|]. exact (inv_ssize _ _ I2).
Qed.

Lemma strobe_ok k c : Inv k c -> strob c = true -> ntou64 N (ndiv N (tau c) (c_dt c)) <> 0%Z.
Proof. intros I _. destruct (inv_period k c I) as [(A & _) _]. lia. Qed.
Lemma strobe_round k c : Inv k c -> strob c = true -> ntou64 N (nround N (ndiv N (tau c) (c_dt c))) <> 0%Z.
Proof. intros I _. destruct (inv_period k c I) as [(_ & _ & A) _]. lia. Qed.

Lemma before_good (s : state N) : Inv 2 (s_conf N s) -> good (at_conf (Inv 2)) (main_before N fuel w a s).
Proof.
  intros I0. change (at_conf (Inv 2) s) in I0. unfold main_before.
  eapply good_bind.
  { apply good_when; [exact I0|]. intros x _. eexists. split; [reflexivity|exact I0]. }
  clear s I0. intros s I0. eapply good_bind.
  { apply good_when; [exact I0|]. intros x _. apply (good_run (Inv 2)); [exact I0|]. intros I. apply (keep_conf _ _ (s_conf N s)); [|intros ? ? E; oks E; cbn in E; congruence|exact I].
    apply returns_bind; [|intros [c f] _; apply returns_ok]. apply run_ext_total; [exact Q|eapply inv_usable; [exact I|lia]|exact (strobe_ok _ _ I)|exact (inv_time _ _ I)]. }
  clear s I0. intros s I0. cbv zeta. eapply good_bind.
  { apply good_when; [exact I0|]. intros l El. apply (good_run (Inv 2)); [exact I0|]. intros I. apply (keep_conf _ _ (s_conf N s)); [|unfold run_tau; intros ? ? E; oks E; cbn in E; congruence|exact I].
    apply run_tau_total; [exact Q|exact (inv_steppable _ _ I)|]. intros x Hx. assert (I' := I). destruct I' as (_ & _ & _ & _ & _ & _ & _ & _ & _ & A10 & _). rewrite A10. exact (rd_taus _ _ _ _ _ RD l x El Hx). }
  clear s I0. intros s I0. eapply good_bind.
  { apply good_when; [exact I0|]. intros x Ex. unfold do_adiab2. cbv zeta. set (c0 := set_hfield _ _).
    assert (I1 : Inv 2 c0) by (apply inv_hfield, inv_hs, inv_tau; [exact I0|left; exact Ex]).
    destruct (inv_find 2 c0 Sbeta2 (r_draws N (w_rng N w Madiab2)) I1) as [b Eb]. change (find_of N Sbeta2 fuel) with (find_beta2 N fuel) in Eb. rewrite Eb. cbn [bind].
    eexists. split; [reflexivity|]. exact I1. }
  clear s I0. intros s I0. eapply good_bind.
  { apply good_when; [exact I0|]. intros x _. apply (good_fit 2 _ _ _ Srot); [exact I0|reflexivity|auto|intros; eapply obs_rot_total; eauto]. }
  clear s I0. intros s I0. eapply good_bind.
  { apply good_when; [exact I0|]. intros x _. apply (good_fit 2 _ _ _ Smaglab); [exact I0|reflexivity|auto|intros; eapply obs_maglab_total; eauto]. }
  clear s I0. intros s I0. eapply good_bind.
  { apply good_when; [exact I0|]. intros x _. apply (good_fit 2 _ _ _ Sbeta); [apply inv_hsize, inv_hfield, inv_hs; exact I0|reflexivity|auto|intros; eapply obs_total; eauto]. }
  clear s I0. intros s I0. eapply good_bind.
  { apply good_when; [exact I0|]. intros x _. apply (good_fit 2 _ _ _ Sbetah); [apply inv_hfield, inv_hs; exact I0|reflexivity|intros; now apply inv_hs|intros; eapply obsh_total; eauto]. }
  clear s I0. intros s I0. eapply good_bind.
  { apply good_when; [exact I0|]. intros x _. unfold do_high. cbv zeta. set (c0 := set_hfield _ _).
    assert (I1 : Inv 2 c0) by (apply inv_hfield; exact I0). destruct (obsh_total 2 c0 (w_obs N w Mhigh) I1) as (r0 & r1 & r2 & r3 & ->). cbn [bind].
    eexists. split; [reflexivity|]. exact (inv_ssize _ _ I1). }
  clear s I0. intros s I0.
  apply good_when; [exact I0|]. intros x Ex. unfold do_adiabatic. cbv zeta. set (c0 := set_tau (s_conf N s) x).
  assert (I1 : Inv 2 c0) by (apply inv_tau; [exact I0|right; exact Ex]).
  destruct (inv_period 2 c0 I1) as [(P1 & P2 & _) _].
  destruct (trajectory_total N (w_rng N w Madiabatic) c0 (s_fs N s) Q (inv_steppable _ _ I1) P1 P2) as [[me f1] ->]. cbn [bind].
  set (c1 := set_hs _ _). assert (I2 : Inv 2 c1) by (apply inv_hs, inv_ednsty; exact I1).
  destruct (inv_find 2 c1 Sbeta (fun k => r_draws N (w_rng N w Madiabatic) (num_runs N c0 + k)%nat) I2) as [b Eb].
  change (find_of N Sbeta fuel) with (find_beta N fuel) in Eb. rewrite Eb. cbn [bind].
  assert (I3 : Inv 2 (set_beta (fit_conf Sbeta c1) b)) by (apply inv_beta, inv_fitconf; exact I2).
  destruct (obs_total 2 _ (w_obs N w Madiabatic) I3) as (r0 & r1 & r2 & r3 & ->). cbn [bind].
  eexists. split; [reflexivity|]. exact (inv_ssize _ _ I3).
Qed.

Definition Late (k : Z) (c : config T) : Prop := Inv k c /\ a_beta a = Some (beta c).
Lemma settle_good (s : state N) : Inv 2 (s_conf N s) -> good (at_conf (Late 2)) (settle_beta N fuel a s).
Proof.
  intros I. unfold settle_beta. destruct (a_beta a) as [b|] eqn:E; [|destruct (rd_beta _ _ _ _ _ RD E)]. cbn [bind].
  eexists. split; [reflexivity|]. split; [exact I|exact E].
Qed.
Lemma frame_late k worker rg c f : Late k c -> (1 <= k)%Z -> returns (run_frame N worker rg c f) -> exists c' f', run_frame N worker rg c f = Ok (c', f') /\ Late (k - 1) c'.
Proof.
  intros [I B] Hk [[c' f'] E]. exists c', f'. split; [exact E|]. assert (E' := E). apply frame_left in E'. apply run_frame_wrote in E. destruct E as [_ E].
  split; [exact (inv_finish k c _ _ _ _ I Hk eq_refl E)|]. rewrite E'. exact B.
Qed.

Definition late (k : Z) (s : state N) : Prop := Late k (s_conf N s) /\ (s_default N s = true -> Late 2 (s_conf N s)).
Lemma late_run (k k' : Z) md mk (s : state N) : late k s ->
  (Late k (s_conf N s) -> exists c' f', mk (s_conf N s) (s_fs N s) = Ok (c', f') /\ Late k' c') -> good (late k') (do_run N md mk s).
Proof. intros [H _] G. unfold do_run. destruct (G H) as (c' & f' & -> & H'). cbn [bind]. eexists. split; [reflexivity|]. split; [exact H'|discriminate]. Qed.
Lemma late_mono k s : late k s -> (1 <= k)%Z -> late (k - 1) s.
Proof.
  intros [[(A1 & A2 & A3 & A4 & A5 & A6 & A7 & A8) B] D] Hk. split; [|exact D]. split; [|exact B]. repeat (split; [assumption|]). split; [|exact A8].
  destruct (rd_room _ _ _ _ _ RD) as [B1 _]. nia.
Qed.

Lemma after_good (s : state N) : late 2 s -> good (late 0) (main_after N fuel w a s).
Proof.
  intros L0. unfold main_after. destruct (rd_modes _ _ _ _ _ RD) as (M1 & M2 & M3 & M4). rewrite M1, M2, M3, M4. cbn [flag when bind].
  eapply good_bind.
  { apply good_when; [exact L0|]. intros o Eo. apply (late_run 2); [exact L0|]. intros I. apply (keep_conf _ _ (s_conf N s)); [|unfold gen_hist_dynamics; intros ? ? E; oks E; cbn in E; congruence|exact I].
    apply gen_hist_dynamics_total; [exact Q|exact (inv_steppable _ _ (proj1 I))|]. unfold points. destruct o as [z|]; [|lia]. pose proof (rd_hist _ _ _ _ _ RD z Eo). lia. }
  clear s L0. intros s L0. eapply good_bind.
  { apply good_when; [exact L0|]. intros o Eo. apply (late_run 2); [exact L0|]. intros I. apply (keep_conf _ _ (set_hist_conf N (s_conf N s))); [|unfold gen_hist_magnus; intros ? ? E; oks E; cbv zeta in E; congruence|exact I].
    apply gen_hist_magnus_total; [exact Q|exact (inv_steppable _ _ (proj1 I))]. }
  clear s L0. intros s L0. eapply good_bind.
  { apply good_when; [exact L0|]. intros o Eo. apply (late_run 2); [exact L0|]. intros I. apply (keep_conf _ _ (s_conf N s)); [|unfold gen_single_traj; intros ? ? E; oks E; cbn in E; congruence|exact I].
    destruct (inv_period _ _ (proj1 I)) as [(P1 & _) P2]. specialize (P2 o Eo).
    apply gen_single_traj_total; [exact Q|exact (inv_steppable _ _ (proj1 I))|lia|]. destruct o as [z|]; exact P2. }
  clear s L0. intros s L0. eapply good_bind.
  { apply good_when; [exact L0|]. intros o Eo. apply (late_run 2); [exact L0|]. intros I. apply (keep_conf _ _ (s_conf N s)); [|unfold run_mc, run_mc_with; intros ? ? E; oks E; cbn in E; congruence|exact I].
    apply run_mc_total; [exact Q|exact (inv_samplable _ _ (proj1 I))]. }
  clear s L0. intros s L0. eapply good_bind.
  { apply good_when; [exact L0|]. intros o Eo. apply (late_run 2); [exact L0|]. intros I. apply (keep_conf _ _ (s_conf N s)); [|unfold run_mc_profile; intros ? ? E; oks E; cbn in E; congruence|exact I].
    apply run_mc_profile_total; [exact (inv_samplable _ _ (proj1 I))|exact (rd_msgs _ _ _ _ _ RD)]. }
  clear s L0. intros s L0. eapply good_bind.
  { apply good_when; [exact L0|]. intros o Eo. apply (late_run 2); [exact L0|]. intros I. apply (keep_conf _ _ (s_conf N s)); [|unfold run_mc_magnus, run_mc_with; intros ? ? E; oks E; cbn in E; congruence|exact I].
    apply run_mc_magnus_total; [exact Q|exact (inv_samplable _ _ (proj1 I))|]. destruct I as [(_ & _ & X & _) _]. lia. }
  clear s L0. intros s L0. apply (good_bind (late 1)).
  { apply good_when; [exact (late_mono 2 s L0 ltac:(lia))|]. intros g Eg. destruct L0 as [[I B] _]. apply inv_hsize in I.
    apply (late_run 2); [split; [exact (conj I B)|intros _; exact (conj I B)]|]. cbn [s_conf s_fs]. intros _.
    assert (X : returns (run_langevin N fuel (match g with Some g => g | None => nofZ N 1 end) (w_rng N w Mlangevin) (set_hsize (s_conf N s) (ssize (s_conf N s))) (s_fs N s))).
    { apply run_langevin_total; [exact Q|eapply inv_usable; [exact I|lia]| | |exact (strobe_round _ _ I)|exact (inv_time _ _ I)].
      - destruct I as (_ & _ & X & _). lia.
      - assert (I' := I). destruct I' as (_ & _ & _ & _ & _ & _ & _ & A8 & _). rewrite A8. exact (rd_noise _ _ _ _ _ RD g _ Eg B). }
    destruct X as [[c' f'] E]. exists c', f'. split; [exact E|]. unfold run_langevin in E. do 2 (apply bind_ok in E; destruct E as (? & _ & E)).
    assert (E' := E). apply finish_left in E'. split; [exact (inv_finish 2 _ _ _ _ _ I ltac:(lia) eq_refl E)|]. rewrite E'. exact B. }
  clear s L0. intros s L0. apply good_when; [exact (late_mono 1 s L0 ltac:(lia))|]. intros o Eo. apply (late_run 1); [exact L0|]. intros I.
  apply (frame_late 1); [exact I|lia|]. apply (run_response_total N fuel (w_rng N w Mresponse) (s_conf N s) (s_fs N s) Q (inv_usable _ _ (proj1 I) ltac:(lia)) (strobe_ok _ _ (proj1 I))).
  apply (inv_back _ _ (proj1 I)). destruct (a_response a); [reflexivity|discriminate].
Qed.

Lemma main_total f f1 : read_config N f = Ok (conf, f1) -> returns (main N fuel w a f).
Proof.
  intros E. unfold main. rewrite E. cbn [bind].
  set (c0 := match a_tau a with Some x => set_tau conf x | None => conf end).
  assert (I0 : Inv 2 c0).
  { destruct RD as [_ _ (B1 & B2 & B3 & B4) (B5 & B6) _ _ _ _ _ _ _ _]. unfold Inv, c0, tau0. destruct (a_tau a); cbn; repeat (split; [assumption || reflexivity || lia|]); left; reflexivity. }
  destruct (before_good (mkSt N c0 f1 true []) I0) as (s1 & -> & I1). cbn [bind].
  destruct (settle_good s1 I1) as (s2 & -> & I2). cbn [bind].
  destruct (after_good s2 (conj I2 (fun _ => I2))) as (s3 & -> & _ & I3). cbn [bind].
  destruct (s_default N s3) eqn:D; [|apply returns_ok]. specialize (I3 eq_refl).
  unfold do_run. apply returns_bind; [|intros; apply returns_ok].
  apply run_sim_total; [exact Q|eapply inv_usable; [exact (proj1 I3)|lia]|exact (strobe_ok _ _ (proj1 I3))|exact (inv_time _ _ (proj1 I3))].
Qed.
End F.

Theorem ready_completes N fuel w a f conf f1 : arithmetic N -> read_config N f = Ok (conf, f1) -> ready N fuel w a conf -> returns (main N fuel w a f).
Proof.
  intros A E R. destruct (read_in_range N f conf f1 E) as [H _]. eapply main_total; eauto using arith_quarter, arith_trees.
Qed.
