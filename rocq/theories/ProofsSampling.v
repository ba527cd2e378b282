(** Averages over sampled states: the estimators of the temperature fits and the observables. *)
From Coq Require Import Reals Lra Lia List ZArith Arith Bool.
From Verif Require Import Num Monad NumR Spin Config Chain Langevin Fit SpecVec SpecChain SpecMC SpecFit SpecSampling Samples
  ProofsSpin ProofsChain ProofsEnergy ProofsNew ProofsDyn ProofsDynR ProofsDyn2 ProofsMC ProofsMCR ProofsMCR2 ProofsMCR3 ProofsMCR4 ProofsColumns.
Import ListNotations.
Local Open Scope R_scope.

(** ** The loop *)
Lemma iter_path N (upd : mcdraw N -> chain (num N) -> res (chain (num N))) d (st : nat -> chain (num N)) :
  (forall i, upd (d i) (st i) = Ok (st (S i))) ->
  forall j k, iterMi (fun k sc => upd (d k) sc) k j (st k) = Ok (st (k + j)%nat).
Proof.
  intros H. induction j as [|j IH]; intros k; cbn [iterMi]; [now rewrite Nat.add_0_r|].
  rewrite H. cbn [bind]. rewrite IH. do 2 f_equal. lia.
Qed.
Lemma loop_samples N {A} (upd : mcdraw N -> chain (num N) -> res (chain (num N))) (obs : chain (num N) -> res A) g d st (o : nat -> A) :
  (forall i, upd (d i) (st i) = Ok (st (S i))) -> (forall q, obs (st (g * S q)%nat) = Ok (o q)) ->
  forall j q, sample_loop N upd obs g d j (g * q) (st (g * q)%nat) = Ok (map o (seq q j)).
Proof.
  intros H Ho. induction j as [|j IH]; intros q; cbn [sample_loop]; [reflexivity|].
  rewrite (iter_path N upd d st H). cbn [bind]. replace (g * q + g)%nat with (g * S q)%nat by lia.
  rewrite Ho. cbn [bind]. rewrite IH. reflexivity.
Qed.
Lemma fold_Rsum (f : nat -> R) : forall m q a,
  fold_left (nadd ERNum) (map (fun j => Some (f j)) (seq q m)) (Some a) = Some (a + Rsum m (fun j => f (q + j)%nat)).
Proof.
  induction m as [|m IH]; intros q a; [cbn; f_equal; ring|].
  rewrite seq_S, map_app, fold_left_app, IH. cbn. f_equal. ring.
Qed.
Lemma mean_path m (f : nat -> R) (l : list (num ERNum)) z : z = Z.of_nat m -> (1 <= m)%nat -> l = map (fun j => Some (f j)) (seq 0 m) ->
  mean ERNum l z = Some (Rsum m f / INR m).
Proof.
  intros -> Hm ->. unfold mean. etransitivity; [apply f_equal2; [exact (fold_Rsum f m 0 0)|reflexivity]|].
  change (ndiv ERNum) with er_div. change (nofZ ERNum (Z.of_nat m)) with (Some (IZR (Z.of_nat m))). rewrite <- INR_IZR_INZ.
  rewrite er_div_ok by (apply not_0_INR; lia). f_equal. rewrite Rplus_0_l. reflexivity.
Qed.

(** ** The path *)
Definition mstep (n : nat) (H : chain R -> R) (b : R) (w : move) (c : chain R) : chain R :=
  let c' := moved c (mv_site w mod n) (uniform_dir (mv_1 w) (mv_2 w)) in
  if Rlt_dec (H c' - H c) 0 then c' else if Rlt_dec (mv_u w) (exp (- (b * (H c' - H c)))) then c' else c.
Fixpoint mpath n H b (w : nat -> move) c0 k : chain R :=
  match k with O => c0 | S k => mstep n H b (w k) (mpath n H b w c0 k) end.
Lemma mstep_yes n H b w c : let c' := moved c (mv_site w mod n) (uniform_dir (mv_1 w) (mv_2 w)) in
  accepts b (H c' - H c) (mv_u w) -> mstep n H b w c = c'.
Proof. cbv zeta. unfold mstep. intros [A|A]; destruct (Rlt_dec _ 0); try reflexivity; try contradiction. destruct (Rlt_dec _ _); [reflexivity|contradiction]. Qed.
Lemma mstep_no n H b w c : let c' := moved c (mv_site w mod n) (uniform_dir (mv_1 w) (mv_2 w)) in
  ~ accepts b (H c' - H c) (mv_u w) -> mstep n H b w c = c.
Proof.
  cbv zeta. unfold mstep. intros A. destruct (Rlt_dec _ 0) as [B|B]; [exfalso; apply A; left; exact B|].
  destruct (Rlt_dec _ _) as [C|C]; [exfalso; apply A; right; exact C|reflexivity].
Qed.
Lemma mpath_path n H b w c0 : metropolis_path n H b w (mpath n H b w c0).
Proof. intros k. cbv zeta. split; intros A; cbn [mpath]; [apply mstep_yes|apply mstep_no]; exact A. Qed.
Lemma mpath_frame n s H b w c0 : wf n s c0 -> forall k, wf n s (mpath n H b w c0 k) /\ vars (mpath n H b w c0 k) = vars c0 /\
  j_couple (mpath n H b w c0 k) = j_couple c0 /\ static_h (mpath n H b w c0 k) = static_h c0.
Proof.
  intros W. induction k as [|k (Wk & Vk & Jk & Hk)]; cbn [mpath]; [auto|].
  unfold mstep. cbv zeta. destruct (Rlt_dec _ 0); [|destruct (Rlt_dec _ _)]; try (split; [apply moved_wf; exact Wk|auto]); auto.
Qed.

Lemma accepts_dec b x u : accepts b x u \/ ~ accepts b x u.
Proof. unfold accepts. destruct (Rlt_dec x 0); [auto|]. destruct (Rlt_dec u (exp (- (b * x)))); [auto|]. right. tauto. Qed.

Lemma path_steps k n s w c0 (mv : nat -> move) : wf n s c0 -> (2 <= n)%nat -> ens_ok k n (vars c0) -> w = omega c0 -> (forall i, fair (mv i)) ->
  let st := mpath n (ens_energy k n s w) (beta (vars c0)) mv c0 in
  forall i, ens_sampler k ERNum (as_draw (mv i)) (fin (st i)) = Ok (fin (st (S i))).
Proof.
  intros W Hn Ho -> Hf st i. destruct (mpath_frame n s (ens_energy k n s (omega c0)) (beta (vars c0)) mv c0 W i) as (Wi & Vi & _ & _). fold st in Wi, Vi.
  assert (Om : omega (st i) = omega c0) by (unfold omega; rewrite Vi; reflexivity).
  assert (M : metropolis_for n (ens_energy k n s (omega c0)) (ens_sampler k ERNum) (st i)).
  { destruct k; cbn [ens_sampler].
    - exact (plain_step n s (st i) Wi Hn).
    - rewrite <- Om. apply (maglab_step n s (st i) Wi Hn). rewrite Vi. exact Ho.
    - rewrite <- Om. apply (rot_step n s (st i) Wi); [exact (proj2 Ho)|rewrite Vi; exact (proj1 Ho)]. }
  destruct (Hf i) as (F1 & F2 & F3). destruct (M (mv_site (mv i)) _ _ _ F1 F2 F3) as [A B]. rewrite Vi in A, B.
  destruct (mpath_path n (ens_energy k n s (omega c0)) (beta (vars c0)) mv c0 i) as [A' B']. fold st in A', B'.
  destruct (accepts_dec (beta (vars c0)) (ens_energy k n s (omega c0) (moved (st i) (mv_site (mv i) mod n) (uniform_dir (mv_1 (mv i)) (mv_2 (mv i)))) - ens_energy k n s (omega c0) (st i)) (mv_u (mv i))) as [D|D].
  - rewrite (A' D). exact (A D).
  - rewrite (B' D). exact (B D).
Qed.

(** ** Values at a state *)
Lemma omega_conf (c : config R) : tau c <> 0 -> ndiv ERNum (nmul ERNum (nofZ ERNum 2) (npi ERNum)) (tau (config_map Some c)) = Some (2 * PI / tau c).
Proof. intro H. exact (er_div_ok _ _ H). Qed.

Lemma m_plain (c : chain R) n s (r : chain (num ERNum)) : r = fin c -> wf n s c -> m ERNum r = Ok (fin3 (Vsum s (S_ c))).
Proof. intros -> W. apply (m_value n s c W). Qed.

Lemma div_fin a k : (1 <= k)%nat -> ndiv ERNum (Some a) (nofZ ERNum (Z.of_nat k)) = Some (a / INR k).
Proof.
  intro H. change (ndiv ERNum) with er_div. change (nofZ ERNum (Z.of_nat k)) with (Some (IZR (Z.of_nat k))).
  rewrite <- INR_IZR_INZ. apply er_div_ok, not_0_INR. lia.
Qed.

Definition obs_main (om : num ERNum) (sc : chain (num ERNum)) : res (num ERNum) :=
  bind (mc_system_energy ERNum sc) (fun e => bind (m ERNum sc) (fun mm =>
  Ok (nadd ERNum e (ndiv ERNum (nmul ERNum om (vz mm)) (nofZ ERNum (ssize (vars sc))))))).
Lemma obs_main_value n s c w : wf n s c -> (1 <= s)%nat ->
  obs_main (Some w) (fin c) = Ok (Some ((ring_energy s (S_ c) (J_ c) (h_ c) + w * vz (Vsum s (S_ c))) / INR s)).
Proof.
  intros W Hs. unfold obs_main. rewrite (mc_system_value n s c W Hs). cbn [bind]. rewrite (m_plain c n s _ eq_refl W). cbn [bind].
  rewrite (ssize_fin n s c W _ eq_refl).
  etransitivity; [apply f_equal, f_equal2; [reflexivity|exact (div_fin (w * vz (Vsum s (S_ c))) s Hs)]|].
  cbn [nadd ERNum er2]. do 2 f_equal. field. apply not_0_INR. lia.
Qed.
Lemma plus_mx_value n s c (cf : config (num ERNum)) : wf n s c -> (1 <= s)%nat ->
  energy_plus_mx ERNum cf (fin c) = Ok (Some ((ring_energy s (S_ c) (J_ c) (h_ c) + vx (Vsum s (S_ c))) / INR s)).
Proof.
  intros W Hs. unfold energy_plus_mx. rewrite (mc_system_value n s c W Hs). cbn [bind]. rewrite (m_plain c n s _ eq_refl W). cbn [bind].
  rewrite (ssize_fin n s c W _ eq_refl).
  etransitivity; [apply f_equal, f_equal2; [reflexivity|exact (div_fin (vx (Vsum s (S_ c))) s Hs)]|].
  cbn [nadd ERNum er2]. do 2 f_equal. field. apply not_0_INR. lia.
Qed.

(** ** Estimators *)
Lemma estimate_value k n s (conf : config (num ERNum)) (obs : chain (num ERNum) -> res (num ERNum)) f b d sc0 mv :
  chain_new ERNum conf (dr_new d) = Ok (fin sc0) -> wf n s sc0 -> (2 <= n)%nat -> ens_ok k n (vars sc0) ->
  (forall i, fair (mv i)) -> (forall i, dr_mc d i = as_draw (mv i)) ->
  (forall c, wf n s c -> vars c = vars (at_beta sc0 b) -> obs (fin c) = Ok (Some (f c))) ->
  exists st, st 0%nat = at_beta sc0 b /\ metropolis_path n (ens_energy k n s (omega sc0)) b mv st /\
   estimate ERNum (ens_sampler k ERNum) (gap k) obs conf (Some b) d = Ok (Some (path_mean 1000 (Z.to_nat (gap k)) f st)).
Proof.
  intros E W Hn Ho Hf Hd Hv. set (c0 := at_beta sc0 b). assert (W0 : wf n s c0) by (destruct W; constructor; auto).
  set (st := mpath n (ens_energy k n s (omega sc0)) b mv c0). exists st. split; [reflexivity|]. split; [apply mpath_path|].
  unfold estimate. rewrite E. cbn [bind]. cbv zeta. change (set_vars (fin sc0) (set_beta (vars (fin sc0)) (Some b))) with (fin c0).
  assert (St : forall i, ens_sampler k ERNum (dr_mc d i) (fin (st i)) = Ok (fin (st (S i)))).
  { intros i. rewrite Hd. apply (path_steps k n s (omega sc0) c0 mv W0 Hn); [exact Ho|reflexivity|exact Hf]. }
  pose proof (loop_samples ERNum (ens_sampler k ERNum) obs (Z.to_nat (gap k)) (dr_mc d) (fun i => fin (st i)) (fun q => Some (f (st (Z.to_nat (gap k) * S q)%nat))) St) as L.
  cbv beta in L. specialize (L (fun q => Hv _ (proj1 (mpath_frame n s _ b mv c0 W0 _)) (proj1 (proj2 (mpath_frame n s _ b mv c0 W0 _)))) 1000%nat 0%nat).
  rewrite Nat.mul_0_r in L. change (st 0%nat) with c0 in L. rewrite L. cbn [bind].
  rewrite (mean_path 1000 (fun q => f (st (Z.to_nat (gap k) * S q)%nat)) _ 1000); [reflexivity|reflexivity|lia|reflexivity].
Qed.

Lemma fit_value q n s (conf : config R) b d sc0 mv :
  chain_new ERNum (config_map Some (fit_conf q conf)) (dr_new d) = Ok (fin sc0) -> vars sc0 = fit_conf q conf ->
  wf n s sc0 -> (2 <= n)%nat -> (1 <= s)%nat -> ens_ok (fit_ensemble q) n conf -> (q = Sbeta -> tau conf <> 0) ->
  (forall i, fair (mv i)) -> (forall i, dr_mc d i = as_draw (mv i)) ->
  exists st, st 0%nat = at_beta sc0 b /\ metropolis_path n (ens_energy (fit_ensemble q) n s (2 * PI / tau conf)) b mv st /\
   energy_at ERNum q (config_map Some conf) (Some b) d =
     Ok (Some (path_mean 1000 (Z.to_nat (gap (fit_ensemble q))) (fit_density q n s (2 * PI / tau conf)) st)).
Proof.
  intros E V W Hn Hs Ho Ht Hf Hd.
  assert (Om : omega sc0 = 2 * PI / tau conf) by (unfold omega; rewrite V; destruct q; reflexivity). rewrite <- Om.
  assert (Ho' : ens_ok (fit_ensemble q) n (vars sc0)) by (rewrite V; destruct q; exact Ho).
  assert (Om' : forall c, vars c = vars (at_beta sc0 b) -> omega c = omega sc0) by (intros c Hc; unfold omega; rewrite Hc; reflexivity).
  assert (T' : forall c, vars c = vars (at_beta sc0 b) -> tau (vars c) = tau conf) by (intros c Hc; rewrite Hc; unfold at_beta; cbn; rewrite V; destruct q; reflexivity).
  destruct q; cbn [energy_at fit_ensemble gap] in *.
  - refine (estimate_value Estatic n s _ (obs_main _) _ b d sc0 mv E W Hn Ho' Hf Hd _). intros c Wc Vc.
    etransitivity; [apply (f_equal (fun o => obs_main o (fin c))); exact (omega_conf (fit_conf Sbeta conf) (Ht eq_refl))|].
    rewrite Om. apply (obs_main_value n s c _ Wc Hs).
  - refine (estimate_value Estatic n s _ (mc_total_energy ERNum) _ b d sc0 mv E W Hn Ho' Hf Hd _). intros c Wc Vc. apply (mc_total_value n s c Wc). lia.
  - refine (estimate_value Estatic n s _ (mc_total_energy ERNum) _ b d sc0 mv E W Hn Ho' Hf Hd _). intros c Wc Vc. apply (mc_total_value n s c Wc). lia.
  - refine (estimate_value Erotating n s _ (mc_system_energy_rot ERNum) _ b d sc0 mv E W Hn Ho' Hf Hd _). intros c Wc Vc. rewrite <- (Om' c Vc). apply (rot_energy_value n s c Wc Hn). rewrite (T' c Vc). exact (proj1 Ho).
  - refine (estimate_value Elab n s _ (mc_system_energy_maglab ERNum) _ b d sc0 mv E W Hn Ho' Hf Hd _). intros c Wc Vc. rewrite <- (Om' c Vc).
    rewrite (maglab_energy_value n s c Wc Hn) by (rewrite (T' c Vc); exact Ho). unfold fit_density. do 6 f_equal.
    + f_equal. apply Rsum_ext. intros k Hk. rewrite (rgt_mod n k Hk). reflexivity.
    + f_equal. apply Rsum_ext. intros k Hk. rewrite (rgt_mod n k Hk), (lft_mod' n k Hk). reflexivity.
Qed.

(** ** Observables *)
Lemma observe_value k n (conf : config (num ERNum)) energy f d sc0 mv :
  chain_new ERNum (set_ssize conf (hsize conf)) (dr_new d) = Ok (fin sc0) -> wf n n sc0 -> (2 <= n)%nat -> ens_ok k n (vars sc0) ->
  (forall i, fair (mv i)) -> (forall i, dr_mc d i = as_draw (mv i)) ->
  (forall c, wf n n c -> vars c = vars sc0 -> energy (set_ssize conf (hsize conf)) (fin c) = Ok (Some (f c))) ->
  exists st, st 0%nat = sc0 /\ metropolis_path n (ens_energy k n n (omega sc0)) (beta (vars sc0)) mv st /\
   let avg g := Some (path_mean (Z.to_nat 8000) (Z.to_nat (gap k)) g st) in
   observe ERNum (ens_sampler k ERNum) (gap k) energy d conf =
   Ok (avg f, avg (fun c => mag n c vx), avg (fun c => mag n c vy), avg (fun c => mag n c vz), set_ssize conf (hsize conf)).
Proof.
  intros E W Hn Ho Hf Hd Hv.
  set (st := mpath n (ens_energy k n n (omega sc0)) (beta (vars sc0)) mv sc0). exists st. split; [reflexivity|]. split; [apply mpath_path|].
  intro avg. unfold observe. cbv zeta. rewrite E. cbn [bind].
  assert (St : forall i, ens_sampler k ERNum (dr_mc d i) (fin (st i)) = Ok (fin (st (S i)))).
  { intros i. rewrite Hd. apply (path_steps k n n (omega sc0) sc0 mv W Hn); [exact Ho|reflexivity|exact Hf]. }
  set (g := Z.to_nat (gap k)) in *.
  match goal with |- context [sample_loop ERNum _ ?o _ _ _ _ _] =>
    pose proof (loop_samples ERNum (ens_sampler k ERNum) o g (dr_mc d) (fun i => fin (st i)) 
      (fun q => (Some (f (st (g * S q)%nat)), Some (mag n (st (g * S q)%nat) vx), Some (mag n (st (g * S q)%nat) vy), Some (mag n (st (g * S q)%nat) vz))) St) as L end.
  cbv beta in L.
  match type of L with ?A -> _ => assert (O : A) end.
  { intros q. set (c := st (g * S q)%nat). destruct (mpath_frame n n (ens_energy k n n (omega sc0)) (beta (vars sc0)) mv sc0 W (g * S q)) as (Wc & Vc & _). fold st in Wc, Vc. fold c in Wc, Vc.
    rewrite (Hv c Wc Vc). cbn [bind]. rewrite (m_plain c n n _ eq_refl Wc). cbn [bind]. rewrite (ssize_fin n n c Wc _ eq_refl).
    pose proof (div_fin (vx (Vsum n (S_ c))) n ltac:(lia)) as X. pose proof (div_fin (vy (Vsum n (S_ c))) n ltac:(lia)) as Y. pose proof (div_fin (vz (Vsum n (S_ c))) n ltac:(lia)) as Z.
    unfold mag. f_equal. etransitivity; [apply f_equal2; [apply f_equal2; [apply f_equal2; [reflexivity|exact X]|exact Y]|exact Z]|]. reflexivity. }
  specialize (L O (Z.to_nat 8000) 0%nat). rewrite Nat.mul_0_r in L. change (st 0%nat) with sc0 in L. rewrite L. cbn [bind].
  rewrite !map_map. cbn [fst snd].
  rewrite (mean_path (Z.to_nat 8000) (fun q => f (st (g * S q)%nat))) by (reflexivity || lia).
  rewrite (mean_path (Z.to_nat 8000) (fun q => mag n (st (g * S q)%nat) vx)) by (reflexivity || lia).
  rewrite (mean_path (Z.to_nat 8000) (fun q => mag n (st (g * S q)%nat) vy)) by (reflexivity || lia).
  rewrite (mean_path (Z.to_nat 8000) (fun q => mag n (st (g * S q)%nat) vz)) by (reflexivity || lia).
  reflexivity.
Qed.

Lemma obs_value q n (conf : config R) d sc0 mv :
  chain_new ERNum (config_map Some (set_ssize conf (hsize conf))) (dr_new d) = Ok (fin sc0) -> vars sc0 = set_ssize conf (hsize conf) ->
  wf n n sc0 -> (2 <= n)%nat -> ens_ok (obs_ensemble q) n conf -> (q = Omain -> tau conf <> 0) ->
  (forall i, fair (mv i)) -> (forall i, dr_mc d i = as_draw (mv i)) ->
  exists st, st 0%nat = sc0 /\ metropolis_path n (ens_energy (obs_ensemble q) n n (2 * PI / tau conf)) (beta conf) mv st /\
   let avg g := Some (path_mean (Z.to_nat 8000) (Z.to_nat (gap (obs_ensemble q))) g st) in
   obs_of ERNum q d (config_map Some conf) =
   Ok (avg (obs_density q n (2 * PI / tau conf)), avg (fun c => mag n c vx), avg (fun c => mag n c vy), avg (fun c => mag n c vz),
       set_ssize (config_map Some conf) (hsize conf)).
Proof.
  intros E V W Hn Ho Ht Hf Hd.
  assert (Om : omega sc0 = 2 * PI / tau conf) by (unfold omega; rewrite V; reflexivity). rewrite <- Om.
  assert (Bt : beta conf = beta (vars sc0)) by (rewrite V; reflexivity). rewrite Bt.
  assert (Ho' : ens_ok (obs_ensemble q) n (vars sc0)) by (rewrite V; destruct q; exact Ho).
  assert (E' : chain_new ERNum (set_ssize (config_map Some conf) (hsize (config_map Some conf))) (dr_new d) = Ok (fin sc0)) by exact E.
  destruct q; cbn [obs_of obs_ensemble] in *.
  - refine (observe_value Estatic n _ _ _ d sc0 mv E' W Hn Ho' Hf Hd _). intros c Wc Vc. cbv zeta.
    etransitivity; [apply (f_equal (fun o => obs_main o (fin c))); exact (omega_conf (set_ssize conf (hsize conf)) (Ht eq_refl))|].
    rewrite Om. apply (obs_main_value n n c _ Wc). lia.
  - refine (observe_value Estatic n _ _ _ d sc0 mv E' W Hn Ho' Hf Hd _). intros c Wc Vc. unfold obs_density. rewrite Rplus_0_r. apply (mc_system_value n n c Wc). lia.
  - refine (observe_value Erotating n _ _ _ d sc0 mv E' W Hn Ho' Hf Hd _). intros c Wc Vc. apply (plus_mx_value n n c _ Wc). lia.
  - refine (observe_value Elab n _ _ _ d sc0 mv E' W Hn Ho' Hf Hd _). intros c Wc Vc. apply (plus_mx_value n n c _ Wc). lia.
Qed.

(** ** A chain with real contents made by chain_new *)
Lemma straight_fin s dr : (0 <= s <= 4)%Z -> exists sc, 
  chain_new ERNum (config_map Some (ex_conf 4 s dr)) straight_draw = Ok (fin sc) /\ vars sc = ex_conf 4 s dr /\ wf 4 (Z.to_nat s) sc.
Proof.
  intros Hs4. set (conf := ex_conf 4 s dr).
  assert (Hb : beta conf <> 0) by (cbn; lra).
  destruct (straight_new conf Hb) as (sc & E & Es); cbn; try lia.
  assert (C : conf_ok ERNum (config_map Some conf)) by (apply conf_ok_map; cbn; lia).
  destruct (chain_new_ok ERNum _ straight_draw C) as (sc' & E' & L1 & L2 & L3 & Et & Ev & Ef).
  assert (sc' = sc) by congruence. subst sc'.
  assert (F := new_fields_value conf straight_draw (fun _ => vzero) (fun _ => vzero) sc
     ltac:(cbn; lia) ltac:(cbn; lia) ltac:(cbn; lia) (fun _ => eq_refl) (fun _ => eq_refl) E).
  set (hfun := fun i => vadd (vadd (hvec (hfield conf))
                       (if (Z.of_nat i <? ssize conf)%Z then hvec (hs conf) else vzero))
                 (vscale (hvar conf) vzero)).
  set (jv := vadd (mk3 1 1 (lambda conf)) (vscale (jvar conf) vzero)).
  exists (mkChain (repeat jv 4) (map hfun (seq 0 4)) (repeat v0 4) (- trel conf) conf (c_log conf)).
  split; [|split; [reflexivity|constructor; cbn; auto; lia]]. rewrite E. f_equal.
  destruct sc as [j h sp tm vr hf]. cbn [j_couple static_h spins t vars has_file] in *.
  change (Z.to_nat (hsize (config_map Some conf))) with 4%nat in *.
  change (Z.to_nat (hsize conf)) with 4%nat in *.
  assert (LX : forall l1 l2 : list (v3 (num ERNum)), length l1 = 4%nat -> length l2 = 4%nat ->
     (forall i, (i < 4)%nat -> nth_error l1 i = nth_error l2 i) -> l1 = l2).
  { intros l1 l2 H1 H2 Hn.
    destruct l1 as [|a [|b [|c [|e [|]]]]]; try discriminate.
    destruct l2 as [|a' [|b' [|c' [|e' [|]]]]]; try discriminate.
    pose proof (Hn 0%nat ltac:(lia)). pose proof (Hn 1%nat ltac:(lia)).
    pose proof (Hn 2%nat ltac:(lia)). pose proof (Hn 3%nat ltac:(lia)). cbn in *. congruence. }
  unfold fin, chain_map; cbn [j_couple static_h spins t vars has_file].
  f_equal; auto.
  - apply LX; auto. intros i Hi. destruct (F i ltac:(cbn; lia)) as [_ B]. rewrite B.
    destruct i as [|[|[|[|]]]]; try lia; reflexivity.
  - apply LX; auto. intros i Hi. destruct (F i ltac:(cbn; lia)) as [A _]. rewrite A.
    destruct i as [|[|[|[|]]]]; try lia; reflexivity.
Qed.
