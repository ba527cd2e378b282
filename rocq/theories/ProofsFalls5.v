(** The temperature searches over all their random numbers (C84). *)
From Coq Require Import Reals List ZArith Lra Lia Arith Psatz FunctionalExtensionality.
From Verif Require Import Num Monad NumR Spin Config Chain Fit SpecVec SpecChain SpecMC SpecTotal SpecFit SpecSampling SpecMean SpecFalls
  ProofsFit ProofsTotal ProofsFitR ProofsSampling ProofsMean ProofsMean2 ProofsMean3 ProofsMean5 ProofsMean6 ProofsMean7 ProofsMean8 ProofsFalls ProofsFalls2 ProofsFalls3 ProofsFalls4.
Import ListNotations.
Local Open Scope R_scope.

Lemma Rsum_eq m f g : (forall i, (i < m)%nat -> f i = g i) -> Rsum m f = Rsum m g.
Proof. induction m as [|m IH]; intros H; cbn [Rsum]; [reflexivity|]. rewrite IH, (H m) by (intros; apply H; lia) || lia. reflexivity. Qed.

Section One.
Context (q : search) (n s : nat) (conf : config R) (d : newdraw ERNum) (sc0 : chain R).
Context (Cn : chain_new ERNum (config_map Some (fit_conf q conf)) d = Ok (fin sc0)) (V : vars sc0 = fit_conf q conf) (W : wf n s sc0) (U : unit_spins sc0).
Context (Hn : (2 <= n)%nat) (Hs : (1 <= s)%nat) (Ho : ens_ok (fit_ensemble q) n conf) (Ht : q = Sbeta -> tau conf <> 0).
Let w := 2 * PI / tau conf.
Let H := ens_energy (fit_ensemble q) n s w.
Let g := Z.to_nat (gap (fit_ensemble q)).
Definition one (b : R) (mv : nat -> move) : R := path_mean 1000 g (fit_density q n s w) (mpath n H b mv (at_beta sc0 b)).
Lemma one_value b mv : (forall i, fair (mv i)) -> energy_at ERNum q (config_map Some conf) (Some b) (with_moves d mv) = Ok (Some (one b mv)).
Proof.
  intros Fm. destruct (fit_value q n s conf b (with_moves d mv) sc0 mv Cn V W Hn Hs Ho Ht Fm (fun _ => eq_refl)) as (st & S0 & Ps & Q). rewrite Q.
  assert (Pe : st = mpath n H b mv (at_beta sc0 b)) by (apply functional_extensionality; intros j; rewrite <- S0; apply path_unique; exact Ps). rewrite Pe. reflexivity.
Qed.
Lemma one_ext b mv mv' : (forall i, (i < 1000 * g)%nat -> mv i = mv' i) -> one b mv = one b mv'.
Proof.
  intros E. unfold one, path_mean. f_equal. apply Rsum_eq. intros i Hi. f_equal.
  assert (K : forall j, (j <= 1000 * g)%nat -> mpath n H b mv (at_beta sc0 b) j = mpath n H b mv' (at_beta sc0 b) j).
  { induction j as [|j IH]; intros Hj; [reflexivity|]. cbn [mpath]. rewrite IH, E by lia. reflexivity. }
  apply K. rewrite (Nat.mul_comm 1000). apply Nat.mul_le_mono_l. lia.
Qed.
Lemma one_seldom b B E r v eta eps : 0 <= b -> energy_bound (fit_ensemble q) n s sc0 E -> (forall x, in_cube x -> Rabs (fit_density q n s w (at_dirs sc0 n x)) <= B) ->
  is_boltzmann_avg n b H sc0 (fun _ => fit_density q n s w) v -> lasting n g b E r -> 0 < eta -> 0 < eps ->
  exists N0, forall N, (N0 <= N)%nat -> gmean still (all_moves (S N) n) (1000 * g) (fun mv => off v eta (one b mv)) <= 4 * B * B * (1 + 2 * r) / (1000 * eta ^ 2) + eps.
Proof.
  intros Hb HE HB Hv Hr He Hp. set (c := at_beta sc0 b).
  assert (Om : omega c = w) by (unfold omega, c, at_beta, w; cbn; rewrite V; destruct q; reflexivity).
  assert (Om0 : omega sc0 = w) by (unfold omega, w; cbn; rewrite V; destruct q; reflexivity).
  assert (Wc : wf n s c) by (destruct W as [w1 w2 w3 w4 w5 w6]; constructor; cbn; assumption).
  assert (Oc : ens_ok (fit_ensemble q) n (vars c)) by (unfold c, at_beta; cbn; rewrite V; destruct q; exact Ho).
  assert (Ec : energy_bound (fit_ensemble q) n s c E).
  { intros x Hx. pose proof (HE x Hx) as Q. rewrite Om. rewrite Om0 in Q. destruct (fit_ensemble q); exact Q. }
  assert (Bc : forall x, in_cube x -> Rabs (fit_density q n s w (at_dirs c n x)) <= B) by (intros x Hx; pose proof (HB x Hx) as Q; destruct q; exact Q).
  assert (Vc : is_boltzmann_avg n (beta (vars c)) (ens_energy (fit_ensemble q) n s (omega c)) c (fun _ => fit_density q n s w) v).
  { rewrite Om. change (beta (vars c)) with b. fold H. unfold is_boltzmann_avg in *. eapply Un_cv_ext; [|exact Hv]. intros N. reflexivity. }
  destruct (h_seldom (fit_ensemble q) n s c (fit_density q n s w) Wc Hn Oc Hb B E U Ec Bc v Vc g 1000 eta r Hr ltac:(lia) He eps Hp) as [N0 HN].
  exists N0. intros N L. specialize (HN N L). rewrite (INR_IZR_INZ 1000) in HN. change (IZR (Z.of_nat 1000)) with 1000 in HN. eapply Rle_trans; [|exact HN]. right. symmetry.
  rewrite (sampled_paths (fit_ensemble q) n s c Hn Oc (S N) ltac:(lia) _ _ _ c (conj Wc eq_refl)).
  f_equal. apply functional_extensionality. intros mv. f_equal. rewrite mean_paths by lia. unfold one. rewrite Om. reflexivity.
Qed.
End One.

(** Without disorder all chains made differ in their spins only *)
Lemma fin_col (z : ER) (a b : R) e e' : er2 Rplus z (er2 Rplus (Some 0) (er2 Rmult (Some 0) e)) = Some a -> er2 Rplus z (er2 Rplus (Some 0) (er2 Rmult (Some 0) e')) = Some b -> a = b.
Proof. destruct z, e, e'; cbn; intros A B; try discriminate. injection A as <-. injection B as <-. ring. Qed.
Lemma fin3_eq (u v : vec) : fin3 u = fin3 v -> u = v.
Proof. destruct u, v. unfold fin3, v3map. cbn. intros H. injection H as -> -> ->. reflexivity. Qed.
Lemma map_fin3_eq (l m : list vec) : length l = length m -> (forall i a b, nth_error (map fin3 l) i = Some (fin3 a) -> nth_error (map fin3 m) i = Some (fin3 b) -> a = b) -> l = m.
Proof.
  revert m. induction l as [|a l IH]; intros [|b m] L K; try discriminate; [reflexivity|]. f_equal; [exact (K 0%nat a b eq_refl eq_refl)|]. apply IH; [cbn in L; lia|]. intros i. exact (K (S i)).
Qed.
Lemma mapM_nth {X Y} (f : X -> res Y) : forall l m i y, mapM f l = Ok m -> nth_error m i = Some y -> exists x, nth_error l i = Some x /\ f x = Ok y.
Proof.
  induction l as [|x l IH]; intros m i y Hm Hi; cbn [mapM] in Hm; [injection Hm as <-; destruct i; discriminate|].
  destruct (f x) as [y0|p|] eqn:Ef; cbn [bind] in Hm; try discriminate. destruct (mapM f l) as [m0|p|] eqn:Em; cbn [bind] in Hm; try discriminate. injection Hm as <-.
  destruct i as [|i]; [injection Hi as <-; exists x; auto|]. exact (IH m0 i y eq_refl Hi).
Qed.
Lemma mapM_len {X Y} (f : X -> res Y) : forall l m, mapM f l = Ok m -> length m = length l.
Proof.
  induction l as [|x l IH]; intros m Hm; cbn [mapM] in Hm; [injection Hm as <-; reflexivity|].
  destruct (f x) as [y0|p|] eqn:Ef; cbn [bind] in Hm; try discriminate. destruct (mapM f l) as [m0|p|] eqn:Em; cbn [bind] in Hm; try discriminate. injection Hm as <-. cbn. rewrite (IH m0 eq_refl). reflexivity.
Qed.
Lemma clean_chains (conf : config R) d d' sc sc' : jvar conf = 0 -> hvar conf = 0 ->
  chain_new ERNum (config_map Some conf) d = Ok (fin sc) -> chain_new ERNum (config_map Some conf) d' = Ok (fin sc') ->
  vars sc = vars sc' -> set_spins sc (spins sc') = sc'.
Proof.
  intros Hj Hh E E' Hv. unfold chain_new in E, E'. cbv zeta in E, E'. 
  destruct (new_spins ERNum _ _ _ (nd_u d) _ _ _) as [sp|p|]; cbn [bind] in E; try discriminate. destruct (new_spins ERNum _ _ _ (nd_u d') _ _ _) as [sp'|p|]; cbn [bind] in E'; try discriminate.
  unfold normal_new in E, E'. cbn [config_map jvar hvar nfinite ERNum bind] in E, E'.
  destruct (mapM _ _) as [hl|p|] eqn:Eh; cbn [bind] in E; try discriminate. destruct (mapM (fun x : nat => new_field ERNum _ _ (nd_h d' x) _) _) as [hl'|p|] eqn:Eh'; cbn [bind] in E'; try discriminate.
  rewrite Hj, Hh in *.
  destruct sc as [j h sps tm vr hf]. destruct sc' as [j' h' sps' tm' vr' hf']. unfold fin, chain_map in E, E'. cbn [j_couple static_h spins t vars has_file] in E, E', Hv. subst vr'.
  injection E as Ej Ehh _ Et _ Ef. injection E' as Ej' Ehh' _ Et' _ Ef'. unfold set_spins. cbn [j_couple static_h spins t vars has_file].
  assert (T1 : tm = tm') by congruence. assert (T2 : hf = hf') by congruence. subst tm' hf'.
  assert (J : j = j').
  { apply map_fin3_eq.
    - pose proof (f_equal (@length _) Ej) as L1. pose proof (f_equal (@length _) Ej') as L2. rewrite map_length in L1, L2. pose proof (map_length (v3map Some) j) as L3. pose proof (map_length (v3map Some) j') as L4. exact (eq_trans (eq_sym (eq_trans L1 L3)) (eq_trans L2 L4)).
    - intros i a b Ha Hb. unfold fin3 in Ha, Hb. 
      assert (Ha' := eq_trans (f_equal (fun l => nth_error l i) Ej) Ha). assert (Hb' := eq_trans (f_equal (fun l => nth_error l i) Ej') Hb). cbv beta in Ha', Hb'.
      rewrite nth_error_map in Ha', Hb'. destruct (nth_error (seq 0 _) i) as [x|]; cbn [option_map] in Ha', Hb'; [|discriminate].
      destruct a as [ax ay az], b as [bx by_ bz]. cbn in Ha', Hb'. injection Ha' as A1 A2 A3. injection Hb' as B1 B2 B3.
      f_equal; [exact (fin_col (Some 1) _ _ (vx (nd_j d x)) (vx (nd_j d' x)) A1 B1)|exact (fin_col (Some 1) _ _ (vy (nd_j d x)) (vy (nd_j d' x)) A2 B2)|exact (fin_col (Some (lambda conf)) _ _ (vz (nd_j d x)) (vz (nd_j d' x)) A3 B3)]. }
  assert (Hst : h = h').
  { apply map_fin3_eq.
    - pose proof (f_equal (@length _) Ehh) as L1. pose proof (f_equal (@length _) Ehh') as L2. pose proof (mapM_len _ _ _ Eh) as M1. pose proof (mapM_len _ _ _ Eh') as M2. pose proof (map_length (v3map Some) h) as L3. pose proof (map_length (v3map Some) h') as L4.
      exact (eq_trans (eq_sym (eq_trans (eq_trans (eq_sym M1) L1) L3)) (eq_trans (eq_trans (eq_sym M2) L2) L4)).
    - intros i a b Ha Hb. unfold fin3 in Ha, Hb. assert (Ha' := eq_trans (f_equal (fun l => nth_error l i) Ehh) Ha). assert (Hb' := eq_trans (f_equal (fun l => nth_error l i) Ehh') Hb). cbv beta in Ha', Hb'.
      destruct (mapM_nth _ _ _ _ _ Eh Ha') as (x & X1 & X2). destruct (mapM_nth _ _ _ _ _ Eh' Hb') as (x' & X1' & X2').
      assert (Ex : x' = x) by congruence. subst x'. unfold new_field in X2, X2'.
      repeat match goal with
      | Q : context [if ?c then _ else _] |- _ => destruct c
      | Q : bind (idx ?l ?k) _ = Ok _ |- _ => let e := fresh "ix" in destruct (idx l k) as [e|p|]; cbn [bind] in *; try discriminate
      end.
      all: destruct a as [ax ay az], b as [bx by_ bz].
      all: pose proof (fun p : v3 ER -> ER => f_equal (fun r => match r with Ok v => p v | _ => None end) X2) as A; pose proof (fun p : v3 ER -> ER => f_equal (fun r => match r with Ok v => p v | _ => None end) X2') as B.
      all: f_equal; [eapply fin_col; [exact (A vx)|exact (B vx)]|eapply fin_col; [exact (A vy)|exact (B vy)]|eapply fin_col; [exact (A vz)|exact (B vz)]]. }
  subst j' h'. rewrite T1, T2. reflexivity.
Qed.

Lemma search_union q n s (conf : config R) fuel d sc : (13 <= fuel)%nat ->
  (forall k, chain_new ERNum (config_map Some (fit_conf q conf)) (d k) = Ok (fin (sc k)) /\ vars (sc k) = fit_conf q conf /\ wf n s (sc k)) ->
  (2 <= n)%nat -> (1 <= s)%nat -> ens_ok (fit_ensemble q) n conf -> (q = Sbeta -> tau conf <> 0) ->
  forall v L eta P, (forall a b, low_end q <= a <= 5 -> low_end q <= b <= 5 -> Rabs (v a - v b) <= L * Rabs (a - b)) -> 0 <= P ->
  (forall k b, low_end q < b < 5 -> exists N0, forall N, (N0 <= N)%nat ->
     gmean still (all_moves (S N) n) (estimate_moves q) (fun mv => est_off (v b) eta (energy_at ERNum q (config_map Some conf) (Some b) (with_moves (d k) mv))) <= P) ->
  v 5 - eta <= ednsty conf <= v (low_end q) + eta -> exists N0, forall N, (N0 <= N)%nat ->
    gmean still (all_moves (S N) n) (16 * estimate_moves q) (fun mv =>
      misses (ednsty conf) (eta + L / 2000) v (find_of ERNum q fuel (search_draws q d mv) (config_map Some conf)))
    <= 13 * P.
Proof.
  intros Hf Hsc Hn Hs Ho Ht v L eta P Lip P0 Hoff Htgt.
  set (est := fun k b mv => one q n s conf (sc k) b mv). pose proof (low_range q) as Lq.
  destruct (search_seldom still (fun N => all_moves (S N) n) (fun N => moves_nil (S N) n ltac:(lia) ltac:(lia)) (estimate_moves q) est) with
    (t := ednsty conf) (low := low_end q) (eta := eta) (L := L) (P := P) (v := v) as [N0 HN].
  - intros k b x y Hxy. apply one_ext; assumption.
  - exact Lip.
  - exact P0.
  - intros k b Hb. destruct (Hsc k) as (Ak & Vk & Wk). destruct (Hoff k b Hb) as [N0 K]. exists N0. intros N HN. eapply Rle_trans; [|exact (K N HN)]. right.
    apply gmean_ext_full. intros mv Hmv. rewrite (one_value q n s conf (d k) (sc k) Ak Vk Wk Hn Hs Ho Ht b mv (full_fair _ _ _ _ Hmv)). reflexivity.
  - lra.
  - exact Htgt.
  - exists N0. intros N HNN. specialize (HN N HNN). cbv beta in HN. eapply Rle_trans; [|exact HN]. right.
    apply gmean_ext_full. intros mv Hmv. pose proof (full_fair _ _ _ _ Hmv) as Fm.
    rewrite find_of_eq, low_lit. change (ednsty (config_map Some conf)) with (Some (ednsty conf)).
    rewrite (rsearch_runs (estimate_moves q) est (ednsty conf) (low_end q) _ mv fuel ltac:(lra) Hf).
    + cbn [bind misses]. reflexivity.
    + intros k b. destruct (Hsc k) as (Ak & Vk & Wk). unfold search_draws. apply (one_value q n s conf (d k) (sc k) Ak Vk Wk Hn Hs Ho Ht). intros i. apply Fm.
Qed.
Lemma search_misses q n s (conf : config R) fuel d sc : (13 <= fuel)%nat ->
  (forall k, chain_new ERNum (config_map Some (fit_conf q conf)) (d k) = Ok (fin (sc k)) /\ vars (sc k) = fit_conf q conf /\ wf n s (sc k) /\ unit_spins (sc k)) ->
  (2 <= n)%nat -> (1 <= s)%nat -> ens_ok (fit_ensemble q) n conf -> (q = Sbeta -> tau conf <> 0) -> jvar conf = 0 -> hvar conf = 0 ->
  let c := sc 0%nat in let w := 2 * PI / tau conf in let H := ens_energy (fit_ensemble q) n s w in let h := fit_density q n s w in
  forall B E v r, energy_bound (fit_ensemble q) n s c E -> (forall x, in_cube x -> Rabs (h (at_dirs c n x)) <= B) ->
  (forall b, low_end q <= b <= 5 -> is_boltzmann_avg n b H c (fun _ => h) (v b)) ->
  lasting n (Z.to_nat (gap (fit_ensemble q))) 5 E r ->
  forall eta eps, 0 < eta -> 0 < eps -> v 5 - eta <= ednsty conf <= v (low_end q) + eta -> exists N0, forall N, (N0 <= N)%nat ->
    gmean still (all_moves (S N) n) (16 * estimate_moves q) (fun mv =>
      misses (ednsty conf) (eta + E * B / 500) v (find_of ERNum q fuel (search_draws q d mv) (config_map Some conf)))
    <= 13 * (4 * B * B * (1 + 2 * r) / (1000 * eta ^ 2)) + eps.
Proof.
  intros Hf Hsc Hn Hs Ho Ht Hj Hh c w H h B E v r HE HB Hv Hr eta eps He Hp Htgt.
  assert (C0 : in_cube (fun _ => (0, 0))) by (intros i; cbn; lra).
  assert (E0 : 0 <= E) by (eapply Rle_trans; [apply Rabs_pos|apply (HE _ C0)]).
  assert (Om : forall k, omega (sc k) = w) by (intros k; destruct (Hsc k) as (_ & V & _); unfold omega, w; rewrite V; destruct q; reflexivity).
  assert (Same : forall k x, at_dirs (sc k) n x = at_dirs c n x).
  { intros k x. destruct (Hsc 0%nat) as (A0 & V0 & _). destruct (Hsc k) as (Ak & Vk & _). fold c in A0, V0.
    assert (Q : set_spins c (spins (sc k)) = sc k) by (apply (clean_chains (fit_conf q conf) (d 0%nat) (d k)); [destruct q; exact Hj|destruct q; exact Hh|exact A0|exact Ak|congruence]).
    unfold at_dirs. rewrite <- Q. reflexivity. }
  set (g := Z.to_nat (gap (fit_ensemble q))) in *. set (P := 4 * B * B * (1 + 2 * r) / (1000 * eta ^ 2)).
  pose proof (low_range q) as Lq.
  assert (HM : forall x, in_cube x -> Rabs (H (at_dirs c n x)) <= E) by (intros x Hx; pose proof (HE x Hx) as Q; unfold c in Q; rewrite Om in Q; exact Q).
  assert (r0 : 0 <= r) by (exact (Hr 0%nat)).
  assert (P0 : 0 <= P + eps / 13).
  { assert (0 <= P); [|lra]. apply Rmult_le_pos; [|left; apply Rinv_0_lt_compat, Rmult_lt_0_compat; [lra|apply pow_lt, He]]. apply Rmult_le_pos; [|lra]. rewrite Rmult_assoc. pose proof (Rle_0_sqr B) as Q. unfold Rsqr in Q. lra. }
  replace (13 * P + eps) with (13 * (P + eps / 13)) by field. replace (E * B / 500) with (4 * E * B / 2000) by field.
  apply (search_union q n s conf fuel d sc Hf); try assumption.
  - intros k. destruct (Hsc k) as (Ak & Vk & Wk & _). auto.
  - intros a b Ha Hb. apply (avg_slope n H c h); auto.
  - intros k b Hb. destruct (Hsc k) as (Ak & Vk & Wk & Uk).
    destruct (one_seldom q n s conf (d k) (sc k) Ak Vk Wk Uk Hn Hs Ho Ht b B E r (v b) eta (eps / 13)) as [N0 HN]; try lra.
    + intros x Hx. rewrite Om, Same. apply HM, Hx.
    + intros x Hx. rewrite Same. apply HB, Hx.
    + unfold is_boltzmann_avg. eapply Un_cv_ext; [|exact (Hv b ltac:(lra))]. intros N. unfold boltzmann_avg. fold w. fold H. fold h.
      replace (at_dirs (sc k) n) with (at_dirs c n) by (apply functional_extensionality; intros x; symmetry; apply Same). reflexivity.
    + apply (lasting_mono n g b 5 E r); try lra; [lia|exact Hr].
    + exists N0. intros N L. eapply Rle_trans; [|exact (HN N L)]. right. apply gmean_ext_full. intros mv Hmv.
      rewrite (one_value q n s conf (d k) (sc k) Ak Vk Wk Hn Hs Ho Ht b mv (full_fair _ _ _ _ Hmv)). reflexivity.
Qed.
