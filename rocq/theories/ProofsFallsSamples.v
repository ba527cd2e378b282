(** Chains on which the hypotheses of C83 and C84 can be met. *)
From Coq Require Import String Reals List ZArith Lra Lia Arith Psatz.
From Verif Require Import Num Monad NumR Spin Config Chain Fit SpecVec SpecChain SpecMC SpecTotal SpecFit SpecSampling SpecMean SpecFalls
  ProofsSpin ProofsEnergy ProofsFit ProofsTotal ProofsFitR ProofsNew ProofsSampling ProofsMean ProofsMean2 ProofsMean3 ProofsMean6 ProofsMean7 ProofsMean8
  ProofsFalls ProofsFalls2 ProofsFalls3 ProofsFalls5 ProofsFalls6 ProofsFalls7.
Import ListNotations.
Local Open Scope R_scope.

(** Four sites in a field along z, without drive field; couplings (1, 1, 1/2) with disorder jv *)
Definition fall_conf (jv hz e : R) : config R :=
  mkConfig 4 4 256 (2/100) 2 0 2 10 (1/2) [0; 0; hz] [0; 0; 0] jv 0 2 e "log"%string false 0 (288/100) 1000 (9/10) Dxyplane true.
Definition fall_draw (zj : vec) : newdraw ERNum :=
  mkNewDraw (N := ERNum) (nd_u straight_draw) (fun _ => fin3 zj) (fun _ => fin3 vzero).
Definition fall_chain (zj : vec) (jv hz e : R) : chain R :=
  let c := fall_conf jv hz e in
  mkChain (repeat (vadd (mk3 1 1 (lambda c)) (vscale (jvar c) zj)) 4)
    (map (fun i => vadd (vadd (hvec (hfield c)) (if (Z.of_nat i <? ssize c)%Z then hvec (hs c) else vzero)) (vscale (hvar c) vzero)) (seq 0 4))
    (repeat v0 4) (- trel c) c (c_log c).

Lemma fall_new zj jv hz e : chain_new ERNum (config_map Some (fall_conf jv hz e)) (fall_draw zj) = Ok (fin (fall_chain zj jv hz e)).
Proof.
  set (conf := fall_conf jv hz e). set (d := fall_draw zj).
  assert (C : conf_ok ERNum (config_map Some conf)) by (apply conf_ok_map; cbn; lia).
  destruct (chain_new_ok ERNum _ d C) as (sc & E & L1 & L2 & L3 & Et & Ev & Ef).
  assert (Es : spins sc = repeat (fin3 v0) 4).
  { pose proof E as E0. unfold chain_new in E0; cbv zeta in E0. cbn [config_map hsize beta conf fall_conf] in E0.
    rewrite as_usize_small in E0 by lia.
    change (nexp ERNum (Some (288/100))) with (Some (exp (288/100))) in E0.
    assert (Ed : ndiv ERNum (nofZ ERNum 1) (Some (exp (288/100))) = Some (1 / exp (288/100))) by (apply er_div_ok, Rgt_not_eq, exp_pos).
    assert (Ep : ndiv ERNum (npi ERNum) (nofZ ERNum 2) = Some (PI / 2)) by (apply er_div_ok; lra).
    assert (Et' : nlit ERNum 1 2 = Some (1/100)) by reflexivity.
    assert (Hb : 288/100 <> 0) by lra. change (nd_u d) with (nd_u straight_draw) in E0.
    rewrite Ed, Ep, Et', (straight_spins _ _ Hb 0 _ _ v0_dirn) in E0. cbn [bind] in E0.
    destruct (normal_new _ _ _); cbn [bind] in E0; try discriminate.
    destruct (normal_new _ _ _); cbn [bind] in E0; try discriminate.
    destruct (mapM _ _); cbn [bind] in E0; try discriminate.
    injection E0 as <-. reflexivity. }
  assert (F := new_fields_value conf d (fun _ => zj) (fun _ => vzero) sc
     ltac:(cbn; lia) ltac:(cbn; lia) ltac:(cbn; lia) (fun _ => eq_refl) (fun _ => eq_refl) E).
  rewrite E. f_equal. unfold fall_chain. fold conf.
  destruct sc as [j h sp tm vr hf]. cbn [j_couple static_h spins t vars has_file] in *.
  change (Z.to_nat (hsize (config_map Some conf))) with 4%nat in *.
  assert (LX : forall l1 l2 : list (v3 (num ERNum)), length l1 = 4%nat -> length l2 = 4%nat ->
     (forall i, (i < 4)%nat -> nth_error l1 i = nth_error l2 i) -> l1 = l2).
  { intros l1 l2 H1 H2 Hn.
    destruct l1 as [|a [|b [|c [|e0 [|]]]]]; try discriminate.
    destruct l2 as [|a' [|b' [|c' [|e' [|]]]]]; try discriminate.
    pose proof (Hn 0%nat ltac:(lia)). pose proof (Hn 1%nat ltac:(lia)).
    pose proof (Hn 2%nat ltac:(lia)). pose proof (Hn 3%nat ltac:(lia)). cbn in *. congruence. }
  unfold fin, chain_map; cbn [j_couple static_h spins t vars has_file].
  f_equal; auto.
  - apply LX; auto. intros i Hi. destruct (F i ltac:(cbn; lia)) as [_ B]. rewrite B.
    destruct i as [|[|[|[|]]]]; try lia; reflexivity.
  - apply LX; auto. intros i Hi. destruct (F i ltac:(cbn; lia)) as [A _]. rewrite A.
    destruct i as [|[|[|[|]]]]; try lia; reflexivity.
Qed.
Lemma fall_wf zj jv hz e : wf 4 4 (fall_chain zj jv hz e).
Proof. constructor; cbn; auto; lia. Qed.
Lemma fall_unit zj jv hz e : unit_spins (fall_chain zj jv hz e).
Proof. apply (new_unit (fall_conf jv hz e) (fall_draw zj) (fun _ => 0)); [cbn; lia..|intros; reflexivity|apply fall_new]. Qed.
Lemma fall_J zj jv hz e i : (i < 4)%nat -> J_ (fall_chain zj jv hz e) i = mk3 (1 + jv * vx zj) (1 + jv * vy zj) (1 / 2 + jv * vz zj).
Proof. intros Hi. do 4 (destruct i as [|i]; [unfold J_, at_, fall_chain; cbn [j_couple repeat nth]; unfold vadd, vscale; cbn [vx vy vz lambda jvar fall_conf]; f_equal; ring|]). lia. Qed.
Lemma fall_h zj jv hz e i : (i < 4)%nat -> h_ (fall_chain zj jv hz e) i = mk3 0 0 hz.
Proof. intros Hi. do 4 (destruct i as [|i]; [unfold h_, at_, fall_chain; cbn [static_h seq map nth]; unfold vadd, vscale, hvec, vzero; cbn; f_equal; ring|]). lia. Qed.
(** The averages do not depend on the target *)
Lemma fall_same k zj jv hz e e' b w g v : (forall x, g (at_dirs (fall_chain zj jv hz e) 4 x) = g (at_dirs (fall_chain zj jv hz e') 4 x)) ->
  is_boltzmann_avg 4 b (ens_energy k 4 4 w) (fall_chain zj jv hz e) (fun _ => g) v -> is_boltzmann_avg 4 b (ens_energy k 4 4 w) (fall_chain zj jv hz e') (fun _ => g) v.
Proof.
  intros Hg. unfold is_boltzmann_avg. intros H. eapply Un_cv_ext; [|exact H]. intros N. unfold boltzmann_avg.
  assert (E : forall x, ens_energy k 4 4 w (at_dirs (fall_chain zj jv hz e) 4 x) = ens_energy k 4 4 w (at_dirs (fall_chain zj jv hz e') 4 x)) by (intros x; destruct k; reflexivity).
  match goal with |- ?a / ?b = ?a' / ?b' => assert (Ea : a = a'); [|assert (Eb : b = b'); [|rewrite Ea, Eb; reflexivity]] end; apply gmean_ext; intros x _; rewrite E, ?Hg; reflexivity.
Qed.
Lemma fall_ok q jv hz e : fit_ok ERNum q (config_map Some (fall_conf jv hz e)).
Proof. destruct q; unfold fit_ok; cbv zeta; cbn; repeat split; try lia; try reflexivity. Qed.
Lemma fall_gap : (4 <= Z.to_nat (gap Estatic))%nat.
Proof. change 4%nat with (Z.to_nat 4). apply Z2Nat.inj_le; cbn; lia. Qed.

(** Two energies *)
Lemma fall_two e : exists x y, in_cube x /\ in_cube y /\
  ens_energy Estatic 4 4 (2 * PI / 10) (at_dirs (fall_chain vzero 0 (1 / 4) e) 4 x) <> ens_energy Estatic 4 4 (2 * PI / 10) (at_dirs (fall_chain vzero 0 (1 / 4) e) 4 y).
Proof.
  set (c := fall_chain vzero 0 (1 / 4) e).
  assert (V : forall u, (1 - 2 * u) * (1 - 2 * u) = 1 -> ens_energy Estatic 4 4 (2 * PI / 10) (at_dirs c 4 (fun _ => (0, u))) = -2 + (1 - 2 * u)).
  { intros u Hu. assert (Sp : forall i, (i < 4)%nat -> S_ (at_dirs c 4 (fun _ => (0, u))) i = mk3 0 0 (1 - 2 * u)).
    { intros i Hi. rewrite dirs_spin, (proj2 (Nat.ltb_lt _ _) Hi). unfold uniform_dir. cbn [fst snd]. cbv zeta. rewrite Hu. replace (1 - 1) with 0 by ring. rewrite sqrt_0. f_equal; ring. }
    cbn [ens_energy]. unfold ring_energy. transitivity (Rsum 4 (fun _ => - (1 / 2) + 1 / 4 * (1 - 2 * u))); [|cbn [Rsum]; lra].
    apply Rsum_ext. intros i Hi. change (h_ (at_dirs c 4 (fun _ => (0, u))) i) with (h_ c i). change (J_ (at_dirs c 4 (fun _ => (0, u)))) with (J_ c).
    unfold bond. rewrite (fall_h vzero 0 (1 / 4) e i Hi : h_ c i = _), (fall_J vzero 0 (1 / 4) e i Hi : J_ c i = _), (Sp i Hi), (Sp _ (Nat.mod_upper_bound (i + 1) 4 ltac:(lia))).
    unfold dot, vhad, vzero. cbn [vx vy vz]. replace (0 * ((1 + 0 * 0) * 0) + 0 * ((1 + 0 * 0) * 0) + (1 - 2 * u) * ((1 / 2 + 0 * 0) * (1 - 2 * u))) with (1 / 2 * ((1 - 2 * u) * (1 - 2 * u))) by ring. rewrite Hu. ring. }
  exists (fun _ => (0, 0)), (fun _ => (0, 1)). split; [intros i; cbn; lra|]. split; [intros i; cbn; lra|]. rewrite !V by ring. lra.
Qed.

(** A search with draws that give estimates as good as wanted *)
Lemma search_case eta : 0 < eta -> exists e v mv M B r c', let conf := fall_conf 0 (1 / 4) e in let c := fall_chain vzero 0 (1 / 4) e in let w := 2 * PI / tau conf in
  let rng := fun k => with_moves (fall_draw vzero) (mv k) in
  (forall k i, fair (mv k i)) /\
  (forall x, in_cube x -> Rabs (ens_energy Estatic 4 4 w (at_dirs c 4 x)) <= M) /\ (forall x, in_cube x -> Rabs (fit_density Sbeta2 4 4 w (at_dirs c 4 x)) <= B) /\
  (forall b, is_boltzmann_avg 4 b (ens_energy Estatic 4 4 w) c (fun _ => fit_density Sbeta2 4 4 w) (v b)) /\
  (forall k b x, asked Sbeta2 (config_map Some conf) rng k b -> energy_at ERNum Sbeta2 (config_map Some conf) (Some b) (rng k) = Ok x -> exists y, x = Some y /\ Rabs (y - v b) <= eta) /\
  v 1 = ednsty conf /\ v 5 < ednsty conf < v (low_end Sbeta2) /\
  find_of ERNum Sbeta2 13 rng (config_map Some conf) = Ok (r, c').
Proof.
  intros He. set (w := 2 * PI / 10). set (g := fit_density Sbeta2 4 4 w).
  destruct (averages Estatic 4 4 w (fall_chain vzero 0 (1 / 4) 0) g (reg_fit Sbeta2 4 4 w _)) as [v Hv0]. set (e := v 1).
  assert (Hv : forall b, is_boltzmann_avg 4 b (ens_energy Estatic 4 4 w) (fall_chain vzero 0 (1 / 4) e) (fun _ => g) (v b)) by (intros b; eapply fall_same; [|exact (Hv0 b)]; intros x; reflexivity).
  assert (Hv4 : forall b, is_boltzmann_avg 4 b (ens_energy Estatic 4 4 w) (fall_chain vzero 0 (1 / 4) e) (fun _ => ens_energy Estatic 4 4 w) (4 * v b)).
  { intros b. apply (avg_same 4 b _ _ (fun x => 4 * g x)); [intros x; unfold g; cbn [fit_density ens_energy]; change (INR 4) with (1 + 1 + 1 + 1); field|]. apply avg_scale, Hv. }
  assert (Fa : forall a b, 0 <= a -> a < b -> v b < v a) by (intros a b A L; pose proof (avg_strict Estatic 4 4 w _ (fall_two e) a b _ _ A L (Hv4 a) (Hv4 b)); lra).
  destruct (good_draws Sbeta2 4 4 (fall_conf 0 (1 / 4) e) (fall_draw vzero) (fall_chain vzero 0 (1 / 4) e) (fall_new vzero 0 (1 / 4) e) eq_refl (fall_wf _ _ _ _) ltac:(lia) fall_gap ltac:(lia) I ltac:(discriminate) v eta (fun b _ => Hv b) He) as (mv & Fm & Q).
  destruct (reg_energy Estatic 4 4 w (fall_chain vzero 0 (1 / 4) e)) as [[M HM] _]. destruct (reg_fit Sbeta2 4 4 w (fall_chain vzero 0 (1 / 4) e)) as [[B HB] _].
  destruct (proj1 (find_total_ER Sbeta2 13 (fun k => with_moves (fall_draw vzero) (mv k)) _ (fall_ok Sbeta2 0 (1 / 4) e)) (le_n 13)) as (r & Hr & _).
  exists e, v, mv, M, B, (Some r), (fit_conf Sbeta2 (config_map Some (fall_conf 0 (1 / 4) e))). cbv zeta.
  split; [exact Fm|]. split; [exact HM|]. split; [exact HB|]. split; [exact Hv|]. split.
  - intros k b x A Ex. destruct (Q k b A) as (y & Ey & D). exists y. split; [|exact D]. congruence.
  - split; [reflexivity|]. split; [|exact Hr]. cbn [ednsty fall_conf low_end]. unfold e. split; apply Fa; lra.
Qed.

(** Uncoupled spins: the energy of --fit rises, and the search goes the wrong way *)
Definition cancel : vec := mk3 (-1) (-1) (- (1 / 2)).
Lemma PI_low : 3 < PI. Proof. pose proof PI2_3_2 as Q. lra. Qed.
Lemma rising_case : exists e v mv eta r c', let conf := fall_conf 1 (- (1 / 2)) e in let c := fall_chain cancel 1 (- (1 / 2)) e in let w := 2 * PI / tau conf in
  let rng := fun k => with_moves (fall_draw cancel) (mv k) in
  chain_new ERNum (config_map Some (fit_conf Sbeta conf)) (fall_draw cancel) = Ok (fin c) /\
  (forall k i, fair (mv k i)) /\ 0 < - (1 / 2) + w /\ (forall i, (i < 4)%nat -> J_ c i = vzero) /\ (forall i, (i < 4)%nat -> h_ c i = mk3 0 0 (- (1 / 2))) /\
  (forall b, is_boltzmann_avg 4 b (ens_energy Estatic 4 4 w) c (fun _ => fit_density Sbeta 4 4 w) (v b)) /\
  (forall k b x, asked Sbeta (config_map Some conf) rng k b -> energy_at ERNum Sbeta (config_map Some conf) (Some b) (rng k) = Ok x -> exists y, x = Some y /\ Rabs (y - v b) <= eta) /\
  v 1 = ednsty conf /\ find_of ERNum Sbeta 13 rng (config_map Some conf) = Ok (r, c') /\ exists b, r = Some b /\ Rabs (b - 5) <= 1 / 2000.
Proof.
  set (w := 2 * PI / 10). set (g := fit_density Sbeta 4 4 w). assert (Hw : 0 < - (1 / 2) + w) by (pose proof PI_low; unfold w; lra).
  destruct (averages Estatic 4 4 w (fall_chain cancel 1 (- (1 / 2)) 0) g (reg_fit Sbeta 4 4 w _)) as [v Hv0]. set (e := v 1).
  assert (Hv : forall b, is_boltzmann_avg 4 b (ens_energy Estatic 4 4 w) (fall_chain cancel 1 (- (1 / 2)) e) (fun _ => g) (v b)) by (intros b; eapply fall_same; [|exact (Hv0 b)]; intros x; reflexivity).
  set (conf := fall_conf 1 (- (1 / 2)) e). set (c := fall_chain cancel 1 (- (1 / 2)) e).
  assert (HJ : forall i, (i < 4)%nat -> J_ c i = vzero) by (intros i Hi; unfold c; rewrite fall_J by exact Hi; unfold cancel, vzero; cbn [vx vy vz]; f_equal; lra).
  assert (HB : forall i, (i < 4)%nat -> h_ c i = mk3 0 0 (- (1 / 2))) by (intros i Hi; apply fall_h, Hi).
  destruct (find_rising 4 conf c (- (1 / 2)) v ltac:(lia) ltac:(lra) Hw HJ HB (fun b _ => Hv b)) as [Up Fi].
  pose proof (Up 1 ((low_end Sbeta + 5) / 2) ltac:(cbn; lra) ltac:(cbn; lra) ltac:(cbn; lra)) as L. set (m := (low_end Sbeta + 5) / 2) in *.
  set (eta := (v m - e) / 2). assert (He : 0 < eta) by (unfold eta, e; lra).
  destruct (good_draws Sbeta 4 4 conf (fall_draw cancel) c (fall_new cancel 1 (- (1 / 2)) e) eq_refl (fall_wf _ _ _ _) ltac:(lia) fall_gap ltac:(lia) I ltac:(cbn; lra) v eta (fun b _ => Hv b) He) as (mv & Fm & Q).
  destruct (proj1 (find_total_ER Sbeta 13 (fun k => with_moves (fall_draw cancel) (mv k)) _ (fall_ok Sbeta 1 (- (1 / 2)) e)) (le_n 13)) as (r & Hr & _).
  assert (A5 : forall k b x, asked Sbeta (config_map Some conf) (fun k => with_moves (fall_draw cancel) (mv k)) k b -> energy_at ERNum Sbeta (config_map Some conf) (Some b) (with_moves (fall_draw cancel) (mv k)) = Ok x -> exists y, x = Some y /\ Rabs (y - v b) <= eta).
  { intros k b x A Ex. destruct (Q k b A) as (y & Ey & D). exists y. split; [|exact D]. congruence. }
  exists e, v, mv, eta, (Some r), (fit_conf Sbeta (config_map Some conf)). cbv zeta.
  split; [exact (fall_new cancel 1 (- (1 / 2)) e)|]. split; [exact Fm|]. split; [exact Hw|]. split; [exact HJ|]. split; [exact HB|]. split; [exact Hv|]. split; [exact A5|].
  split; [reflexivity|]. split; [exact Hr|]. destruct (Fi eta 13%nat _ _ _ A5 Hr) as [F5 _]. apply F5. change (e + eta < v m). unfold eta. fold e in L. lra.
Qed.

(** The hypotheses of C84 *)
Lemma union_case : exists e v B E r, let conf := fall_conf 0 (1 / 4) e in let c := fall_chain vzero 0 (1 / 4) e in let w := 2 * PI / tau conf in
  chain_new ERNum (config_map Some (fit_conf Sbeta2 conf)) (fall_draw vzero) = Ok (fin c) /\ vars c = fit_conf Sbeta2 conf /\ wf 4 4 c /\ unit_spins c /\
  jvar conf = 0 /\ hvar conf = 0 /\ energy_bound Estatic 4 4 c E /\ (forall x, in_cube x -> Rabs (fit_density Sbeta2 4 4 w (at_dirs c 4 x)) <= B) /\
  (forall b, is_boltzmann_avg 4 b (ens_energy Estatic 4 4 w) c (fun _ => fit_density Sbeta2 4 4 w) (v b)) /\
  lasting 4 (Z.to_nat (gap Estatic)) 5 E r /\ v 1 = ednsty conf /\ v 5 < ednsty conf < v (low_end Sbeta2).
Proof.
  destruct (search_case 1 ltac:(lra)) as (e & v & mv & M & B & r & c' & _ & HM & HB & Hv & _ & E1 & E5 & _).
  exists e, v, B, M, (INR 4 / rate 4 5 M). cbv zeta. split; [exact (fall_new vzero 0 (1 / 4) e)|]. split; [reflexivity|]. split; [apply fall_wf|]. split; [apply fall_unit|].
  split; [reflexivity|]. split; [reflexivity|]. split; [exact HM|]. split; [exact HB|]. split; [exact Hv|]. split; [|split; [exact E1|exact E5]].
  apply lasting_any; [lia|pose proof fall_gap; lia|lra|]. eapply Rle_trans; [apply Rabs_pos|apply (HM (fun _ => (0, 0)))]. intros i; cbn; lra.
Qed.
