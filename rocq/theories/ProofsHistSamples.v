(** A histogram run that finds its typical state. *)
From Coq Require Import String Reals List ZArith Arith Lra Lia Bool.
From Verif Require Import Num Monad NumR Config Chain Fit Files Writers Runs SpecVec SpecChain SpecTotal SpecMC SpecColumns SpecRuns SpecHist Samples
  ProofsSpin ProofsChain ProofsEnergy ProofsTotal ProofsLoop ProofsSim ProofsFit ProofsRunTotal ProofsNew ProofsMCR ProofsMCR4 ProofsHist ProofsHist2 ProofsRunSamples.
Import ListNotations.
Local Open Scope R_scope.

(** wanted energy 1 per site: the staggered state along x *)
Definition hist_conf (dr : drive_type) (file : string) : config R :=
  mkConfig 4 2 256 (2/100) 2 0 2 10 (1/2) [0; 0; 1/4] [1; 0; -1] (1/1000) 0 2 1 file false 0 (288/100) 1000 (9/10) dr true.
(** sites in turn, along +x and -x in turn, always accepted *)
Definition stag_draw (k : nat) : mcdraw ERNum := draw k (if Nat.even k then 0 else 1 / 2) (1 / 2) 0.
Definition stag (k : nat) : vec := if Nat.even k then mk3 1 0 0 else mk3 (-1) 0 0.
Definition hist_rng : rng ERNum :=
  mkRng ERNum (fun _ => mkDraws (N := ERNum) straight_draw stag_draw) (fun _ _ => (fin3 vzero, fin3 vzero)) (@concat _) (@concat _) (@concat _) (fun _ => "256"%string).

Lemma stag_dir k : uniform_dir (if Nat.even k then 0 else 1 / 2) (1 / 2) = stag k.
Proof.
  unfold uniform_dir, stag. cbv zeta. replace (1 - 2 * (1 / 2)) with 0 by lra. replace (1 - 0 * 0) with 1 by lra. rewrite sqrt_1.
  destruct (Nat.even k).
  - rewrite Rmult_0_r, cos_0, sin_0. f_equal; lra.
  - replace (2 * PI * (1 / 2)) with PI by field. rewrite cos_PI, sin_PI. f_equal; lra.
Qed.
Lemma stag_step n s c k : wf n s c -> (2 <= n)%nat -> metropolis_update ERNum (stag_draw k) (fin c) = Ok (fin (moved c (k mod n) (stag k))).
Proof.
  intros W Hn. destruct (plain_step n s c W Hn k (if Nat.even k then 0 else 1 / 2) (1 / 2) 0) as [A _];
    try (unfold unit_draw; destruct (Nat.even k); lra).
  rewrite stag_dir in A. apply A. right. apply exp_pos.
Qed.
Fixpoint stag_path (c : chain R) (k : nat) : chain R :=
  match k with O => c | S k => moved (stag_path c k) (k mod 4) (stag k) end.
Lemma stag_inv s c k : wf 4 s c -> let p := stag_path c k in
  wf 4 s p /\ vars p = vars c /\ t p = t c /\ (forall i, J_ p i = J_ c i) /\ (forall i, h_ p i = h_ c i) /\
  (forall j, (j < 4)%nat -> (j < k)%nat -> S_ p j = stag j).
Proof.
  intros W. induction k as [|k (A & B & C & D & E & F)]; cbn [stag_path]; cbv zeta; [repeat split; try apply W; auto; intros; lia|].
  split; [apply moved_wf; exact A|]. split; [exact B|]. split; [exact C|]. split; [exact D|]. split; [exact E|].
  intros j Hj Hk. rewrite moved_S by (rewrite (wf_spins _ _ _ A); exact Hj). destruct (Nat.eqb_spec j (k mod 4)) as [->|N].
  - unfold stag. replace (Nat.even (k mod 4)) with (Nat.even k); [reflexivity|].
    rewrite (Nat.div_mod k 4) at 1 by lia. rewrite Nat.even_add, Nat.even_mul. cbn [Nat.even orb]. destruct (Nat.even (k mod 4)); reflexivity.
  - apply F; [exact Hj|]. destruct (Nat.eq_dec j k) as [->|]; [|lia]. rewrite Nat.mod_small in N by lia. congruence.
Qed.
Lemma stag_iter s c : wf 4 s c -> forall k, iterMi (fun i => metropolis_update ERNum (stag_draw i)) 0 k (fin c) = Ok (fin (stag_path c k)).
Proof.
  intros W. induction k as [|k IH]; [reflexivity|]. replace (S k) with (k + 1)%nat by lia. rewrite iterMi_add, IH. cbn [bind iterMi Nat.add].
  replace (k + 1)%nat with (S k) by lia. cbn [stag_path]. destruct (stag_inv s c k W) as (A & _).
  etransitivity; [apply (f_equal (fun q => bind q _) (stag_step 4 s _ k A ltac:(lia)))|]. reflexivity.
Qed.

Lemma hist_chain : exists sc, chain_new ERNum (config_map Some (hist_conf Dnone "x")) straight_draw = Ok (fin sc) /\ vars sc = hist_conf Dnone "x" /\
  wf 4 2 sc /\ (forall i, (i < 4)%nat -> J_ sc i = mk3 1 1 (1 / 2) /\ h_ sc i = mk3 (if (i <? 2)%nat then 1 else 0) 0 (if (i <? 2)%nat then - (3 / 4) else 1 / 4)).
Proof.
  set (conf := hist_conf Dnone "x").
  assert (Hb : beta conf <> 0) by (cbn; lra).
  destruct (straight_new conf Hb) as (sc & E & Es); cbn; try lia.
  assert (C : conf_ok ERNum (config_map Some conf)) by (apply conf_ok_map; cbn; lia).
  destruct (chain_new_ok ERNum _ straight_draw C) as (sc' & E' & L1 & L2 & L3 & Et & Ev & Ef).
  assert (sc' = sc) by congruence. subst sc'.
  assert (F := new_fields_value conf straight_draw (fun _ => vzero) (fun _ => vzero) sc
     ltac:(cbn; lia) ltac:(cbn; lia) ltac:(cbn; lia) (fun _ => eq_refl) (fun _ => eq_refl) E).
  set (hfun := fun i => vadd (vadd (hvec (hfield conf))
                       (if (Z.of_nat i <? ssize conf)%Z then hvec (hs conf) else vzero))
                 (vscale (hvar conf) vzero)).
  set (jv := vadd (mk3 1 1 (lambda conf)) (vscale (jvar conf) vzero)).
  exists (mkChain (repeat jv 4) (map hfun (seq 0 4)) (repeat v0 4) (- trel conf) conf (c_log conf)).
  split.
  - rewrite E. f_equal. destruct sc as [j h sp tm vr hf]. cbn [j_couple static_h spins t vars has_file] in *.
    change (Z.to_nat (hsize (config_map Some conf))) with 4%nat in *. change (Z.to_nat (hsize conf)) with 4%nat in *.
    assert (LX : forall l1 l2 : list (v3 (num ERNum)), length l1 = 4%nat -> length l2 = 4%nat ->
       (forall i, (i < 4)%nat -> nth_error l1 i = nth_error l2 i) -> l1 = l2).
    { intros l1 l2 H1 H2 Hn. destruct l1 as [|a [|b [|c [|e [|]]]]]; try discriminate. destruct l2 as [|a' [|b' [|c' [|e' [|]]]]]; try discriminate.
      pose proof (Hn 0%nat ltac:(lia)). pose proof (Hn 1%nat ltac:(lia)). pose proof (Hn 2%nat ltac:(lia)). pose proof (Hn 3%nat ltac:(lia)). cbn in *. congruence. }
    unfold fin, chain_map; cbn [j_couple static_h spins t vars has_file]. f_equal; auto.
    + apply LX; auto. intros i Hi. destruct (F i ltac:(cbn; lia)) as [_ B]. rewrite B. destruct i as [|[|[|[|]]]]; try lia; reflexivity.
    + apply LX; auto. intros i Hi. destruct (F i ltac:(cbn; lia)) as [A _]. rewrite A. destruct i as [|[|[|[|]]]]; try lia; reflexivity.
  - split; [reflexivity|]. split; [constructor; cbn; auto; lia|].
    intros i Hi. unfold J_, h_, at_, jv, hfun, vadd, vscale, hvec. cbn.
    destruct i as [|[|[|[|]]]]; try lia; cbn; split; f_equal; lra.
Qed.

Lemma stag_typical sc k : wf 4 2 sc -> vars sc = hist_conf Dnone "x" ->
  (forall i, (i < 4)%nat -> J_ sc i = mk3 1 1 (1 / 2) /\ h_ sc i = mk3 (if (i <? 2)%nat then 1 else 0) 0 (if (i <? 2)%nat then - (3 / 4) else 1 / 4)) ->
  (4 <= k)%nat -> typical 4 2 (stag_path sc k).
Proof.
  intros W V F Hk. destruct (stag_inv 2 sc k W) as (A & B & C & D & E & G). set (p := stag_path sc k) in *.
  assert (G0 := G 0%nat ltac:(lia) ltac:(lia)). assert (G1 := G 1%nat ltac:(lia) ltac:(lia)).
  assert (G2 := G 2%nat ltac:(lia) ltac:(lia)). assert (G3 := G 3%nat ltac:(lia) ltac:(lia)).
  assert (M : mag_density 4 p = mk3 0 0 0).
  { unfold mag_density. cbn [Vsum]. rewrite G0, G1, G2, G3. unfold stag, vscale, vadd. cbn. f_equal; lra. }
  assert (En : ring_energy 4 (S_ p) (J_ p) (B_ p 2 (t p)) / INR 4 = 1).
  { unfold ring_energy. cbn [Rsum]. change ((0 + 1) mod 4)%nat with 1%nat. change ((1 + 1) mod 4)%nat with 2%nat. change ((2 + 1) mod 4)%nat with 3%nat. change ((3 + 1) mod 4)%nat with 0%nat.
    unfold bond, B_. cbn [Nat.ltb Nat.leb]. rewrite !D, !E, G0, G1, G2, G3.
    destruct (F 0%nat ltac:(lia)) as [-> ->]. destruct (F 1%nat ltac:(lia)) as [-> ->]. destruct (F 2%nat ltac:(lia)) as [-> ->]. destruct (F 3%nat ltac:(lia)) as [-> ->].
    rewrite B, V. unfold stag, drive_field, dot, vhad, vadd. cbn. lra. }
  unfold typical. rewrite En, M, B, V. cbn [ednsty hist_conf vx vy vz]. replace (1 - 1) with 0 by lra. rewrite Rabs_R0. lra.
Qed.

Lemma hist_case samples f : exists f', gen_hist ERNum 1 samples hist_rng (config_map Some (hist_conf Dxyplane "log")) f =
  Ok (config_map Some (hist_conf Dnone "x"), f').
Proof.
  destruct hist_chain as (sc & E & V & W & F).
  set (conf1 := config_map Some (hist_conf Dnone "x")) in *.
  assert (C1 : conf_ok ERNum conf1) by (apply conf_ok_map; cbn; lia).
  assert (Vf : vars (fin sc) = conf1) by (cbn; rewrite V; reflexivity).
  assert (Wf : wf 4 2 (fin sc)) by (apply wf_fin; exact W).
  unfold gen_hist. cbv zeta. change (set_hist_conf ERNum (config_map Some (hist_conf Dxyplane "log"))) with conf1.
  unfold new_logged. change (dr_new (r_draws ERNum hist_rng 0)) with straight_draw. change (dr_mc (r_draws ERNum hist_rng 0)) with stag_draw.
  rewrite E. cbn [bind].
  destruct (hist_loop_total ERNum 4 2 conf1 (mc_steps ERNum (metropolis_update ERNum) stag_draw) quarter_ER ltac:(lia) (conf_hs ERNum conf1 C1)
    (mc_steps_total ERNum _ stag_draw 4 2 conf1 (ProofsFit.plain_sampler ERNum 4 ltac:(lia)) (conf_hs ERNum conf1 C1)) samples 0 (fin sc) Wf Vf) as (c1 & l & E1 & _).
  rewrite E1. cbn [bind].
  destruct (hist_loop_lines ERNum (fun i => metropolis_update ERNum (stag_draw i)) _ (fin sc) (fun i c => eq_refl) samples 0 (fin sc) c1 l eq_refl E1) as (A1 & _).
  cbn [Nat.add] in A1. rewrite (stag_iter 2 sc W) in A1. injection A1 as <-.
  assert (E2 : mc_steps ERNum (metropolis_update ERNum) stag_draw samples (fin (stag_path sc (samples * lap))) = Ok (fin (stag_path sc (samples * lap + lap)))).
  { rewrite <- (stag_iter 2 sc W), iterMi_add, (stag_iter 2 sc W), mc_steps_iter. cbn [bind Nat.add]. reflexivity. }
  cbn [wait_typical]. rewrite E2. cbn [bind].
  set (p := stag_path sc (samples * lap + lap)). destruct (stag_inv 2 sc (samples * lap + lap) W) as (Wp & Vp & _). fold p in Wp, Vp.
  destruct (typical_test 4 2 p Wp ltac:(lia)) as (b & Eb & Hb); [rewrite Vp, V; exact I|].
  assert (b = false) as ->. { apply Hb. apply stag_typical; auto. unfold lap. lia. }
  rewrite Eb. cbn [bind].
  destruct (hist_loop_total ERNum 4 2 conf1 (fun _ sc => iterM (update ERNum) (Z.to_nat 10000) sc) quarter_ER ltac:(lia) (conf_hs ERNum conf1 C1)) with (k := samples) (i := 0%nat) (sc := fin p) as (c3 & l3 & E3 & _).
  - intros i c Wc Vc. destruct (updates_total ERNum 4 2 conf1 ltac:(lia) (conf_hs ERNum conf1 C1) (Z.to_nat 10000) c Wc Vc) as (c' & A & B & D & _). eauto.
  - apply wf_fin. exact Wp.
  - cbn. rewrite Vp, V. reflexivity.
  - rewrite E3. cbn [bind]. eexists. reflexivity.
Qed.

Lemma steppable_case x dt tmax ta : steppable ERNum (ex_runs ERNum x dt tmax ta false).
Proof. destruct (ex_runs_usable_ER x dt tmax ta false) as (A & _ & B & C & D & _). repeat split; try assumption; apply A || apply C. Qed.
