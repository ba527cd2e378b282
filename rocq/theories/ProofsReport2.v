(** What the lines of the fit modes contain, in exact arithmetic. *)
From Coq Require String.
From Coq Require Import Reals Lra Lia List ZArith Arith.
From Verif Require Import Num Monad NumR Spin Config Chain Fit Files Runs Main SpecVec SpecChain SpecMC SpecFit SpecSampling SpecMain SpecReport Samples
  ProofsNew ProofsFitR ProofsSampling.
Import ListNotations.
Local Open Scope R_scope.

Lemma fit_report fuel w m q o (conf : config R) l :
  fit_of m = Some (q, o) -> line_of ERNum fuel w m (config_map Some conf) l -> fit_ok ERNum q (config_map Some conf) ->
  exists b, low_end q < b < 5 /\ forall n sc0 mv, let c := set_beta (set_ssize conf (hsize conf)) b in
    chain_new ERNum (config_map Some c) (dr_new (w_obs ERNum w m)) = Ok (fin sc0) -> vars sc0 = c ->
    wf n n sc0 -> (2 <= n)%nat -> ens_ok (obs_ensemble o) n conf -> (o = Omain -> tau conf <> 0) ->
    (forall i, fair (mv i)) -> (forall i, dr_mc (w_obs ERNum w m) i = as_draw (mv i)) ->
    exists st, st 0%nat = sc0 /\ metropolis_path n (ens_energy (obs_ensemble o) n n (2 * PI / tau conf)) b mv st /\
      let avg g := path_mean (Z.to_nat 8000) (Z.to_nat (gap (obs_ensemble o))) g st in
      l = numbers (map Some [tau conf; ednsty conf; b; avg (obs_density o n (2 * PI / tau conf));
                             avg (fun c => mag n c vx); avg (fun c => mag n c vy); avg (fun c => mag n c vz)]).
Proof.
  intros Hm Hl Ho. 
  destruct Hl as [q' o' b r0 r1 r2 r3 c' Hm' Hb Hr|r0 r1 r2 r3 c' Hm' _|b Hm' _|e b f f' r0 r1 r2 r3 c1 c2 Hm' _ _ _ _];
    [|rewrite Hm' in Hm; discriminate Hm..].
  rewrite Hm in Hm'. injection Hm' as <- <-.
  destruct (find_total_ER q fuel (r_draws ERNum (w_rng ERNum w m)) (config_map Some conf) Ho) as [A B].
  destruct (Nat.le_gt_cases 13 fuel) as [F|F]; [|specialize (B F); congruence].
  destruct (A F) as (x & Ex & Lx). assert (b = Some x) by congruence. subst b. exists x. split; [exact Lx|].
  intros n sc0 mv c E V W Hn He Ht Hf Hd.
  set (c1 := set_beta (fit_conf q conf) x).
  assert (T1 : tau c1 = tau conf) by (unfold c1; destruct conf; destruct q; reflexivity).
  assert (B1 : beta c1 = x) by (unfold c1; destruct conf; destruct q; reflexivity).
  assert (C1 : set_ssize c1 (hsize c1) = c) by (unfold c1, c; destruct conf; destruct q; reflexivity).
  assert (M1 : config_map Some c1 = set_beta (fit_conf q (config_map Some conf)) (Some x)) by (unfold c1; destruct conf; destruct q; reflexivity).
  rewrite <- C1 in E, V.
  destruct (obs_value o n c1 (w_obs ERNum w m) sc0 mv E V W Hn) as (st & S0 & P & Q); auto.
  { destruct o; cbn [obs_ensemble ens_ok] in *; rewrite ?T1; exact He. }
  { intros h. rewrite T1. exact (Ht h). }
  rewrite B1, T1 in P. exists st. split; [exact S0|]. split; [exact P|]. cbv zeta in Q |- *.
  change (ER) with (num ERNum) in Q. rewrite M1, T1 in Q. 
  assert (X := eq_trans (eq_sym Hr) Q). injection X as -> -> -> -> _.
  reflexivity.
Qed.

(** The high-frequency mode takes the temperature as given *)
Lemma high_report fuel w (conf : config R) l :
  line_of ERNum fuel w Mhigh (config_map Some conf) l ->
  forall n sc0 mv, let c := set_ssize conf (hsize conf) in
    chain_new ERNum (config_map Some c) (dr_new (w_obs ERNum w Mhigh)) = Ok (fin sc0) -> vars sc0 = c ->
    wf n n sc0 -> (2 <= n)%nat ->
    (forall i, fair (mv i)) -> (forall i, dr_mc (w_obs ERNum w Mhigh) i = as_draw (mv i)) ->
    exists st, st 0%nat = sc0 /\ metropolis_path n (ens_energy Estatic n n (2 * PI / tau conf)) (beta conf) mv st /\
      let avg g := path_mean (Z.to_nat 8000) (Z.to_nat 1000) g st in
      l = numbers (map Some [tau conf; ednsty conf; beta conf; avg (obs_density Oh n (2 * PI / tau conf));
                             avg (fun c => mag n c vx); avg (fun c => mag n c vy); avg (fun c => mag n c vz)]).
Proof.
  intros Hl n sc0 mv c E V W Hn Hf Hd.
  remember Mhigh as m eqn:Em. 
  destruct Hl as [q' o' b r0 r1 r2 r3 c' Hm' _ _|r0 r1 r2 r3 c' _ Hr|b Hm' _|e b f f' r0 r1 r2 r3 c1 c2 Hm' _ _ _ _];
    [rewrite Em in Hm'; discriminate Hm'| |congruence..].
  destruct (obs_value Oh n conf (w_obs ERNum w m) sc0 mv E V W Hn I ltac:(discriminate) Hf Hd) as (st & S0 & P & Q).
  exists st. split; [exact S0|]. split; [exact P|]. cbv zeta in Q |- *.
  assert (X := eq_trans (eq_sym Hr) Q). injection X as -> -> -> -> _. reflexivity.
Qed.

Lemma straight_conf conf : beta conf <> 0 -> hsize conf = 4%Z -> (0 <= ssize conf <= 4)%Z ->
  (3 <= length (hfield conf))%nat -> (3 <= length (hs conf))%nat -> exists sc,
  chain_new ERNum (config_map Some conf) straight_draw = Ok (fin sc) /\ vars sc = conf /\ wf 4 (Z.to_nat (ssize conf)) sc.
Proof.
  intros Hb H4 Hs4 Lf Ls.
  destruct (straight_new conf Hb) as (sc & E & Es); try lia; auto.
  assert (C : conf_ok ERNum (config_map Some conf)) by (apply conf_ok_map; auto; lia).
  destruct (chain_new_ok ERNum _ straight_draw C) as (sc' & E' & L1 & L2 & L3 & Et & Ev & Ef).
  assert (sc' = sc) by congruence. subst sc'.
  assert (F := new_fields_value conf straight_draw (fun _ => vzero) (fun _ => vzero) sc
     Lf Ls ltac:(lia) (fun _ => eq_refl) (fun _ => eq_refl) E).
  set (hfun := fun i => vadd (vadd (hvec (hfield conf))
                       (if (Z.of_nat i <? ssize conf)%Z then hvec (hs conf) else vzero))
                 (vscale (hvar conf) vzero)) in *.
  set (jv := vadd (mk3 1 1 (lambda conf)) (vscale (jvar conf) vzero)) in *.
  exists (mkChain (repeat jv 4) (map hfun (seq 0 4)) (repeat v0 4) (- trel conf) conf (c_log conf)).
  split; [|split; [reflexivity|constructor; cbn; rewrite ?H4; auto; lia]]. rewrite E. f_equal.
  destruct sc as [j h sp tm vr hf]. cbn [j_couple static_h spins t vars has_file] in *.
  change (hsize (config_map Some conf)) with (hsize conf) in *. rewrite H4 in *. change (Z.to_nat 4) with 4%nat in *.
  assert (LX : forall l1 l2 : list (v3 (num ERNum)), length l1 = 4%nat -> length l2 = 4%nat ->
     (forall i, (i < 4)%nat -> nth_error l1 i = nth_error l2 i) -> l1 = l2).
  { intros l1 l2 H1 H2 Hn.
    destruct l1 as [|a [|b [|c [|e [|]]]]]; try discriminate.
    destruct l2 as [|a' [|b' [|c' [|e' [|]]]]]; try discriminate.
    pose proof (Hn 0%nat ltac:(lia)). pose proof (Hn 1%nat ltac:(lia)).
    pose proof (Hn 2%nat ltac:(lia)). pose proof (Hn 3%nat ltac:(lia)). cbn in *. congruence. }
  unfold fin, chain_map; cbn [j_couple static_h spins t vars has_file].
  f_equal; auto.
  - apply LX; auto. intros i Hi. destruct (F i ltac:(lia)) as [_ B]. rewrite B.
    destruct i as [|[|[|[|]]]]; try lia; reflexivity.
  - apply LX; auto. intros i Hi. destruct (F i ltac:(lia)) as [A _]. rewrite A.
    destruct i as [|[|[|[|]]]]; try lia; reflexivity.
Qed.

(** ** A case *)
Definition ex_move : move := mkMove 7 (1 / 2) (1 / 4) 0.
Definition ex_moves : draws ERNum := mkDraws straight_draw (fun _ => as_draw ex_move).
Definition ex_rngR : rng ERNum :=
  mkRng ERNum (fun _ => ex_moves) (fun _ _ => (mk3 (Some 0) (Some 0) (Some 0), mk3 (Some 0) (Some 0) (Some 0))) (@concat _) (@concat _) (@concat _) (fun _ => String.EmptyString).
Definition ex_worldR : world ERNum := mkWorld ERNum (fun _ => ex_rngR) (fun _ => ex_moves).
Lemma ex_move_fair : fair ex_move.
Proof. unfold fair, unit_draw; cbn; lra. Qed.
Lemma ex_start (conf : config R) b : conf = ex_conf 4 2 Dxyplane -> 0 < b -> let c := set_beta (set_ssize conf (hsize conf)) b in
  exists sc0, chain_new ERNum (config_map Some c) straight_draw = Ok (fin sc0) /\ vars sc0 = c /\ wf 4 4 sc0.
Proof. intros -> Hb c. apply (straight_conf c); try (cbn; lia). cbn. lra. Qed.
Lemma ex_fit_ok q : fit_ok ERNum q (config_map Some (ex_conf 4 2 Dxyplane)).
Proof. destruct q; unfold fit_ok; cbn; repeat split; try lia. Qed.
Lemma low_pos q : 0 < low_end q.
Proof. destruct q; cbn; lra. Qed.
Lemma report_case m q o : fit_of m = Some (q, o) -> let conf := ex_conf 4 2 Dxyplane in
  (exists l, line_of ERNum 13 ex_worldR m (config_map Some conf) l) /\ fit_ok ERNum q (config_map Some conf) /\
  ens_ok (obs_ensemble o) 4 conf /\ tau conf <> 0 /\
  forall b, low_end q < b -> let c := set_beta (set_ssize conf (hsize conf)) b in
    exists sc0, chain_new ERNum (config_map Some c) (dr_new (w_obs ERNum ex_worldR m)) = Ok (fin sc0) /\ vars sc0 = c /\ wf 4 4 sc0.
Proof.
  intros Hm. remember (ex_conf 4 2 Dxyplane) as conf eqn:Hc. intros conf'. subst conf'. pose proof (ex_fit_ok q) as Fo. rewrite <- Hc in Fo.
  assert (T : tau conf <> 0) by (subst conf; cbn; lra).
  assert (O : ens_ok (obs_ensemble o) 4 conf) by (destruct o; cbn [obs_ensemble ens_ok]; (exact I || exact T || (split; [exact T|lia]))).
  pose proof (low_pos q) as Lq.
  split; [|split; [exact Fo|split; [exact O|split; [exact T|]]]].
  - destruct (find_total_ER q 13 (r_draws ERNum (w_rng ERNum ex_worldR m)) (config_map Some conf) Fo) as [A _].
    destruct (A (le_n _)) as (b & Eb & Lb). assert (b0 : 0 < b) by lra.
    destruct (ex_start conf b Hc b0) as (sc0 & E & V & W). clear Hc.
    set (c1 := set_beta (fit_conf q conf) b).
    assert (T1 : tau c1 = tau conf) by (unfold c1; destruct conf; destruct q; reflexivity).
    assert (C1 : set_ssize c1 (hsize c1) = set_beta (set_ssize conf (hsize conf)) b) by (unfold c1; destruct conf; destruct q; reflexivity).
    assert (M1 : config_map Some c1 = set_beta (fit_conf q (config_map Some conf)) (Some b)) by (unfold c1; destruct conf; destruct q; reflexivity).
    rewrite <- C1 in E, V.
    destruct (obs_value o 4 c1 (w_obs ERNum ex_worldR m) sc0 (fun _ => ex_move) E V W ltac:(lia)) as (st & _ & _ & Q); auto.
    { destruct o; cbn [obs_ensemble ens_ok] in *; rewrite ?T1; exact O. }
    { intros h. rewrite T1. exact T. }
    { intros i. exact ex_move_fair. }
    rewrite M1 in Q. cbv zeta in Q. clearbody c1. eexists. exact (l_fit ERNum 13 ex_worldR m (config_map Some conf) q o _ _ _ _ _ _ Hm Eb Q).
  - intros b Hb. apply ex_start; [exact Hc|lra].
Qed.
Lemma reports_modes {C} n (l : list (mode * C)) : map fst (reports n l) = map fst (reports n (map (fun m => (m, tt)) (map fst l))).
Proof.
  unfold reports. induction l as [|[m c] l IH]; [reflexivity|]. cbn [map filter fst]. destruct (match result_file m with Some k => String.eqb k n | None => false end); cbn [map fst]; rewrite IH; reflexivity.
Qed.
