(** Histograms over independent trajectories and over one trajectory. *)
From Coq Require Import String Reals List ZArith Arith Lra Lia Bool.
From Flocq Require Import Core.
From Verif Require Import Num Monad NumR Config Chain Fit Files Writers Runs SpecVec SpecChain SpecTotal SpecColumns SpecRuns SpecHist
  ProofsSpin ProofsDir ProofsFrame ProofsHistory ProofsChain ProofsEnergy ProofsTotal ProofsLoop ProofsSim ProofsRunTotal ProofsHist.
Import ListNotations.
Local Close Scope R_scope.
Local Open Scope nat_scope.

Section Gen.
Variable N : NumOps.
Notation T := (num N).

Theorem dynhist_run samples rg (conf : config T) f conf' f' : gen_hist_dynamics N samples rg conf f = Ok (conf', f') ->
  let name := ("dyn-hist-t-" ++ r_fmt N rg (c_t conf) ++ ".dat")%string in
  log_name (c_file conf) 0 <> name ->
  exists rows, conf' = conf /\ length rows = samples /\
   (forall i, i < samples -> exists sc c h, chain_new N conf (dr_new (r_draws N rg i)) = Ok sc /\
      iterM (update N) (Z.to_nat (ntou64 N (ndiv N (c_t conf) (c_dt conf)))) sc = Ok c /\
      hist_head N (nofZ N (Z.of_nat i)) c = Ok h /\ nth i rows [] = numbers h) /\
   contents f' name = Some (held f name ++ r_file N rg (map (fun l => [l]) rows)).
Proof.
  intros E name Hnm. unfold gen_hist_dynamics in E. cbv zeta in E. fold name in E. apply bind_ok in E. destruct E as (u & _ & E).
  apply bind_ok in E. destruct E as ([l g] & E1 & E). injection E as <- <-.
  match goal with H : foldM ?g _ _ = _ |- _ => set (G := g) in H end.
  set (P := fun i row => exists sc c h, chain_new N conf (dr_new (r_draws N rg i)) = Ok sc /\
      iterM (update N) (Z.to_nat (ntou64 N (ndiv N (c_t conf) (c_dt conf)))) sc = Ok c /\
      hist_head N (nofZ N (Z.of_nat i)) c = Ok h /\ row = numbers h).
  assert (Q : forall n q l0 f0 l f1, foldM G (seq q n) (l0, f0) = Ok (l, f1) ->
     exists rows, l = l0 ++ map (fun x => [x]) rows /\ length rows = n /\ (forall i, i < n -> P (q + i) (nth i rows [])) /\ contents f1 name = contents f0 name).
  { induction n as [|n IH]; intros q l0 f0 l1 f1 H.
    - cbn in H. injection H as <- <-. exists []. rewrite app_nil_r. repeat split. intros i Hi. lia.
    - cbn [seq foldM] in H. apply bind_ok in H. destruct H as ([l2 f2] & H1 & H). unfold G in H1 at 1.
      apply bind_ok in H1. destruct H1 as ([sc f3] & H2 & H1). apply bind_ok in H1. destruct H1 as (c & H3 & H1).
      apply bind_ok in H1. destruct H1 as (h & H4 & H1). injection H1 as <- <-. apply new_logged_inv in H2. destruct H2 as (H2 & F2).
      destruct (IH _ _ _ _ _ H) as (rows & A & B & C & D). exists (numbers h :: rows). split; [rewrite A, <- app_assoc; reflexivity|].
      split; [cbn; lia|]. split; [|rewrite D; apply F2; congruence].
      intros [|i] Hi; cbn [nth]; [rewrite Nat.add_0_r; exists sc, c, h; auto|]. replace (q + S i) with (S q + i) by lia. apply C. lia. }
  unfold range in E1. rewrite Nat.sub_0_r in E1. destruct (Q _ _ _ _ _ _ E1) as (rows & A & B & C & D). cbn [app] in A.
  exists rows. split; [reflexivity|]. split; [exact B|]. split; [exact C|]. rewrite contents_append, String.eqb_refl, D, contents_append, String.eqb_refl.
  unfold held. rewrite A. destruct (contents f name); [now rewrite app_nil_r|reflexivity].
Qed.
End Gen.

(** ** One trajectory *)
Lemma concat_filter {B} (p : nat -> bool) (g : nat -> B) : forall l,
  concat (map (fun k => if p k then [g k] else []) l) = map g (filter p l).
Proof. induction l as [|a l IH]; [reflexivity|]. cbn [map concat filter]. destruct (p a); cbn [map app]; now rewrite IH. Qed.
Lemma map_seq_shift {B} (g : nat -> B) a : forall m q, map (fun k => g (a + k)) (seq q m) = map g (seq (a + q) m).
Proof. induction m as [|m IH]; intros q; [reflexivity|]. cbn [seq map]. rewrite IH. replace (a + S q) with (S (a + q)) by lia. reflexivity. Qed.

Lemma dyn_iter N (sc : chain (num N)) st k : dynamics N sc st -> iterM (update N) k sc = Ok (st k).
Proof.
  intros [D0 D]. assert (H : forall k i, iterM (update N) k (st i) = Ok (st (i + k))).
  { intros q. induction q as [|q IH]; intros i; [rewrite Nat.add_0_r; reflexivity|]. cbn [iterM]. rewrite D. cbn [bind]. rewrite IH. do 2 f_equal. lia. }
  rewrite <- D0. exact (H k 0).
Qed.

Lemma u64_floor x : (0 <= x < IZR (2 ^ 64))%R -> Z.to_nat (ntou64 ERNum (Some x)) = Z.to_nat (Rfloor x) /\ ntou64 ERNum (Some x) = Rfloor x.
Proof.
  intros H. cut (ntou64 ERNum (Some x) = Rfloor x); [intros E; rewrite E; auto|].
  change (Rto_u64 x = Rfloor x). unfold Rto_u64. change Rfloor with Zfloor.
  assert (0 <= Zfloor x)%Z by (apply Zfloor_lub; apply H). assert (Zfloor x < 2 ^ 64)%Z; [|lia].
  apply lt_IZR. eapply Rle_lt_trans; [apply Zfloor_lb|apply H].
Qed.

Theorem single_run fuel samples rg (conf : config (num ERNum)) f r x dt : steppable ERNum conf ->
  trel conf = Some r -> tau conf = Some x -> c_dt conf = Some dt -> (0 < dt <= x)%R -> (30 * x / dt < IZR (2 ^ 64))%R ->
  let name := ("hist-st-t-" ++ r_fmt ERNum rg (c_t conf) ++ ".dat")%string in
  let a := warmup x dt in
  let c := Z.to_nat (Rfloor (x / dt)) in
  let m := nsteps (- r + INR a * dt) ((INR samples + 30) * x) dt in
  log_name (c_file conf) 0 <> name -> m <= fuel ->
  exists sc st row f', 1 <= c /\
    chain_new ERNum conf (dr_new (r_draws ERNum rg 0)) = Ok sc /\ dynamics ERNum sc st /\
    (forall k, t (st k) = Some (- r + INR k * dt)%R /\ exists h, hist_head ERNum (t (st k)) (st k) = Ok h /\ row k = numbers h) /\
    gen_single_traj ERNum fuel samples rg conf f = Ok (conf, f') /\
    contents f' name = Some (held f name ++ map row (marks c a m)).
Proof.
  intros (C & H1 & H2 & Th) Er Ex Ed Hd Hbig name a c m Hnm Hf.
  destruct (new_wf ERNum conf (dr_new (r_draws ERNum rg 0)) C ltac:(lia)) as (sc & En & W & V & Tt & _).
  assert (Hh : hs_ok (vars sc)) by (rewrite V; exact (conf_hs ERNum conf C)).
  assert (Ts : t sc = Some (- r)%R) by (etransitivity; [exact Tt|]; rewrite Er; reflexivity).
  destruct (states ERNum _ _ sc W ltac:(lia) Hh) as (st & D & P).
  assert (Ti : forall j, t (st j) = Some (- r + INR j * dt)%R).
  { intros j. destruct (P j) as (_ & _ & _ & ->). transitivity (after_steps ERNum j (Some dt) (Some (- r)%R)); [|apply after_ER].
    f_equal; [rewrite V; exact Ed|exact Ts]. }
  assert (Hq : forall k, exists h, hist_head ERNum (t (st k)) (st k) = Ok h).
  { intros k. destruct (P k) as (Wk & Vk & _). destruct (q_rets ERNum _ _ (st k) quarter_ER Wk ltac:(rewrite Vk; exact Hh)) as ([mm Em] & _ & _ & As & _).
    destruct (As ltac:(lia)) as [es Es]. unfold hist_head. rewrite Em. cbn [bind]. cbv zeta. rewrite Es. cbn [bind]. eauto. }
  set (rowf := fun k => match hist_head ERNum (t (st k)) (st k) with Ok h => numbers h | _ => [] end).
  assert (Rw : forall k, exists h, hist_head ERNum (t (st k)) (st k) = Ok h /\ rowf k = numbers h).
  { intros k. destruct (Hq k) as [h Eh]. exists h. split; [exact Eh|]. unfold rowf. rewrite Eh. reflexivity. }
  assert (Hx0 : (1 <= x / dt)%R).
  { apply Rmult_le_reg_r with dt; [lra|]. unfold Rdiv. rewrite Rmult_assoc, Rinv_l by lra. lra. }
  assert (Hx1 : (x / dt < IZR (2 ^ 64))%R).
  { replace (30 * x / dt)%R with (30 * (x / dt))%R in Hbig by (field; lra). lra. }
  assert (Hfl : (1 <= Rfloor (x / dt))%Z) by (change Rfloor with Zfloor; apply Zfloor_lub; exact Hx0).
  assert (Hc : 1 <= c) by (unfold c; lia).
  assert (E30 : nmul ERNum (nofZ ERNum 30) (tau conf) = Some (30 * x)%R) by (rewrite Ex; reflexivity).
  assert (Ea : Z.to_nat (ntou64 ERNum (ndiv ERNum (nmul ERNum (nofZ ERNum 30) (tau conf)) (c_dt conf))) = a).
  { transitivity (Z.to_nat (ntou64 ERNum (Some (30 * x / dt)%R))).
    - do 2 f_equal. etransitivity; [apply f_equal2; [exact E30|exact Ed]|]. change (ndiv ERNum) with er_div. apply er_div_ok. lra.
    - apply u64_floor. replace (30 * x / dt)%R with (30 * (x / dt))%R in * by (field; lra). lra. }
  assert (Ec : ntou64 ERNum (ndiv ERNum (tau conf) (c_dt conf)) = Z.of_nat c).
  { transitivity (ntou64 ERNum (Some (x / dt)%R)).
    - f_equal. etransitivity; [apply f_equal2; [exact Ex|exact Ed]|]. change (ndiv ERNum) with er_div. apply er_div_ok. lra.
    - unfold c. rewrite Z2Nat.id by lia. apply u64_floor. lra. }
  set (tm := nmul ERNum (nadd ERNum (nofZ ERNum (Z.of_nat samples)) (nofZ ERNum 30)) (tau conf)).
  assert (Et : tm = Some ((INR samples + 30) * x)%R) by (unfold tm; rewrite Ex, INR_IZR_INZ; reflexivity).
  set (out := fun k => if ((a + k) mod c =? 0) then [rowf (a + k)] else []).
  assert (F : follows (traj_body ERNum (Z.of_nat c) a) (fun k => st (a + k)) out m).
  { intros j _. unfold traj_body. rewrite (proj2 D). cbn [bind]. destruct (Z.eqb_spec (Z.of_nat c) 0); [lia|].
    replace (a + S j) with (S (a + j)) by lia. unfold out. replace (a + S j) with (S (a + j)) by lia.
    destruct (Rw (S (a + j))) as (h & Eh & Erow). rewrite <- Nat2Z.inj_mod.
    destruct (Nat.eqb_spec (S (a + j) mod c) 0) as [E|E].
    - rewrite E. cbn [Z.of_nat Z.eqb]. rewrite Eh. cbn [bind]. rewrite Erow. reflexivity.
    - destruct (Z.eqb_spec (Z.of_nat (S (a + j) mod c)) 0); [lia|]. reflexivity. }
  assert (Ti' : forall j, t (st (a + j)) = Some (- r + INR a * dt + INR j * dt)%R).
  { intros j. rewrite Ti, plus_INR. f_equal. ring. }
  assert (B : before ERNum t tm (fun k => st (a + k)) m).
  { intros j Hj. etransitivity; [apply f_equal2; [exact (Ti' j)|exact Et]|]. apply ltb_ER. apply nsteps_before; [lra|exact Hj]. }
  assert (Ee : nltb ERNum (t (st (a + m))) tm = false).
  { etransitivity; [apply f_equal2; [exact (Ti' m)|exact Et]|]. apply ltb_ER_false. apply nsteps_after; [lra|apply le_n]. }
  pose proof (loop_ok ERNum t tm _ (fun k => st (a + k)) out m fuel F B Ee Hf) as X. cbv beta in X. rewrite Nat.add_0_r in X.
  unfold gen_single_traj. cbv zeta. fold name. unfold new_logged. rewrite En. cbn [bind]. rewrite Ea, Ec, (dyn_iter ERNum sc st a D). cbn [bind].
  fold tm. rewrite X. cbn [bind].
  exists sc, st, rowf. eexists. split; [exact Hc|]. split; [reflexivity|]. split; [exact D|]. split; [intros k; split; [apply Ti|apply Rw]|].
  split; [reflexivity|]. rewrite contents_append, String.eqb_refl.
  assert (Eo : concat (map out (seq 1 m)) = map rowf (marks c a m)).
  { unfold out, marks. rewrite (map_seq_shift (fun k => if k mod c =? 0 then [rowf k] else []) a m 1).
    replace (a + 1) with (S a) by lia. apply (concat_filter (fun k => k mod c =? 0) rowf). }
  rewrite Eo. unfold held.
  assert (Fc : contents (if c_log conf then create (log_name (c_file conf) 0) (append name [] f) else append name [] f) name
     = Some (match contents f name with Some l => l | None => [] end)).
  { destruct (c_log conf); rewrite ?contents_create; [destruct (String.eqb_spec name (log_name (c_file conf) 0)); [congruence|]|];
    rewrite contents_append, String.eqb_refl; destruct (contents f name); rewrite ?app_nil_r; reflexivity. }
  rewrite Fc. reflexivity.
Qed.

(** ** Where the marks are *)
Lemma filter_none (p : nat -> bool) l : (forall k, In k l -> p k = false) -> filter p l = [].
Proof. induction l as [|a l IH]; intros H; [reflexivity|]. cbn [filter]. rewrite (H a) by (left; reflexivity). apply IH. intros k Hk. apply H. right. exact Hk. Qed.
Lemma marks_multiples c : 1 <= c -> forall n q, filter (fun k => k mod c =? 0) (seq (S (q * c)) (n * c)) = map (fun j => (S q + j) * c) (seq 0 n).
Proof.
  intros Hc. induction n as [|n IH]; intros q; [reflexivity|].
  replace (S n * c) with ((c - 1) + (1 + n * c)) by nia. rewrite !seq_app, !filter_app.
  rewrite (filter_none _ (seq (S (q * c)) (c - 1))).
  2:{ intros k Hk. apply in_seq in Hk. apply Nat.eqb_neq. intros E. apply Nat.mod_divide in E; [|lia]. destruct E as [z Ez].
    destruct (le_lt_dec z q) as [H|H]; [assert (z * c <= q * c) by (apply Nat.mul_le_mono_r; exact H)|assert (S q * c <= z * c) by (apply Nat.mul_le_mono_r; exact H)]; lia. }
  cbn [seq filter app]. replace (S (q * c) + (c - 1)) with (S q * c) by nia. rewrite Nat.mod_mul by lia. cbn [Nat.eqb app].
  replace (S q * c + 1) with (S (S q * c)) by lia. rewrite IH. cbn [seq map]. f_equal; [lia|]. rewrite <- seq_shift, map_map. apply map_ext. intros j. lia.
Qed.
Lemma single_even x dt c samples : (0 < dt)%R -> 1 <= c -> x = (INR c * dt)%R ->
  let a := warmup x dt in let m := nsteps (- 0 + INR a * dt) ((INR samples + 30) * x) dt in
  Z.to_nat (Rfloor (x / dt)) = c /\ m = samples * c /\
  map (fun k => - 0 + INR k * dt)%R (marks c a m) = map (fun j => (31 + INR j) * x)%R (seq 0 samples).
Proof.
  intros Hd Hc Hx a m.
  assert (Ea : a = 30 * c).
  { unfold a, warmup. replace (30 * x / dt)%R with (IZR (Z.of_nat (30 * c))).
    - change Rfloor with Zfloor. rewrite Zfloor_IZR, Nat2Z.id. reflexivity.
    - rewrite <- INR_IZR_INZ, mult_INR, Hx. change (INR 30) with (INR (Pos.to_nat 30)). rewrite INR_IZR_INZ, positive_nat_Z. field. lra. }
  assert (Em : m = samples * c).
  { unfold m, nsteps. replace (((INR samples + 30) * x - (- 0 + INR a * dt)) / dt)%R with (IZR (Z.of_nat (samples * c))); [rewrite Zceil_IZR, Nat2Z.id; reflexivity|].
    rewrite <- INR_IZR_INZ, Ea, !mult_INR, Hx. change (INR 30) with (INR (Pos.to_nat 30)). rewrite (INR_IZR_INZ (Pos.to_nat 30)), positive_nat_Z. field. lra. }
  split; [|split; [exact Em|]].
  - replace (x / dt)%R with (IZR (Z.of_nat c)); [change Rfloor with Zfloor; rewrite Zfloor_IZR, Nat2Z.id; reflexivity|]. rewrite <- INR_IZR_INZ, Hx. field. lra.
  - unfold marks. rewrite Em, Ea, marks_multiples by exact Hc. rewrite map_map. apply map_ext. intros j. rewrite mult_INR, plus_INR, Hx.
    change (INR 31) with (INR (Pos.to_nat 31)). rewrite (INR_IZR_INZ (Pos.to_nat 31)), positive_nat_Z. ring.
Qed.
(** with a period that is not a multiple of the step the lines are not at multiples of the period *)
Lemma single_drifts : exists x dt samples, (0 < dt < x)%R /\
  let m := nsteps (- 0 + INR (warmup x dt) * dt) ((INR samples + 30) * x) dt in
  exists k, marks (Z.to_nat (Rfloor (x / dt))) (warmup x dt) m = [k] /\ forall j, (- 0 + INR k * dt)%R <> (IZR j * x)%R.
Proof.
  exists 10%R, 3%R, 1. split; [lra|]. cbv zeta.
  assert (Ew : warmup 10 3 = 100).
  { unfold warmup. replace (30 * 10 / 3)%R with 100%R by lra. change Rfloor with Zfloor. rewrite Zfloor_IZR. reflexivity. }
  assert (Ec : Rfloor (10 / 3) = 3%Z) by (change Rfloor with Zfloor; apply Zfloor_imp; cbn; lra).
  assert (E100 : INR 100 = 100%R) by (rewrite INR_IZR_INZ; reflexivity).
  assert (Em : nsteps (- 0 + INR (warmup 10 3) * 3) ((INR 1 + 30) * 10) 3 = 4).
  { unfold nsteps. rewrite Ew, E100. replace (((INR 1 + 30) * 10 - (- 0 + 100 * 3)) / 3)%R with (10 / 3)%R by (cbn; lra).
    rewrite (Zceil_imp 4) by (cbn; lra). reflexivity. }
  rewrite Em, Ew, Ec. exists 102. split; [reflexivity|]. intros j Hj. rewrite INR_IZR_INZ in Hj. change (Z.of_nat 102) with 102%Z in Hj.
  assert (Hj' : IZR (306) = IZR (j * 10)) by (rewrite mult_IZR; lra). apply eq_IZR in Hj'. lia.
Qed.
