(** Runs at several drive periods. *)
From Coq Require Import String Reals Lra Lia List ZArith Arith Bool.
From Flocq Require Import Core.
From Verif Require Import Num Monad NumR Spin Config Chain Langevin Fit Files Writers Runs SpecVec SpecChain SpecTotal SpecRuns SpecColumns SpecPeriods
  ProofsSpin ProofsChain ProofsEnergy ProofsDyn ProofsMC ProofsNew ProofsTotal ProofsFrame ProofsLoop ProofsSim ProofsFit ProofsRunTotal ProofsColumns.
Import ListNotations.
Local Close Scope R_scope.
Local Open Scope nat_scope.

Lemma step_ER x : tau_dt ERNum (Some x) = Some (period_step x).
Proof.
  unfold tau_dt, period_step. change (nltb ERNum (Some x) (nofZ ERNum 10)) with (Rltb x 10). unfold Rltb.
  destruct (Rlt_dec x 10).
  - change (ndiv ERNum) with er_div. apply er_div_ok. lra.
  - cbn. f_equal.
Qed.
Lemma step_pos x : (0 < x)%R -> (0 < period_step x)%R.
Proof. intros H. unfold period_step. destruct (Rlt_dec x 10); lra. Qed.

Lemma period_worker n s (sc : chain (num ERNum)) (d : draws ERNum) r x k fuel :
  wf n s sc -> 2 <= n -> 1 <= s -> hs_ok (vars sc) -> t sc = Some (- r)%R -> (0 < x)%R ->
  let m := period_steps r x k in
  (m <= fuel -> exists c0 st l0 rest, thermalise ERNum (dr_mc d) 20000000 (for_period sc x k) = Ok c0 /\ chain_log ERNum c0 = Ok l0 /\
     dynamics ERNum c0 st /\ length rest = 5 /\
     tau_worker ERNum fuel d (for_period sc x k) = Ok (l0, numbers (Some x :: Some (period_end r x k) :: rest)) /\
     (forall c, st m = fin c -> 2 <= s -> drive_ok (vars c) ->
        Some x :: Some (period_end r x k) :: rest = map Some (tau_row n s c))) /\
  (fuel < m -> tau_worker ERNum fuel d (for_period sc x k) = OutOfFuel).
Proof.
  intros W Hn Hs Hh Ex Hx m. set (sc1 := for_period sc x k).
  assert (W1 : wf n s sc1) by (destruct W; constructor; auto).
  assert (Hh1 : hs_ok (vars sc1)) by exact Hh.
  destruct (thermalise_ok ERNum n s (dr_mc d) 20000000 sc1 W1 ltac:(lia) Hh1) as (c0 & E0 & W0 & V0 & T0 & F0).
  assert (Hh0 : hs_ok (vars c0)) by (rewrite V0; exact Hh1).
  destruct (chain_log_ok ERNum n s c0 W0 Hh0 quarter_ER Hs) as [l0 El0].
  destruct (states ERNum n s c0 W0 Hn Hh0) as (st & D & P).
  assert (Ti : forall j, t (st j) = Some (- r + INR j * period_step x)%R).
  { intros j. destruct (P j) as (_ & _ & _ & ->). transitivity (after_steps ERNum j (Some (period_step x)) (Some (- r)%R)); [|apply after_ER].
    f_equal; [rewrite V0; reflexivity|]. rewrite T0. exact Ex. }
  assert (Et : c_t (vars c0) = Some (IZR k * x)%R) by (rewrite V0; reflexivity).
  assert (Em : m = nsteps (- r) (IZR k * x) (period_step x)) by (unfold m, period_steps, nsteps; do 3 f_equal; ring).
  assert (F : follows (plain_body ERNum) st (fun _ => []) m).
  { intros j _. unfold plain_body. rewrite (proj2 D). reflexivity. }
  assert (B : before ERNum t (c_t (vars c0)) st m).
  { intros j Hj. etransitivity; [apply f_equal2; [exact (Ti j)|exact Et]|]. apply ltb_ER. apply nsteps_before; [apply step_pos; exact Hx|lia]. }
  assert (En : nltb ERNum (t (st m)) (c_t (vars c0)) = false).
  { etransitivity; [apply f_equal2; [exact (Ti m)|exact Et]|]. apply ltb_ER_false. apply nsteps_after; [apply step_pos; exact Hx|lia]. }
  split.
  - intros Hf. pose proof (loop_ok ERNum t (c_t (vars c0)) _ st _ m fuel F B En Hf) as X. rewrite (proj1 D) in X.
    destruct (P m) as (Wm & Vm & _). destruct (q_rets ERNum n s (st m) quarter_ER Wm ltac:(rewrite Vm; exact Hh0)) as ([mm Emm] & _ & Ae & As & _).
    destruct (Ae ltac:(lia)) as [e Ee]. destruct (As ltac:(lia)) as [es Ees].
    assert (Tw : tau_worker ERNum fuel d sc1 = Ok (l0, numbers (Some x :: Some (period_end r x k) :: [e; es;
       ndiv ERNum (vx mm) (nofZ ERNum (ssize (vars (st m)))); ndiv ERNum (vy mm) (nofZ ERNum (ssize (vars (st m)))); ndiv ERNum (vz mm) (nofZ ERNum (ssize (vars (st m))))]))).
    { unfold tau_worker. rewrite E0. cbn [bind]. rewrite El0. cbn [bind]. rewrite X. cbn [bind]. rewrite Ees. cbn [bind]. rewrite Ee. cbn [bind]. rewrite Emm. cbn [bind]. cbv zeta.
      do 4 f_equal; [rewrite Vm, V0; reflexivity|]. f_equal. f_equal. exact (Ti m). }
    exists c0, st, l0. eexists. split; [exact E0|]. split; [exact El0|]. split; [exact D|]. split; [|split; [exact Tw|]]; [reflexivity|].
    intros c Ec Hs2 Hd. assert (Wc : wf n s c) by (apply wf_fin; rewrite <- Ec; exact Wm).
    pose proof (tau_value n s fuel d sc1 l0 _ c0 st m c Tw E0 D B En Ec Wc Hs2 Hd) as Q. unfold numbers in Q.
    assert (I : forall a b : list (num ERNum), map (@Tnum (num ERNum)) a = map (@Tnum (num ERNum)) b -> a = b).
    { induction a as [|u a IH]; intros [|v b] H; try discriminate; [reflexivity|]. cbn in H. injection H as -> H. f_equal. auto. }
    exact (I _ _ Q).
  - intros Hf. unfold tau_worker. rewrite E0. cbn [bind]. rewrite El0. cbn [bind].
    pose proof (ProofsLoop.loop_short ERNum t (c_t (vars c0)) _ st _ m F B fuel 0 ltac:(lia)) as X. rewrite (proj1 D) in X. rewrite X. reflexivity.
Qed.

(** ** Where the runs end *)
Lemma period_short x k : (0 < x < 10)%R -> (0 <= k)%Z -> period_steps 0 x k = Z.to_nat (100 * k) /\ period_end 0 x k = (IZR k * x)%R.
Proof.
  intros H Hk. assert (A : period_steps 0 x k = Z.to_nat (100 * k)).
  { unfold period_steps. f_equal. unfold period_step. destruct (Rlt_dec x 10); [|lra].
    replace ((IZR k * x + 0) / (x / 100))%R with (IZR (100 * k)); [apply Zceil_IZR|]. rewrite mult_IZR. field. lra. }
  split; [exact A|]. unfold period_end. rewrite A, INR_IZR_INZ, Z2Nat.id by lia. unfold period_step. destruct (Rlt_dec x 10); [|lra].
  rewrite mult_IZR. field.
Qed.
Lemma period_late r x k : (0 < x)%R -> (- r <= IZR k * x)%R -> (IZR k * x <= period_end r x k < IZR k * x + period_step x)%R.
Proof.
  intros Hx Hr. pose proof (step_pos x Hx) as Hd. split.
  - unfold period_end. apply nsteps_after; [exact Hd|]. unfold nsteps, period_steps. replace (IZR k * x - - r)%R with (IZR k * x + r)%R by ring. lia.
  - unfold period_end. destruct (Nat.eq_dec (period_steps r x k) 0) as [->|Hm]; [cbn; lra|].
    assert (B : (- r + INR (period_steps r x k - 1) * period_step x < IZR k * x)%R).
    { apply nsteps_before; [exact Hd|]. unfold nsteps, period_steps in *. replace (IZR k * x - - r)%R with (IZR k * x + r)%R by ring. lia. }
    rewrite minus_INR in B by lia. change (INR 1) with 1%R in B. lra.
Qed.

(** ** The mode *)
Lemma period_mode fuel xs k rg (conf : config (num ERNum)) f r : steppable ERNum conf -> trel conf = Some r ->
  (forall x, In x xs -> (0 < x)%R /\ period_steps r x k <= fuel) ->
  exists rows f1, run_tau ERNum fuel (map Some xs) k rg conf f =
      Ok (conf, append ("evt" ++ dec (Z.to_nat k) ++ ".dat")%string (r_file ERNum rg (map (fun l => [l]) rows)) f1) /\
    Forall2 (fun x row => exists rest, length rest = 5 /\ row = numbers (Some x :: Some (period_end r x k) :: rest)) xs rows.
Proof.
  intros (C & H1 & H2 & Th) Er Hx. unfold run_tau. rewrite pool_ok by lia. cbn [bind]. cbv zeta.
  set (name := ("evt" ++ dec (Z.to_nat k) ++ ".dat")%string).
  match goal with |- context [foldM ?g _ _] => set (G := g) end.
  assert (Q : forall pre post lf, xs = pre ++ post -> exists rows f1,
     foldM G (range (length pre) (length pre + length post)) lf = Ok (fst lf ++ map (fun l => [l]) rows, f1) /\
     Forall2 (fun x row => exists rest, length rest = 5 /\ row = numbers (Some x :: Some (period_end r x k) :: rest)) post rows).
  { intros pre post. revert pre. induction post as [|x post IH]; intros pre [l f0] E.
    - exists [], f0. rewrite Nat.add_0_r. unfold range. rewrite Nat.sub_diag. cbn. rewrite app_nil_r. auto.
    - unfold range. replace (length pre + length (x :: post) - length pre) with (S (length post)) by (cbn; lia). cbn [seq foldM].
      assert (Ei : idx (map Some xs) (length pre) = Ok (Some x)).
      { unfold idx. rewrite E, map_app, nth_error_app2 by (rewrite map_length; lia). rewrite map_length, Nat.sub_diag. reflexivity. }
      destruct (new_wf ERNum conf (dr_new (r_draws ERNum rg (length pre))) C ltac:(lia)) as (sc & En & W & V & Tt & _).
      assert (Hh : hs_ok (vars sc)) by (rewrite V; exact (conf_hs ERNum conf C)).
      assert (Ts : t sc = Some (- r)%R) by (etransitivity; [exact Tt|]; rewrite Er; reflexivity).
      destruct (Hx x) as [Px Fx]; [rewrite E; apply in_or_app; right; left; reflexivity|].
      destruct (period_worker _ _ sc (r_draws ERNum rg (length pre)) r x k fuel W ltac:(lia) ltac:(lia) Hh Ts Px) as [PW _].
      destruct (PW Fx) as (c0 & st & l0 & rest & _ & _ & _ & Lr & Tw & _).
      assert (Gx : exists f2, G (length pre) (l, f0) = Ok (l ++ [[numbers (Some x :: Some (period_end r x k) :: rest)]], f2)).
      { unfold G. eexists. etransitivity; [apply (f_equal (fun q => bind q _) Ei)|]. cbn [bind]. unfold new_logged. rewrite En. cbn [bind].
        assert (Es : set_vars sc (set_ct (set_dt (set_tau (vars sc) (Some x)) (tau_dt ERNum (Some x))) (nmul ERNum (nofZ ERNum k) (Some x))) = for_period sc x k).
        { unfold for_period. rewrite <- step_ER. reflexivity. }
        rewrite Es. rewrite Tw. cbn [bind]. reflexivity. }
      destruct Gx as [f2 Gx]. rewrite Gx. cbn [bind].
      destruct (IH (pre ++ [x]) (l ++ [[numbers (Some x :: Some (period_end r x k) :: rest)]], f2)) as (rows & f1 & E1 & F1).
      { rewrite E, <- app_assoc. reflexivity. }
      unfold range in E1. rewrite app_length in E1. cbn [length] in E1. replace (length pre + 1 + length post - (length pre + 1)) with (length post) in E1 by lia.
      replace (length pre + 1) with (S (length pre)) in E1 by lia. rewrite E1. cbn [fst].
      exists (numbers (Some x :: Some (period_end r x k) :: rest) :: rows), f1. split; [cbn [map]; rewrite <- app_assoc; reflexivity|]. constructor; [eauto|exact F1]. }
  destruct (Q [] xs ([], append name [] f) eq_refl) as (rows & f1 & E1 & F1). cbn [length Nat.add fst app] in E1.
  rewrite map_length. rewrite E1. cbn [bind]. exists rows, f1. split; [reflexivity|exact F1].
Qed.

Lemma period_misses : exists x k, (10 <= x)%R /\ (0 <= k)%Z /\ period_end 0 x k <> (IZR k * x)%R.
Proof.
  exists (1001 / 100)%R, 1%Z. split; [lra|]. split; [lia|]. unfold period_end, period_steps, period_step.
  destruct (Rlt_dec (1001 / 100) 10); [lra|]. rewrite INR_IZR_INZ. intro E.
  assert (H : (IZR (Z.of_nat (Z.to_nat (Zceil ((1 * (1001 / 100) + 0) / (1 / 10))))) * 10 = 1001)%R) by lra.
  rewrite <- mult_IZR in H. apply eq_IZR in H. lia.
Qed.
