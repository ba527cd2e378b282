(** run_dyn_profile: which checkpoints are hit and when the mode returns. *)
From Coq Require Import String SpecFloat Reals Lra Lia List ZArith Arith Bool Permutation.
From Flocq Require Import Core.
From Verif Require Import Num Monad NumR Spin Config Chain Langevin Fit Files Toml Writers Runs SpecVec SpecChain SpecTotal SpecToml SpecWriters SpecRuns
  ProofsChain ProofsEnergy ProofsDyn ProofsMC ProofsNew ProofsTotal ProofsToml ProofsNames ProofsFrame ProofsLoop ProofsSim ProofsStrobe ProofsTraj ProofsWriters Samples.
Import ListNotations.
Local Close Scope R_scope.
Local Open Scope nat_scope.

Section Gen.
Context (N : NumOps).
Notation T := (num N).

Lemma mapM_spec {A B} (f : A -> res B) (P : A -> B -> Prop) l : (forall a, In a l -> exists b, f a = Ok b /\ P a b) ->
  exists l', mapM f l = Ok l' /\ Forall2 P l l'.
Proof.
  induction l as [|a l IH]; intros H; [exists []; split; [reflexivity|constructor]|]. cbn.
  destruct (H a (or_introl eq_refl)) as (b & -> & Pb). cbn [bind]. destruct IH as (l' & -> & F); [intros; apply H; right; assumption|].
  exists (b :: l'). split; [reflexivity|constructor; assumption].
Qed.

(** one snapshot is one message per site *)
Lemma snapshot_total n s (sc : chain T) : wf n s sc -> 1 <= n ->
  exists ms, snapshot N sc = Ok ms /\ map p_i ms = seq 0 n.
Proof.
  intros W Hn. unfold snapshot. cbv zeta. rewrite (wf_n W), range0.
  match goal with |- exists ms, mapM ?f _ = _ /\ _ => destruct (mapM_spec f (fun i m => p_i m = i) (seq 0 n)) as (ms & E & F) end.
  - intros i Hi. apply in_seq in Hi.
    assert (Hl : exists k, i_l n i = Ok k /\ k < n).
    { unfold i_l. destruct (Nat.eqb_spec i 0) as [->|]; [exists (n - 1); rewrite usub_ok by lia|exists (i - 1)]; split; reflexivity || lia. }
    assert (Hr : exists k, i_r n i = Ok k /\ k < n).
    { unfold i_r. rewrite usub_ok by lia. cbn [bind]. destruct (Nat.eqb_spec i (n - 1)) as [->|]; eexists; (split; [reflexivity|lia]). }
    destruct Hl as (il & -> & Bl), Hr as (ir & Er & Br). cbn [bind].
    pose proof (wf_spins _ _ _ W) as L1. pose proof (wf_js _ _ _ W) as L2.
    rewrite (idx_ok (spins sc) il (z3 N)) by lia. cbn [bind]. rewrite (idx_ok (spins sc) i (z3 N)) by lia. cbn [bind]. rewrite Er. cbn [bind].
    rewrite (idx_ok (spins sc) ir (z3 N)) by lia. cbn [bind]. rewrite (idx_ok (j_couple sc) il (z3 N)) by lia. cbn [bind].
    rewrite (idx_ok (j_couple sc) i (z3 N)) by lia. cbn [bind]. eexists. split; reflexivity.
  - exists ms. split; [exact E|]. clear - F. induction F as [|i m l l' H F IH]; [reflexivity|]. cbn. rewrite H, IH. reflexivity.
Qed.

(** the profile run in terms of its states *)
Lemma profile_states n s (sc : chain T) m fuel : wf n s sc -> 2 <= n -> hs_ok (vars sc) ->
  (forall k, k < m -> nltb N (after_steps N k (c_dt (vars sc)) (t sc)) (c_t (vars sc)) = true) ->
  exists st ms, dynamics N sc st /\ (forall k, snapshot N (st k) = Ok (ms k) /\ map p_i (ms k) = seq 0 n) /\
   (forall k, wf n s (st k) /\ vars (st k) = vars sc /\ has_file (st k) = has_file sc /\ t (st k) = after_steps N k (c_dt (vars sc)) (t sc)) /\
   (nltb N (after_steps N m (c_dt (vars sc)) (t sc)) (c_t (vars sc)) = false -> m <= fuel ->
     profile_run N fuel sc = Ok (concat (map (fun k =>
       match checkpoint N (vars sc) (after_steps N k (c_dt (vars sc)) (t sc)) with Some z => [(z, ms k)] | None => [] end) (seq 1 m)))) /\
   (fuel < m -> profile_run N fuel sc = OutOfFuel).
Proof.
  intros W Hn Hh HB. destruct (states N n s sc W Hn Hh) as (st & D & P).
  assert (X : exists ms, forall k, snapshot N (st k) = Ok (ms k) /\ map p_i (ms k) = seq 0 n).
  { exists (fun k => match snapshot N (st k) with Ok l => l | _ => [] end). intros k. destruct (P k) as (Wk & _).
    destruct (snapshot_total n s (st k) Wk ltac:(lia)) as (l & E & M). rewrite E. auto. }
  destruct X as [ms X]. exists st, ms. split; [exact D|]. split; [exact X|]. split; [exact P|].
  assert (F : follows (profile_body N) st (fun k =>
       match checkpoint N (vars sc) (after_steps N k (c_dt (vars sc)) (t sc)) with Some z => [(z, ms k)] | None => [] end) m).
  { intros k Hk. unfold profile_body. rewrite (proj2 D k). cbn [bind]. destruct (P (S k)) as (_ & V & _ & Tk). rewrite V, Tk.
    destruct (checkpoint _ _ _); [|reflexivity]. rewrite (proj1 (X (S k))). reflexivity. }
  assert (B : before N t (c_t (vars sc)) st m).
  { intros k Hk. destruct (P k) as (_ & _ & _ & ->). apply HB. exact Hk. }
  unfold profile_run. split.
  - intros E Hf. pose proof (loop_ok N t (c_t (vars sc)) _ st _ m fuel F B) as H. rewrite (proj1 D) in H. rewrite H; [reflexivity| |exact Hf].
    destruct (P m) as (_ & _ & _ & ->). exact E.
  - intros Hf. pose proof (loop_short N t (c_t (vars sc)) _ st _ m F B fuel 0) as H. rewrite (proj1 D) in H. rewrite H by lia. reflexivity.
Qed.

Lemma sent_to_concat {A} (g : A -> list (Z * list (pmsg N))) z l : sent_to N z (concat (map g l)) = flat_map (fun k => sent_to N z (g k)) l.
Proof.
  induction l as [|k l IH]; [reflexivity|]. cbn [map concat flat_map]. unfold sent_to at 1. rewrite flat_map_app. fold (sent_to N z (concat (map g l))). rewrite IH. reflexivity.
Qed.
Lemma flat_map_none {A B} (g : A -> list B) l : (forall a, In a l -> g a = []) -> flat_map g l = [].
Proof. induction l as [|a l IH]; intros H; [reflexivity|]. cbn. rewrite (H a) by (left; reflexivity). apply IH. intros; apply H; right; assumption. Qed.
Lemma flat_map_one {B} (g : nat -> list B) k : forall m a, a <= k < a + m -> (forall j, j <> k -> g j = []) -> flat_map g (seq a m) = g k.
Proof.
  induction m as [|m IH]; intros a Hk H; [lia|]. cbn [seq flat_map]. destruct (Nat.eq_dec a k) as [->|Ne].
  - rewrite flat_map_none; [apply app_nil_r|]. intros j Hj. apply in_seq in Hj. apply H. lia.
  - rewrite (H a Ne). cbn. apply IH; [lia|exact H].
Qed.
End Gen.

(** ** Exact arithmetic *)
Section ER.
Local Open Scope R_scope.

Lemma near_ER (c : config (num ERNum)) tm tc dt z : tau c = Some tc -> c_dt c = Some dt ->
  nltb ERNum (nabs ERNum (nsub ERNum (Some tm) (nmul ERNum (nofZ ERNum z) (tau c)))) (ndiv ERNum (c_dt c) (nofZ ERNum 5))
  = Rltb (Rabs (tm - IZR z * tc)) (dt / 5).
Proof.
  intros Et Ed.
  transitivity (nltb ERNum (nabs ERNum (nsub ERNum (Some tm) (nmul ERNum (nofZ ERNum z) (Some tc)))) (ndiv ERNum (Some dt) (nofZ ERNum 5))).
  - f_equal; [do 3 f_equal; exact Et|f_equal; exact Ed].
  - cbn. unfold er_div. destruct (Req_EM_T 5 0); [lra|reflexivity].
Qed.
Lemma Rltb_true a b : Rltb a b = true <-> a < b.
Proof. unfold Rltb. destruct (Rlt_dec a b); split; intros; auto; discriminate || contradiction. Qed.

Lemma in_checkpoints z : In z checkpoints -> (500 <= z <= 4000 /\ z mod 500 = 0)%Z.
Proof. cbn. intuition subst; lia || reflexivity. Qed.

Lemma cp_some (c : config (num ERNum)) tm tc dt z : tau c = Some tc -> c_dt c = Some dt -> checkpoint ERNum c (Some tm) = Some z ->
  In z checkpoints /\ Rabs (tm - IZR z * tc) < dt / 5.
Proof.
  intros Et Ed H. unfold checkpoint in H. apply find_some in H. destruct H as [H1 H2]. split; [exact H1|].
  rewrite (near_ER c tm tc dt z Et Ed) in H2. apply Rltb_true. exact H2.
Qed.
Lemma cp_sep tm tc dt z z' : 2 * dt / 5 <= 500 * tc -> In z checkpoints -> In z' checkpoints ->
  Rabs (tm - IZR z * tc) < dt / 5 -> Rabs (tm - IZR z' * tc) < dt / 5 -> z = z'.
Proof.
  intros Hs I1 I2 H1 H2. apply Rabs_def2 in H1, H2.
  assert (G : forall a b, (a mod 500 = 0 -> b mod 500 = 0 -> a < b -> a + 500 <= b)%Z) by (intros; lia).
  pose proof (in_checkpoints z I1) as [B1 M1]. pose proof (in_checkpoints z' I2) as [B2 M2].
  assert (Ht : 0 < tc). { destruct (Rlt_le_dec 0 tc); [assumption|]. assert (dt / 5 <= 0) by lra. lra. }
  destruct (Z.lt_total z z') as [L|[E|L]]; [|exact E|]; exfalso; [apply G in L|apply G in L]; try assumption; apply IZR_le in L; rewrite plus_IZR in L; nra.
Qed.
Lemma cp_hit (c : config (num ERNum)) tm tc dt z : tau c = Some tc -> c_dt c = Some dt -> 2 * dt / 5 <= 500 * tc -> In z checkpoints ->
  Rabs (tm - IZR z * tc) < dt / 5 -> checkpoint ERNum c (Some tm) = Some z.
Proof.
  intros Et Ed Hs I H. destruct (checkpoint ERNum c (Some tm)) as [z'|] eqn:E.
  - apply (cp_some c tm tc dt z' Et Ed) in E. destruct E as [I' H']. f_equal. exact (cp_sep tm tc dt z' z Hs I' I H' H).
  - exfalso. unfold checkpoint in E. pose proof (find_none _ _ E z I) as F. cbv beta in F. rewrite (near_ER c tm tc dt z Et Ed) in F.
    apply Rltb_true in H. congruence.
Qed.
Lemma one_step x dt y k k' : 0 < dt -> Rabs (x + INR k * dt - y) < dt / 5 -> Rabs (x + INR k' * dt - y) < dt / 5 -> k = k'.
Proof.
  intros Hd H H'. apply Rabs_def2 in H, H'.
  destruct (Nat.lt_total k k') as [L|[E|L]]; [|exact E|]; exfalso; apply le_INR in L; rewrite S_INR in L; nra.
Qed.

(** one run: exactly one snapshot for a checkpoint near a step time, none for the others *)
Theorem profile_counts n s (sc : chain (num ERNum)) x dt tc fuel : wf n s sc -> (2 <= n)%nat -> hs_ok (vars sc) ->
  t sc = Some x -> c_dt (vars sc) = Some dt -> tau (vars sc) = Some tc -> c_t (vars sc) = Some (tc * 4000) -> 0 < dt -> 2 * dt / 5 <= 500 * tc ->
  let m := Z.to_nat (Zceil ((tc * 4000 - x) / dt)) in
  ((m <= fuel)%nat -> exists st l, dynamics ERNum sc st /\ profile_run ERNum fuel sc = Ok l /\
      forall z, In z checkpoints ->
        (forall k, (1 <= k)%nat -> Rabs (x + INR k * dt - IZR z * tc) < dt / 5 ->
            snapshot ERNum (st k) = Ok (sent_to ERNum z l) /\ map p_i (sent_to ERNum z l) = seq 0 n) /\
        ((forall k, (1 <= k)%nat -> dt / 5 <= Rabs (x + INR k * dt - IZR z * tc)) -> sent_to ERNum z l = [])) /\
  ((fuel < m)%nat -> profile_run ERNum fuel sc = OutOfFuel).
Proof.
  intros W Hn Hh Ex Ed Etau Et Hd Hs m. fold (nsteps x (tc * 4000) dt) in m.
  assert (A : forall k, after_steps ERNum k (c_dt (vars sc)) (t sc) = Some (x + INR k * dt)%R).
  { intros k. transitivity (after_steps ERNum k (Some dt) (Some x)); [|apply after_ER]. f_equal; assumption. }
  destruct (profile_states ERNum n s sc m fuel W Hn Hh) as (st & ms & D & X & P & Fin & Sh).
  { intros k Hk. etransitivity; [apply f_equal2; [apply A|exact Et]|]. apply ltb_ER. apply nsteps_before; assumption. }
  split; [|exact Sh]. intros Hf. eexists st, _. split; [exact D|]. split.
  { apply Fin; [|exact Hf]. etransitivity; [apply f_equal2; [apply A|exact Et]|]. apply ltb_ER_false. apply nsteps_after; [assumption|reflexivity]. }
  intros z Iz. rewrite sent_to_concat.
  set (g := fun k => sent_to ERNum z (match checkpoint ERNum (vars sc) (after_steps ERNum k (c_dt (vars sc)) (t sc)) with Some z => [(z, ms k)] | None => [] end)).
  assert (Gn : forall k, dt / 5 <= Rabs (x + INR k * dt - IZR z * tc) -> g k = []).
  { intros k Hk. unfold g. rewrite A. destruct (checkpoint ERNum (vars sc) (Some (x + INR k * dt))) as [z'|] eqn:E; [|reflexivity].
    apply (cp_some _ _ tc dt z' Etau Ed) in E. destruct E as [_ H']. cbn. destruct (Z.eqb_spec z' z) as [->|]; [lra|reflexivity]. }
  split.
  - intros k Hk H.
    assert (Gk : g k = ms k).
    { unfold g. rewrite A. rewrite (cp_hit (vars sc) _ tc dt z Etau Ed Hs Iz H). cbn. rewrite Z.eqb_refl. apply app_nil_r. }
    assert (Go : forall j, j <> k -> g j = []).
    { intros j Hj. apply Gn. destruct (Rlt_le_dec (Rabs (x + INR j * dt - IZR z * tc)) (dt / 5)) as [H'|H']; [|exact H'].
      exfalso. apply Hj. exact (one_step x dt (IZR z * tc) j k Hd H' H). }
    assert (Km : (k <= m)%nat).
    { destruct (Nat.le_gt_cases k m) as [|Hm]; [assumption|]. exfalso. pose proof (nsteps_after x (tc * 4000) dt m Hd (Nat.le_refl _)) as Ha.
      apply le_INR in Hm. rewrite S_INR in Hm. apply Rabs_def2 in H. pose proof (in_checkpoints z Iz) as [B _]. destruct B as [_ B]. apply IZR_le in B. nra. }
    rewrite (flat_map_one g k m 1) by (lia || exact Go).
    rewrite Gk. apply X.
  - intros H. apply flat_map_none. intros k Hk. apply in_seq in Hk. apply Gn, H. lia.
Qed.

(** Whatever the period, at most one snapshot for each checkpoint, taken near it *)
Lemma flat_map_unique {B} (g : nat -> list B) (P : nat -> Prop) l : NoDup l -> (forall k, In k l -> g k = [] \/ P k) -> (forall j k, P j -> P k -> j = k) ->
  flat_map g l = [] \/ exists k, In k l /\ P k /\ flat_map g l = g k.
Proof.
  intros ND H U. induction ND as [|a l Na ND IH]; [left; reflexivity|]. cbn [flat_map].
  destruct IH as [E|(k & Ik & Pk & E)]; [intros; apply H; right; assumption| |].
  - rewrite E, app_nil_r. destruct (H a (or_introl eq_refl)) as [Ea|Pa]; [left; exact Ea|]. right. exists a. repeat split; [left; reflexivity|exact Pa].
  - right. exists k. split; [right; exact Ik|]. split; [exact Pk|]. rewrite E. destruct (H a (or_introl eq_refl)) as [Ea|Pa]; [rewrite Ea; reflexivity|].
    exfalso. apply Na. rewrite (U a k Pa Pk). exact Ik.
Qed.
Theorem profile_at_most n s (sc : chain (num ERNum)) x dt tc tmax fuel l : wf n s sc -> (2 <= n)%nat -> hs_ok (vars sc) ->
  t sc = Some x -> c_dt (vars sc) = Some dt -> tau (vars sc) = Some tc -> c_t (vars sc) = Some tmax -> 0 < dt ->
  profile_run ERNum fuel sc = Ok l -> exists st, dynamics ERNum sc st /\
    forall z, sent_to ERNum z l = [] \/ exists k, (1 <= k)%nat /\ Rabs (x + INR k * dt - IZR z * tc) < dt / 5 /\ snapshot ERNum (st k) = Ok (sent_to ERNum z l).
Proof.
  intros W Hn Hh Ex Ed Etau Et Hd El. set (m := nsteps x tmax dt).
  assert (A : forall k, after_steps ERNum k (c_dt (vars sc)) (t sc) = Some (x + INR k * dt)%R).
  { intros k. transitivity (after_steps ERNum k (Some dt) (Some x)); [|apply after_ER]. f_equal; assumption. }
  destruct (profile_states ERNum n s sc m fuel W Hn Hh) as (st & ms & D & X & P & Fin & Sh).
  { intros k Hk. etransitivity; [apply f_equal2; [apply A|exact Et]|]. apply ltb_ER. apply nsteps_before; assumption. }
  destruct (Nat.le_gt_cases m fuel) as [Hf|Hf]; [|rewrite (Sh Hf) in El; discriminate].
  rewrite Fin in El; [|etransitivity; [apply f_equal2; [apply A|exact Et]|]; apply ltb_ER_false; apply nsteps_after; [assumption|reflexivity]|exact Hf].
  exists st. split; [exact D|]. intros z.
  match type of El with Ok ?l0 = _ => assert (E : l0 = l) by congruence end. subst l. clear El. rewrite sent_to_concat.
  match goal with |- flat_map ?g _ = _ \/ _ => destruct (flat_map_unique g (fun k => Rabs (x + INR k * dt - IZR z * tc) < dt / 5 /\ g k = ms k) (seq 1 m)) as [E|(k & Ik & [Nk Gk] & E)] end.
  - apply seq_NoDup.
  - intros k _. rewrite A. destruct (checkpoint ERNum (vars sc) (Some (x + INR k * dt))) as [z'|] eqn:E; [|left; reflexivity].
    apply (cp_some _ _ tc dt z' Etau Ed) in E. destruct E as [_ H']. cbn [sent_to flat_map fst snd]. destruct (Z.eqb_spec z' z) as [->|]; [|left; reflexivity].
    right. split; [exact H'|apply app_nil_r].
  - intros j k [Hj _] [Hk _]. exact (one_step x dt (IZR z * tc) j k Hd Hj Hk).
  - left. exact E.
  - right. apply in_seq in Ik. exists k. split; [lia|]. split; [exact Nk|]. rewrite E, Gk. apply X.
Qed.

(** With a period so short that two checkpoints lie near the same step, only the first is served:
    dt = 1, tau = 1/3750, step 1 is near both 3500 tau and 4000 tau. *)
Theorem profile_overlap n s (sc : chain (num ERNum)) fuel l : wf n s sc -> (2 <= n)%nat -> hs_ok (vars sc) ->
  t sc = Some 0 -> c_dt (vars sc) = Some 1 -> tau (vars sc) = Some (1 / 3750) -> c_t (vars sc) = Some (1 / 3750 * 4000) ->
  profile_run ERNum fuel sc = Ok l -> Rabs (0 + INR 1 * 1 - IZR 4000 * (1 / 3750)) < 1 / 5 /\ sent_to ERNum 4000 l = [].
Proof.
  intros W Hn Hh Ex Ed Etau Et El. split; [cbn; rewrite Rabs_left; lra|].
  set (m := nsteps 0 (1 / 3750 * 4000) 1).
  assert (A : forall k, after_steps ERNum k (c_dt (vars sc)) (t sc) = Some (0 + INR k * 1)%R).
  { intros k. transitivity (after_steps ERNum k (Some 1) (Some 0)); [|apply after_ER]. f_equal; assumption. }
  destruct (profile_states ERNum n s sc m fuel W Hn Hh) as (st & ms & D & X & P & Fin & Sh).
  { intros k Hk. etransitivity; [apply f_equal2; [apply A|exact Et]|]. apply ltb_ER. apply nsteps_before; [lra|exact Hk]. }
  destruct (Nat.le_gt_cases m fuel) as [Hf|Hf]; [|rewrite (Sh Hf) in El; discriminate].
  rewrite Fin in El; [|etransitivity; [apply f_equal2; [apply A|exact Et]|]; apply ltb_ER_false; apply nsteps_after; [lra|reflexivity]|exact Hf].
  match type of El with Ok ?l0 = _ => assert (E : l0 = l) by congruence end. subst l. clear El. rewrite sent_to_concat.
  apply flat_map_none. intros k Ik. rewrite A. destruct (checkpoint ERNum (vars sc) (Some (0 + INR k * 1))) as [z'|] eqn:E; [|reflexivity].
  assert (E' := E). apply (cp_some _ _ (1 / 3750) 1 z' Etau Ed) in E'. destruct E' as [_ H']. cbn [sent_to flat_map fst snd]. destruct (Z.eqb_spec z' 4000) as [->|]; [|reflexivity].
  exfalso. apply in_seq in Ik. apply Rabs_def2 in H'.
  assert (K1 : k = 1%nat). { destruct (Nat.lt_total k 1) as [L|[Q|L]]; [lia|exact Q|]. exfalso. apply le_INR in L. cbn in L. lra. }
  subst k. unfold checkpoint in E.
  assert (HH : forall z, nltb ERNum (nabs ERNum (nsub ERNum (Some (0 + INR 1 * 1)) (nmul ERNum (nofZ ERNum z) (tau (vars sc))))) (ndiv ERNum (c_dt (vars sc)) (nofZ ERNum 5))
     = Rltb (Rabs (0 + INR 1 * 1 - IZR z * (1 / 3750))) (1 / 5)) by (intros z; apply near_ER; assumption).
  unfold checkpoints in E. cbn [find] in E. rewrite !HH in E.
  assert (Y : Rltb (Rabs (0 + INR 1 * 1 - IZR 3500 * (1 / 3750))) (1 / 5) = true) by (apply Rltb_true; cbn; rewrite Rabs_right; lra).
  rewrite Y in E. repeat match type of E with context [if ?b then _ else _] => destruct b end; discriminate.
Qed.

Lemma profile_returns n s (sc : chain (num ERNum)) x dt tmax fuel : wf n s sc -> (2 <= n)%nat -> hs_ok (vars sc) ->
  t sc = Some x -> c_dt (vars sc) = Some dt -> c_t (vars sc) = Some tmax -> 0 < dt -> (nsteps x tmax dt <= fuel)%nat ->
  exists l, profile_run ERNum fuel sc = Ok l.
Proof.
  intros W Hn Hh Ex Ed Et Hd Hf. set (m := nsteps x tmax dt) in *.
  assert (A : forall k, after_steps ERNum k (c_dt (vars sc)) (t sc) = Some (x + INR k * dt)%R).
  { intros k. transitivity (after_steps ERNum k (Some dt) (Some x)); [|apply after_ER]. f_equal; assumption. }
  destruct (profile_states ERNum n s sc m fuel W Hn Hh) as (st & ms & D & X & P & Fin & Sh).
  { intros k Hk. etransitivity; [apply f_equal2; [apply A|exact Et]|]. apply ltb_ER. apply nsteps_before; assumption. }
  eexists. apply Fin; [|exact Hf]. etransitivity; [apply f_equal2; [apply A|exact Et]|]; apply ltb_ER_false; apply nsteps_after; [assumption|reflexivity].
Qed.
Lemma short_period_returns : let sc := ex_at ERNum (Some 0) (Some 1) (Some (1 / 3750 * 4000)) (Some (1 / 3750)) false in
  exists l, profile_run ERNum 2 sc = Ok l.
Proof.
  apply (profile_returns 4 2 _ 0 1 (1 / 3750 * 4000) 2 (ex_at_wf _ _ _ _ _ _) ltac:(lia) (ex_at_hs _ _ _ _ _ _) eq_refl eq_refl eq_refl Rlt_0_1).
  unfold nsteps. assert (M : Zceil ((1 / 3750 * 4000 - 0) / 1) = 2%Z) by (apply Zceil_imp; split; cbn -[IZR]; lra). rewrite M. apply Nat.le_refl.
Qed.

(** ** The whole mode *)
Lemma profile_in_bg_ok size pts alive (ms : list (pmsg ERNum)) : (Z.of_nat size * Z.of_nat pts < 2 ^ 64)%Z ->
  Forall (fun m => p_i m < size)%nat ms -> (size * pts <= length ms)%nat -> exists ls, profile_in_bg ERNum size pts alive ms = Ok ls /\ length ls = size.
Proof.
  intros Hb Hi Hl. unfold profile_in_bg. destruct (Z.leb_spec (2 ^ 64) (Z.of_nat size * Z.of_nat pts)); [lia|].
  assert (Z0 : length (repeat (nofZ ERNum 0) size) = size) by apply repeat_length.
  assert (RL : forall ms, Forall (fun m => p_i m < size)%nat ms -> forall a : pacc ERNum,
    length (a_e a) = size -> length (a_x a) = size -> length (a_y a) = size -> length (a_z a) = size ->
    exists a', foldM (profile_recv ERNum) ms a = Ok a' /\ length (a_e a') = size /\ length (a_x a') = size /\ length (a_y a') = size /\ length (a_z a') = size).
  { clear. induction 1 as [|m ms Hm H IH]; intros a H1 H2 H3 H4; [exists a; auto|]. cbn [foldM]. unfold profile_recv at 1.
    destruct (add_at_len (a_e a) (p_i m) (p_e m)) as (e & -> & L1); [lia|]. cbn [bind].
    destruct (add_at_len (a_x a) (p_i m) (p_x m)) as (x & -> & L2); [lia|]. cbn [bind].
    destruct (add_at_len (a_y a) (p_i m) (p_y m)) as (y & -> & L3); [lia|]. cbn [bind].
    destruct (add_at_len (a_z a) (p_i m) (p_z m)) as (z & -> & L4); [lia|]. cbn [bind].
    apply IH; [exact (eq_trans L1 H1)|exact (eq_trans L2 H2)|exact (eq_trans L3 H3)|exact (eq_trans L4 H4)]. }
  destruct (RL (firstn (size * pts) ms)) with (a := mkAcc (N := ERNum) (repeat (nofZ ERNum 0) size) (repeat (nofZ ERNum 0) size) (repeat (nofZ ERNum 0) size) (repeat (nofZ ERNum 0) size))
    as (a & -> & L1 & L2 & L3 & L4); try exact Z0.
  { apply Forall_forall. intros m Hm. rewrite Forall_forall in Hi. apply Hi. rewrite <- (firstn_skipn (size * pts) ms). apply in_or_app. left. exact Hm. }
  cbn [bind]. destruct (Nat.ltb_spec (length ms) (size * pts)); [lia|].
  match goal with |- exists ls, mapM ?f _ = _ /\ _ => destruct (mapM_spec f (fun _ _ => True) (range 0 size)) as (ls & -> & F) end.
  - intros i Hi'. unfold range in Hi'. apply in_seq in Hi'.
    destruct (ProofsTotal.returns_idx (a_e a) i ltac:(lia)) as [e ->]. cbn [bind].
    destruct (ProofsTotal.returns_idx (a_x a) i ltac:(lia)) as [x ->]. cbn [bind].
    destruct (ProofsTotal.returns_idx (a_y a) i ltac:(lia)) as [y ->]. cbn [bind].
    destruct (ProofsTotal.returns_idx (a_z a) i ltac:(lia)) as [z ->]. cbn [bind]. eauto.
  - exists ls. split; [reflexivity|]. apply F2_length in F. unfold range in F. rewrite seq_length in F. lia.
Qed.

Lemma il_length {A} (ws : list (list A)) l : interleaving ws l -> length l = length (concat ws).
Proof. intros H. apply il_perm in H. symmetry. apply Permutation_length. exact H. Qed.
Lemma il_forall {A} (P : A -> Prop) (ws : list (list A)) l : interleaving ws l -> Forall (Forall P) ws -> Forall P l.
Proof.
  intros H F. apply il_perm in H. eapply Permutation_Forall; [exact H|]. clear H. induction F; [constructor|]. cbn. apply Forall_app. auto.
Qed.
Lemma concat_length_const {A} (ws : list (list A)) n : Forall (fun w => length w = n) ws -> length (concat ws) = (length ws * n)%nat.
Proof. induction 1 as [|w ws H F IH]; [reflexivity|]. cbn. rewrite app_length, H, IH. reflexivity. Qed.

Definition good_out (n : nat) (x dt tc : R) (l : list (Z * list (pmsg ERNum))) : Prop := forall z, In z checkpoints ->
  (hit x dt tc z -> map p_i (sent_to ERNum z l) = seq 0 n) /\ (~ hit x dt tc z -> sent_to ERNum z l = []).

Lemma foldM_collect' {A S : Type} (step : nat -> S * list A -> res (S * list A)) (P : nat -> A -> Prop) n : forall k l s,
  (forall i l s, exists a s', step i (s, l) = Ok (s', l ++ [a]) /\ P i a) ->
  exists ls s', foldM step (seq k n) (s, l) = Ok (s', l ++ ls) /\ length ls = n /\ Forall2 P (seq k n) ls.
Proof.
  induction n as [|n IH]; intros k l s H; cbn [seq foldM].
  - exists [], s. rewrite app_nil_r. repeat split; constructor.
  - destruct (H k l s) as (a & s1 & -> & Pa). cbn [bind]. destruct (IH (Datatypes.S k) (l ++ [a]) s1 H) as (ls & s2 & E & Le & F).
    exists (a :: ls), s2. rewrite E, <- app_assoc. cbn. repeat split; [congruence|constructor; assumption].
Qed.

Lemma usable_ct N conf x : usable N conf -> usable N (set_ct conf x).
Proof. unfold usable, conf_ok, in_range. cbn. auto. Qed.

Theorem dyn_profile fuel rg (conf : config (num ERNum)) f r dt tc : usable ERNum conf -> (1 <= runs conf)%Z ->
  (forall ws, interleaving ws (r_msgs ERNum rg ws)) ->
  trel conf = Some r -> c_dt conf = Some dt -> tau conf = Some tc -> 0 < dt -> 2 * dt / 5 <= 500 * tc ->
  ((forall z, In z checkpoints -> hit (- r) dt tc z) -> (Z.to_nat (Zceil ((tc * 4000 + r) / dt)) <= fuel)%nat ->
     returns (run_dyn_profile ERNum fuel rg conf f)) /\
  ((exists z, In z checkpoints /\ ~ hit (- r) dt tc z) -> run_dyn_profile ERNum fuel rg conf f = OutOfFuel).
Proof.
  intros U R1 IL Er Ed Etau Hd Hs.
  pose proof (usable_ct ERNum conf (nmul ERNum (tau conf) (nofZ ERNum 4000)) U) as U'.
  destruct U as (C & Rg & Hh & Hss & Th & Rn & Off). destruct U' as (C' & Rg' & _).
  unfold run_dyn_profile. rewrite pool_ok by lia. cbn [bind].
  destruct (num_runs_small ERNum conf Rg Rn) as [En Eu].
  set (conf1 := set_ct conf (nmul ERNum (tau conf) (nofZ ERNum 4000))) in *.
  assert (Eh1 : hsize conf1 = hsize conf) by reflexivity. assert (Es1 : ssize conf1 = ssize conf) by reflexivity.
  assert (Ect : c_t conf1 = Some (tc * 4000)).
  { transitivity (nmul ERNum (Some tc) (nofZ ERNum 4000)); [|reflexivity]. exact (f_equal (fun y => nmul ERNum y (nofZ ERNum 4000)) Etau). }
  set (m := Z.to_nat (Zceil ((tc * 4000 + r) / dt))).
  set (n := Z.to_nat (hsize conf)).
  assert (WK : forall i sc, chain_new ERNum conf1 (dr_new (r_draws ERNum rg i)) = Ok sc ->
    ((m <= fuel)%nat -> exists out, profile_worker ERNum fuel (r_draws ERNum rg i) sc = Ok out /\ good_out n (- r) dt tc out) /\
    ((fuel < m)%nat -> profile_worker ERNum fuel (r_draws ERNum rg i) sc = OutOfFuel)).
  { intros i sc E. destruct (new_wf ERNum conf1 (dr_new (r_draws ERNum rg i)) C' ltac:(lia)) as (sc0 & E0 & W & V & Tt & F).
    rewrite E0 in E. injection E as <-. unfold profile_worker.
    destruct (thermalise_ok ERNum _ _ (dr_mc (r_draws ERNum rg i)) 20000000 sc0 W ltac:(lia)) as (sc1 & E1 & W1 & V1 & T1 & F1); [rewrite V; exact (conf_hs ERNum conf1 C')|].
    rewrite E1. cbn [bind]. rewrite V in V1.
    destruct (profile_counts _ _ sc1 (- r) dt tc fuel W1 ltac:(lia)) as [P1 P2].
    - exact (eq_ind_r (fun c => hs_ok c) (conf_hs ERNum conf1 C') V1).
    - etransitivity; [exact T1|]. etransitivity; [exact Tt|]. etransitivity; [apply f_equal; exact Er|]. reflexivity.
    - exact (eq_ind_r (fun c => c_dt c = Some dt) (Ed : c_dt conf1 = Some dt) V1).
    - exact (eq_ind_r (fun c => tau c = Some tc) (Etau : tau conf1 = Some tc) V1).
    - exact (eq_ind_r (fun c => c_t c = Some (tc * 4000)) Ect V1).
    - exact Hd.
    - exact Hs.
    - replace (tc * 4000 - - r) with (tc * 4000 + r) in P1, P2 by ring. fold m in P1, P2. split; [|exact P2].
      intros Hf. destruct (P1 Hf) as (st & l & D & E2 & G). exists l. split; [exact E2|]. intros z Iz. destruct (G z Iz) as [G1 G2]. split.
      + intros (k & Hk & Hz). apply (proj2 (G1 k Hk Hz)).
      + intros Hz. apply G2. intros k Hk. destruct (Rlt_le_dec (Rabs (- r + INR k * dt - IZR z * tc)) (dt / 5)) as [H'|H']; [|exact H'].
        exfalso. apply Hz. exists k. auto. }
  rewrite En. unfold range. rewrite !Nat.sub_0_r.
  set (f0 := fold_left _ _ f).
  destruct (Nat.le_gt_cases m fuel) as [Hf|Hf].
  - (* enough fuel for the workers *)
    match goal with |- context [foldM ?g (seq 0 (Z.to_nat (runs conf))) (f0, [])] =>
      destruct (@foldM_collect' (list (Z * list (pmsg ERNum))) (fs (num ERNum)) g (fun _ l => good_out n (- r) dt tc l) (Z.to_nat (runs conf)) 0 [] f0) as (sent & f1 & E & Le & F) end.
    { intros i l g. unfold new_logged. destruct (new_wf ERNum conf1 (dr_new (r_draws ERNum rg i)) C' ltac:(lia)) as (sc0 & E0 & _). rewrite E0. cbn [bind].
      destruct (WK i sc0 E0) as [G _]. destruct (G Hf) as (out & -> & Go). cbn [bind]. eexists _, _. split; [reflexivity|exact Go]. }
    rewrite E. cbn [bind app].
    assert (FG : Forall (good_out n (- r) dt tc) sent) by (clear - F; induction F; constructor; assumption).
    assert (Hn : as_usize (hsize conf1) = n). { rewrite Eh1. unfold as_usize, n. unfold in_range in Rg. rewrite Z.mod_small by lia. reflexivity. }
    assert (Hb : (Z.of_nat n * Z.of_nat (Z.to_nat (runs conf)) < 2 ^ 64)%Z).
    { destruct C as (Cn & _). destruct Rg as (Rh & _ & Rr & _). unfold n. rewrite !Z2Nat.id by lia. nia. }
    assert (SND : forall z, In z checkpoints -> let ws := map (sent_to ERNum z) sent in
       Forall (fun m => (p_i m < n)%nat) (r_msgs ERNum rg ws) /\
       (hit (- r) dt tc z -> length (r_msgs ERNum rg ws) = (n * Z.to_nat (runs conf))%nat) /\ (~ hit (- r) dt tc z -> r_msgs ERNum rg ws = [])).
    { intros z Iz ws. assert (FW : Forall (fun w => (hit (- r) dt tc z -> map p_i w = seq 0 n) /\ (~ hit (- r) dt tc z -> w = [])) ws).
      { unfold ws. apply Forall_map. eapply Forall_impl; [|exact FG]. intros l Hl. apply Hl. exact Iz. }
      assert (Lw : length ws = Z.to_nat (runs conf)) by (unfold ws; rewrite map_length; exact Le).
      assert (HH : hit (- r) dt tc z \/ ~ hit (- r) dt tc z) by apply Classical_Prop.classic.
      destruct HH as [HH|HH].
      - assert (FW' : Forall (fun w : list (pmsg ERNum) => map p_i w = seq 0 n) ws) by (eapply Forall_impl; [|exact FW]; cbv beta; intros w [Hw _]; auto).
        split; [|split; [|contradiction]].
        + apply (il_forall _ ws); [apply IL|]. eapply Forall_impl; [|exact FW']. cbv beta. intros w Hw. apply Forall_forall. intros a Ha.
          apply (in_map p_i) in Ha. rewrite Hw in Ha. apply in_seq in Ha. lia.
        + intros _. rewrite (il_length ws) by apply IL. rewrite (concat_length_const ws n), Lw; [lia|]. eapply Forall_impl; [|exact FW']. cbv beta. intros w Hw.
          rewrite <- (map_length p_i), Hw. apply seq_length.
      - assert (FW' : Forall (fun w : list (pmsg ERNum) => length w = 0%nat) ws) by (eapply Forall_impl; [|exact FW]; cbv beta; intros w [_ Hw]; rewrite Hw; auto).
        assert (r_msgs ERNum rg ws = []) as Z0.
        { apply length_zero_iff_nil. rewrite (il_length ws) by apply IL. rewrite (concat_length_const ws 0) by exact FW'. lia. }
        rewrite Z0. repeat split; [constructor|contradiction]. }
    rewrite Hn. split.
    + intros Hall _. apply returns_bind.
      * apply returns_foldM. intros z g Iz. destruct (SND z Iz) as (S1 & S2 & _).
        destruct (profile_in_bg_ok n (Z.to_nat (runs conf)) true _ Hb S1) as (ls & -> & _); [rewrite S2 by (apply Hall; exact Iz); lia|]. apply returns_ok.
      * intros g _. apply finish_total; [exact Rg'|]. rewrite <- En, Eu. change (offset conf1) with (offset conf). lia.
    + intros (z & Iz & Hz).
      assert (GG : forall l, incl l checkpoints -> In z l -> forall g,
        foldM (fun z g => let* ls := profile_in_bg ERNum n (Z.to_nat (runs conf)) true (r_msgs ERNum rg (map (sent_to ERNum z) sent)) in Ok (append (profile_name z) ls g)) l g = OutOfFuel).
      { induction l as [|y l IH]; intros Hi Hy g; [contradiction|]. cbn [foldM].
        assert (Iy : In y checkpoints) by (apply Hi; left; reflexivity). destruct (SND y Iy) as (S1 & S2 & S3).
        destruct (Classical_Prop.classic (hit (- r) dt tc y)) as [Hh'|Hh'].
        - destruct (profile_in_bg_ok n (Z.to_nat (runs conf)) true _ Hb S1) as (ls & -> & _); [rewrite S2 by exact Hh'; lia|]. cbn [bind].
          destruct Hy as [->|Hy]; [contradiction|]. apply IH; [|exact Hy]. intros q Hq. apply Hi. right. exact Hq.
        - rewrite (profile_blocks n (Z.to_nat (runs conf)) true) ; [reflexivity|exact Hb|exact S1|]. rewrite S3 by exact Hh'. cbn [length]. unfold n. nia. }
      rewrite (GG checkpoints (incl_refl _) Iz). reflexivity.
  - (* the workers do not finish *)
    split; [intros _ Hc; lia|]. intros _.
    destruct (Z.to_nat (runs conf)) as [|k] eqn:Ek; [lia|]. cbn [seq foldM]. unfold new_logged at 1.
    destruct (new_wf ERNum conf1 (dr_new (r_draws ERNum rg 0)) C' ltac:(lia)) as (sc0 & E0 & _). rewrite E0. cbn [bind].
    destruct (WK 0%nat sc0 E0) as [_ G]. rewrite (G Hf). reflexivity.
Qed.
End ER.
