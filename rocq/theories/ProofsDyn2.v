(** Consequences for chains: frame, energy, work, time reversal, odd lengths, free spins. *)
From Coq Require Import Reals Lra Lia List ZArith Arith Bool.
From Verif Require Import Num Monad NumR Spin Config Chain SpecVec SpecChain
  ProofsSpin ProofsChain ProofsEnergy ProofsDrive ProofsNew ProofsDyn ProofsDynR.
Import ListNotations.
Local Open Scope R_scope.

(** ** Frame, any numbers *)
Section Frame.
Context (N : NumOps).

Lemma iter_update_frame n s k : forall sc, wf n s sc -> (2 <= n)%nat -> hs_ok (vars sc) ->
  exists sp', iterM (update N) k sc = Ok (mkChain (j_couple sc) (static_h sc) sp'
     (Nat.iter k (fun x => nadd N x (c_dt (vars sc))) (t sc)) (vars sc) (has_file sc)) /\
     length sp' = n.
Proof.
  induction k; intros sc W Hn Hh; cbn [iterM].
  - exists (spins sc). split; [destruct sc; reflexivity|apply (wf_spins _ _ _ W)].
  - destruct (update_pure N n s sc W Hn Hh) as (sp1 & E & L & _).
    rewrite E. cbn [bind].
    match goal with |- exists _, iterM _ _ ?c = _ /\ _ => set (sc1 := c) end.
    assert (W1 : wf n s sc1) by (destruct W as [w1 w2 w3 w4 w5 w6 w7]; constructor; cbn; auto).
    destruct (IHk sc1 W1 Hn Hh) as (sp2 & E2 & L2). exists sp2. split; [|assumption].
    rewrite E2. cbn [sc1 j_couple static_h t vars has_file]. do 2 f_equal.
    clear. induction k; [reflexivity|]. cbn. f_equal. exact IHk.
Qed.

Lemma iter_update_nf_frame n s k : forall sc, wf n s sc -> (2 <= n)%nat -> hs_ok (vars sc) ->
  exists sp', iterM (update_no_field N) k sc = Ok (mkChain (j_couple sc) (static_h sc) sp'
     (Nat.iter k (fun x => nadd N x (c_dt (vars sc))) (t sc)) (vars sc) (has_file sc)) /\
     length sp' = n.
Proof.
  induction k; intros sc W Hn Hh; cbn [iterM].
  - exists (spins sc). split; [destruct sc; reflexivity|apply (wf_spins _ _ _ W)].
  - destruct (update_no_field_pure N n s sc W Hn Hh) as (sp1 & E & L & _).
    rewrite E. cbn [bind].
    match goal with |- exists _, iterM _ _ ?c = _ /\ _ => set (sc1 := c) end.
    assert (W1 : wf n s sc1) by (destruct W as [w1 w2 w3 w4 w5 w6 w7]; constructor; cbn; auto).
    destruct (IHk sc1 W1 Hn Hh) as (sp2 & E2 & L2). exists sp2. split; [|assumption].
    rewrite E2. cbn [sc1 j_couple static_h t vars has_file]. do 2 f_equal.
    clear. induction k; [reflexivity|]. cbn. f_equal. exact IHk.
Qed.

Lemma iterM_last {A} (f : A -> res A) k : forall a c, iterM f (S k) a = Ok c ->
  exists b, iterM f k a = Ok b /\ f b = Ok c.
Proof.
  induction k; intros a c H.
  - cbn in H. destruct (f a) eqn:E; try discriminate. cbn in H. injection H as <-. exists a. auto.
  - cbn [iterM] in H. destruct (f a) as [a1| |] eqn:E; try discriminate. cbn [bind] in H.
    destruct (IHk a1 c) as (b & E1 & E2). { cbn [iterM]. exact H. }
    exists b. split; [|assumption]. cbn [iterM]. rewrite E. exact E1.
Qed.

(** ** Congruence on the ring *)
Lemma stageF_congr M b J h J' h' dt S S' :
  (forall p, (p < M)%nat -> S p = S' p /\ J p = J' p /\ h p = h' p) ->
  forall p, (p < M)%nat -> stageF N M b J h dt S p = stageF N M b J' h' dt S' p.
Proof.
  intros H p Hp. pose proof (lft_lt M p Hp). pose proof (rgt_lt M p Hp).
  apply stageF_local; apply H; assumption.
Qed.
Lemma trotF_congr M J h J' h' dt2 dt S S' :
  (forall p, (p < M)%nat -> S p = S' p /\ J p = J' p /\ h p = h' p) ->
  forall p, (p < M)%nat -> trotF N M J h dt2 dt S p = trotF N M J' h' dt2 dt S' p.
Proof.
  intros H. unfold trotF.
  apply stageF_congr. intros q Hq. destruct (H q Hq) as (_ & A & B). repeat split; auto.
  revert q Hq A B. intros q Hq _ _. revert q Hq.
  apply stageF_congr. intros q Hq. destruct (H q Hq) as (_ & A & B). repeat split; auto.
  revert q Hq A B. intros q Hq _ _. revert q Hq.
  apply stageF_congr. assumption.
Qed.

(** ** Odd lengths *)
Lemma nth_firstn {A} (d : A) k l p : (p < k)%nat -> nth p (firstn k l) d = nth p l d.
Proof.
  revert l p. induction k; intros l p H; [lia|].
  destruct l; [destruct p; reflexivity|]. destruct p; [reflexivity|]. cbn. apply IHk. lia.
Qed.

Lemma wf_trunc n s (sc : chain (num N)) : (1 <= n)%nat -> wf n s sc -> wf (n - 1) (Nat.min s (n - 1)) (without_last n s sc).
Proof.
  intros Hn [w1 w2 w3 w4 w5 w6 w7]. constructor; cbn [without_last vars spins j_couple static_h set_ssize set_hsize hsize ssize];
    rewrite ?firstn_length; try lia.
Qed.

Lemma hs_ok_trunc n s (sc : chain (num N)) : hs_ok (vars sc) -> hs_ok (vars (without_last n s sc)).
Proof. unfold hs_ok; cbn. auto. Qed.

Lemma odd_step n s (sc sc' : chain (num N)) : wf n s sc -> (3 <= n)%nat -> (n mod 2 = 1)%nat -> hs_ok (vars sc) ->
  update N sc = Ok sc' ->
  at3 N (spins sc') (n - 1) = at3 N (spins sc) (n - 1) /\
  update N (without_last n s sc) = Ok (without_last n s sc') /\ wf n s sc' /\ vars sc' = vars sc.
Proof.
  intros W Hn Hodd Hh H.
  destruct (update_pure N n s sc W ltac:(lia) Hh) as (sp & E & L & A).
  rewrite E in H. injection H as <-. cbn [spins vars].
  split; [|split; [|split; [|reflexivity]]].
  - rewrite A. apply trotF_out. lia.
  - pose proof (wf_trunc n s sc ltac:(lia) W) as W1.
    destruct (update_pure N (n - 1) _ _ W1 ltac:(lia) (hs_ok_trunc n s sc Hh)) as (sp1 & E1 & L1 & A1).
    rewrite E1. unfold without_last. cbn [j_couple static_h spins t vars has_file]. do 2 f_equal.
    apply (list_ext_nth (z3 N)). { rewrite firstn_length, L. lia. }
    intros p Hp. rewrite L1 in Hp. rewrite nth_firstn by assumption.
    specialize (A p). specialize (A1 p). unfold at3 at 1 in A. unfold at3 at 1 in A1. rewrite A, A1.
    replace (2 * ((n - 1) / 2))%nat with (2 * (n / 2))%nat by lia.
    cbn [without_last set_ssize set_hsize vars c_dt t spins j_couple].
    apply trotF_congr; [|lia].
    intros q Hq. unfold at3. cbn [without_last j_couple]. rewrite !nth_firstn by lia. split; [reflexivity|]. split; [reflexivity|].
    unfold fieldF, at3. cbn [without_last static_h]. rewrite nth_firstn by lia.
    replace (q <? Nat.min s (n - 1))%nat with (q <? s)%nat
      by (destruct (Nat.ltb_spec q s), (Nat.ltb_spec q (Nat.min s (n - 1))); lia).
    reflexivity.
  - destruct W as [w1 w2 w3 w4 w5 w6 w7]. constructor; cbn; auto.
Qed.

Lemma odd_iter n s k : forall (sc sc' : chain (num N)), wf n s sc -> (3 <= n)%nat -> (n mod 2 = 1)%nat -> hs_ok (vars sc) ->
  iterM (update N) k sc = Ok sc' ->
  nth_error (spins sc') (n - 1) = nth_error (spins sc) (n - 1) /\
  iterM (update N) k (without_last n s sc) = Ok (without_last n s sc').
Proof.
  induction k; cbn [iterM]; intros sc sc' W Hn Hodd Hh H.
  - injection H as <-. auto.
  - destruct (update N sc) as [sc1| |] eqn:E; try discriminate. cbn [bind] in H.
    destruct (odd_step n s sc sc1 W Hn Hodd Hh E) as (A & B & W1 & V).
    destruct (IHk sc1 sc' W1 Hn Hodd) as (A2 & B2); [rewrite V; assumption|exact H|].
    rewrite B. cbn [bind]. split; [|exact B2]. rewrite A2.
    rewrite !(nth_error_nth' _ (z3 N)) by (rewrite ?(wf_spins _ _ _ W1), ?(wf_spins _ _ _ W); lia).
    f_equal. exact A.
Qed.
End Frame.

(** ** Normalisation in exact arithmetic, including NaN *)
Lemma iter_unit n s k (c c' : chain (num ERNum)) : wf n s c -> (2 <= n)%nat -> (n mod 2 = 0)%nat -> hs_ok (vars c) ->
  (1 <= k)%nat -> iterM (update ERNum) k c = Ok c' -> forall v, In (fin3 v) (spins c') -> unit3 v.
Proof.
  intros W Hn He Hh Hk H v Hv. destruct k; [lia|].
  apply iterM_last in H. destruct H as (b & H1 & H2).
  destruct (iter_ER_back n s k c b W Hn Hh H1) as (Wb & Vb & _).
  destruct (update_pure ERNum n s b Wb Hn) as (sp & E & L & A); [rewrite Vb; assumption|].
  assert (E' := eq_trans (eq_sym E) H2). injection E' as <-. cbn [spins] in Hv.
  apply (In_nth _ _ (z3 ERNum)) in Hv. destruct Hv as (p & Hp & Ev).
  specialize (A p). unfold at3 at 1 in A. assert (A' := eq_trans (eq_sym A) Ev).
  apply trot_ER_unit in A'; [assumption|]. rewrite L in Hp. lia.
Qed.

Lemma iter_nf_unit n s k (c c' : chain (num ERNum)) : wf n s c -> (2 <= n)%nat -> (n mod 2 = 0)%nat -> hs_ok (vars c) ->
  (1 <= k)%nat -> iterM (update_no_field ERNum) k c = Ok c' -> forall v, In (fin3 v) (spins c') -> unit3 v.
Proof.
  intros W Hn He Hh Hk H v Hv. destruct k; [lia|].
  apply iterM_last in H. destruct H as (b & H1 & H2).
  destruct (iter_update_nf_frame ERNum n s k c W Hn Hh) as (spb & Eb & Lb).
  assert (E0 := eq_trans (eq_sym Eb) H1). injection E0 as <-.
  match type of H2 with update_no_field _ ?x = _ => set (b := x) in H2 end.
  assert (Wb : wf n s b) by (destruct W as [w1 w2 w3 w4 w5 w6 w7]; constructor; cbn; auto).
  destruct (update_no_field_pure ERNum n s b Wb Hn Hh) as (sp & E & L & A).
  assert (E' := eq_trans (eq_sym E) H2). injection E' as <-. cbn [spins] in Hv.
  apply (In_nth _ _ (z3 ERNum)) in Hv. destruct Hv as (p & Hp & Ev).
  specialize (A p). unfold at3 at 1 in A. assert (A' := eq_trans (eq_sym A) Ev).
  apply trot_ER_unit in A'; [assumption|]. rewrite L in Hp. lia.
Qed.

(** ** Evolution of real chains *)
Definition evol (n s k : nat) (sc : chain R) : chain R := Nat.iter k (stepR n s) sc.

Lemma evol_S n s k sc : evol n s (S k) sc = stepR n s (evol n s k sc).
Proof. reflexivity. Qed.
Lemma wf_evol n s k sc : wf n s sc -> wf n s (evol n s k sc).
Proof. intro W. induction k; [assumption|]. rewrite evol_S. apply wf_step. assumption. Qed.
Lemma unit_evol n s k sc : wf n s sc -> unit_spins sc -> unit_spins (evol n s k sc).
Proof. intros W H. induction k; [assumption|]. rewrite evol_S. apply unit_step; [apply wf_evol|]; assumption. Qed.
Lemma vars_evol n s k sc : vars (evol n s k sc) = vars sc.
Proof. induction k; [reflexivity|]. rewrite evol_S. exact IHk. Qed.
Lemma j_evol n s k sc : j_couple (evol n s k sc) = j_couple sc.
Proof. induction k; [reflexivity|]. rewrite evol_S. exact IHk. Qed.
Lemma h_evol n s k sc : static_h (evol n s k sc) = static_h sc.
Proof. induction k; [reflexivity|]. rewrite evol_S. exact IHk. Qed.
Lemma file_evol n s k sc : has_file (evol n s k sc) = has_file sc.
Proof. induction k; [reflexivity|]. rewrite evol_S. exact IHk. Qed.
Lemma t_evol n s k sc : t (evol n s k sc) = t sc + INR k * c_dt (vars sc).
Proof.
  induction k. { cbn. ring. } rewrite evol_S, S_INR. cbn [stepR t]. rewrite IHk, vars_evol. ring.
Qed.

(** fin is injective *)
Lemma map_Some_inj (l l' : list R) : map (@Some R) l = map Some l' -> l = l'.
Proof.
  revert l'. induction l; destruct l'; cbn; intro H; try discriminate; [reflexivity|].
  injection H as -> H. f_equal. auto.
Qed.
Lemma map_fin3_inj (l l' : list vec) : map (v3map (@Some R)) l = map (v3map Some) l' -> l = l'.
Proof.
  revert l'. induction l; destruct l'; cbn; intro H; try discriminate; [reflexivity|].
  injection H as H1 H2 H3 H. f_equal; [apply v3_ext; assumption|auto].
Qed.
Lemma config_fin_inj (c c' : config R) : config_map Some c = config_map (@Some R) c' -> c = c'.
Proof.
  destruct c, c'; unfold config_map; cbn. intro H. inversion H.
  repeat match goal with E : map Some _ = map Some _ |- _ => apply map_Some_inj in E end.
  subst. reflexivity.
Qed.
Lemma fin_inj sc sc' : fin sc = fin sc' -> sc = sc'.
Proof.
  intro H.
  assert (H1 := map_fin3_inj _ _ (f_equal j_couple H)). assert (H2 := map_fin3_inj _ _ (f_equal static_h H)).
  assert (H3 := map_fin3_inj _ _ (f_equal spins H)). assert (H5 := config_fin_inj _ _ (f_equal vars H)).
  assert (H6 := f_equal has_file H). assert (H4 := f_equal t H). cbn in H4, H6. injection H4 as H4.
  destruct sc as [a1 a2 a3 a4 a5 a6], sc' as [b1 b2 b3 b4 b5 b6]; cbn [j_couple static_h spins t vars has_file] in *.
  clear H. subst. reflexivity.
Qed.

(** ** Energy *)
Lemma drive_undriven c x y : undriven c -> drive_field c x = drive_field c y.
Proof. intros [H|H]; unfold drive_field; rewrite H; reflexivity. Qed.
Lemma B_undriven sc s x y i : undriven (vars sc) -> B_ sc s x i = B_ sc s y i.
Proof. intro H. unfold B_. rewrite (drive_undriven _ x y H). reflexivity. Qed.

Lemma step_energy n s sc : wf n s sc -> (2 <= n)%nat -> (n mod 2 = 0)%nat -> unit_spins sc ->
  ring_energy n (S_ (stepR n s sc)) (J_ sc) (B_ sc s (mid sc)) =
  ring_energy n (S_ sc) (J_ sc) (B_ sc s (mid sc)).
Proof.
  intros W Hn He Hu.
  rewrite (ring_energy_ext n _ (J_ sc) (B_ sc s (mid sc)) _ (J_ sc) (B_ sc s (mid sc)) (fun p Hp => S_step n s sc p Hp)); auto.
  replace (2 * (n / 2))%nat with n by lia. apply trot_energy; [assumption|lia|].
  exact (proj1 (unit_spins_iff n s sc W) Hu).
Qed.

Lemma J_evol n s k sc : J_ (evol n s k sc) = J_ sc.
Proof. unfold J_. rewrite j_evol. reflexivity. Qed.
Lemma B_evol n s k sc x : B_ (evol n s k sc) s x = B_ sc s x.
Proof. unfold B_, h_. rewrite h_evol, vars_evol. reflexivity. Qed.

Lemma evol_energy n s k sc x : wf n s sc -> (2 <= n)%nat -> (n mod 2 = 0)%nat -> unit_spins sc ->
  undriven (vars sc) ->
  ring_energy n (S_ (evol n s k sc)) (J_ sc) (B_ sc s x) = ring_energy n (S_ sc) (J_ sc) (B_ sc s x).
Proof.
  intros W Hn He Hu Hd. induction k; [reflexivity|]. rewrite evol_S, <- IHk.
  pose proof (step_energy n s (evol n s k sc) (wf_evol n s k sc W) Hn He (unit_evol n s k sc W Hu)) as E.
  rewrite J_evol, B_evol in E.
  rewrite (ring_energy_ext n _ (J_ sc) (B_ sc s x) (S_ (stepR n s (evol n s k sc))) (J_ sc)
    (B_ sc s (mid (evol n s k sc)))); auto.
  2:{ intros; apply B_undriven; assumption. }
  rewrite E. apply ring_energy_ext; auto. intros; apply B_undriven; assumption.
Qed.

Lemma conserve_total2 n s sc k sc' : wf n s sc -> (2 <= n)%nat -> (n mod 2 = 0)%nat -> drive_ok (vars sc) ->
  unit_spins sc -> undriven (vars sc) ->
  iterM (update ERNum) k (fin sc) = Ok (fin sc') ->
  total_energy2 ERNum (fin sc') = total_energy2 ERNum (fin sc) /\
  total_energy ERNum (fin sc') = total_energy ERNum (fin sc).
Proof.
  intros W Hn He Hok Hu Hd H.
  destruct (iter_ER n s k sc _ W Hn Hok Hu H (finspins_fin sc')) as [E _]. apply fin_inj in E.
  change (sc' = evol n s k sc) in E. subst sc'.
  assert (V := vars_evol n s k sc).
  assert (W1 := wf_evol n s k sc W).
  assert (Hok1 : drive_ok (vars (evol n s k sc))) by (rewrite V; assumption).
  rewrite (total_energy2_value n s _ W1), (total_energy2_value n s _ W) by (assumption || lia).
  rewrite (total_energy_value n s _ W1), (total_energy_value n s _ W) by (assumption || lia).
  rewrite J_evol, B_evol.
  assert (E : ring_energy n (S_ (evol n s k sc)) (J_ sc) (B_ sc s (t (evol n s k sc))) =
              ring_energy n (S_ sc) (J_ sc) (B_ sc s (t sc))).
  { rewrite (ring_energy_ext n _ _ _ (S_ (evol n s k sc)) (J_ sc) (B_ sc s (t sc))); auto.
    - apply evol_energy; assumption.
    - intros; apply B_undriven; assumption. }
  rewrite E. split; reflexivity.
Qed.

(** Work done by the drive *)
Lemma ring_field_diff n s sc x y (S : nat -> vec) : (s <= n)%nat ->
  ring_energy n S (J_ sc) (B_ sc s x) - ring_energy n S (J_ sc) (B_ sc s y) =
  Rsum s (fun i => dot (vsub (drive_field (vars sc) x) (drive_field (vars sc) y)) (S i)).
Proof.
  intro Hs. unfold ring_energy. rewrite <- Rsum_minus, <- (Rsum_if n s) by assumption.
  apply Rsum_ext. intros i Hi. unfold B_. destruct (i <? s)%nat; unfold dot; cbn; ring.
Qed.

Lemma work n s sc sc' : wf n s sc -> (2 <= n)%nat -> (n mod 2 = 0)%nat -> drive_ok (vars sc) ->
  unit_spins sc -> update ERNum (fin sc) = Ok (fin sc') ->
  exists e e', total_energy2 ERNum (fin sc) = Ok (Some e) /\ total_energy2 ERNum (fin sc') = Ok (Some e') /\
  INR n * e' - INR n * e =
    Rsum s (fun i => dot (vsub (drive_field (vars sc) (t sc + c_dt (vars sc)))
                               (drive_field (vars sc) (t sc + c_dt (vars sc) / 2))) (S_ sc' i)) +
    Rsum s (fun i => dot (vsub (drive_field (vars sc) (t sc + c_dt (vars sc) / 2))
                               (drive_field (vars sc) (t sc))) (S_ sc i)).
Proof.
  intros W Hn He Hok Hu H.
  destruct (fin_step_of n s sc _ W Hn Hok Hu H (finspins_fin sc')) as [E _]. apply fin_inj in E. subst sc'.
  assert (W1 := wf_step n s sc W).
  rewrite (total_energy2_value n s _ W) by (assumption || lia).
  rewrite (total_energy2_value n s _ W1) by (assumption || lia).
  do 2 eexists. split; [reflexivity|]. split; [reflexivity|].
  assert (Hn0 : INR n <> 0) by (apply not_0_INR; lia).
  match goal with |- INR n * (?a / INR n) - INR n * (?b / INR n) = _ =>
    replace (INR n * (a / INR n) - INR n * (b / INR n)) with (a - b) by (field; assumption) end.
  change (J_ (stepR n s sc)) with (J_ sc). change (B_ (stepR n s sc) s) with (B_ sc s).
  change (t (stepR n s sc)) with (t sc + c_dt (vars sc)).
  rewrite <- !(ring_field_diff n s sc) by apply (wf_sub _ _ _ W).
  pose proof (step_energy n s sc W Hn He Hu) as SE. unfold mid in SE. lra.
Qed.

(** ** Time reversal *)
Lemma nv_back M J B dt2 dt S : (M mod 2 = 0)%nat -> (forall p, (p < M)%nat -> unit3 (S p)) ->
  nv M J B dt2 dt S -> nv M J B (- dt2) (- dt) (trotF RNum M J B dt2 dt S).
Proof.
  intros HM HS (H1 & H2 & H3).
  assert (U1 := stage_unit M J B 0 dt2 S HS). assert (U2 := stage_unit M J B 1 dt _ U1).
  set (S1 := stageF RNum M 0 J B dt2 S) in *. set (S2 := stageF RNum M 1 J B dt S1) in *.
  assert (E2 : forall p, stageF RNum M 0 J B (- dt2) (stageF RNum M 0 J B dt2 S2) p = S2 p)
    by (intro; apply stage_back; assumption).
  assert (omx : forall X Y p, (forall q, X q = Y q) -> om M X J B p = om M Y J B p).
  { intros X Y p E. unfold om. rewrite !E. reflexivity. }
  unfold nv. cbv zeta. unfold trotF. fold S1 S2. split; [|split].
  - intros p Hp. pose proof (proj1 (onsub_spec _ _ _) Hp) as [A B']. rewrite stage_om by assumption. auto.
  - intros p Hp. rewrite (omx _ S2) by assumption.
    pose proof (proj1 (onsub_spec _ _ _) Hp) as [A B']. unfold S2. rewrite stage_om by assumption. auto.
  - intros p Hp. rewrite (omx _ S1).
    + pose proof (proj1 (onsub_spec _ _ _) Hp) as [A B']. unfold S1. rewrite stage_om by assumption. auto.
    + intro q. rewrite (stageF_ext RNum M 1 J B (- dt) _ _ E2). apply stage_back; assumption.
Qed.

Lemma rev_wf n s sc : wf n s sc -> wf n s (reversed sc).
Proof. intros [w1 w2 w3 w4 w5 w6 w7]; constructor; cbn; auto. Qed.

Lemma mid_rev n s sc : mid (reversed (stepR n s sc)) = mid sc.
Proof. unfold mid, reversed; cbn. field. Qed.
Lemma Bstep n s sc x : B_ (reversed (stepR n s sc)) s x = B_ sc s x.
Proof. reflexivity. Qed.

Lemma step_rev n s sc : wf n s sc -> (2 <= n)%nat -> (n mod 2 = 0)%nat -> unit_spins sc ->
  stepR n s (reversed (stepR n s sc)) = reversed sc.
Proof.
  intros W Hn He Hu. unfold stepR at 1. rewrite mid_rev, Bstep.
  change (J_ (reversed (stepR n s sc))) with (J_ sc).
  change (c_dt (vars (reversed (stepR n s sc)))) with (- c_dt (vars sc)).
  change (j_couple (reversed (stepR n s sc))) with (j_couple sc).
  change (static_h (reversed (stepR n s sc))) with (static_h sc).
  change (vars (reversed (stepR n s sc))) with (vars (reversed sc)).
  change (has_file (reversed (stepR n s sc))) with (has_file (reversed sc)).
  change (t (reversed (stepR n s sc))) with (t sc + c_dt (vars sc)).
  replace (t sc + c_dt (vars sc) + - c_dt (vars sc)) with (t sc) by ring.
  unfold reversed at 3. unfold set_vars.
  replace (map _ (seq 0 n)) with (spins sc); [reflexivity|].
  apply (list_ext_nth vzero). { rewrite map_length, seq_length. apply (wf_spins _ _ _ W). }
  intros p Hp. pose proof (wf_spins _ _ _ W) as L.
  assert (Hp' : (p < n)%nat) by (rewrite <- L; exact Hp).
  rewrite nth_map_seq by assumption.
  replace (2 * (n / 2))%nat with n by lia.
  rewrite (trotF_congr RNum n (J_ sc) (B_ sc s (mid sc)) (J_ sc) (B_ sc s (mid sc)) (- c_dt (vars sc) / 2) (- c_dt (vars sc))
     (S_ (reversed (stepR n s sc))) (trotF RNum n (J_ sc) (B_ sc s (mid sc)) (c_dt (vars sc) / 2) (c_dt (vars sc)) (S_ sc))).
  - replace (- c_dt (vars sc) / 2) with (- (c_dt (vars sc) / 2)) by field.
    rewrite trot_back; [reflexivity|assumption|]. exact (proj1 (unit_spins_iff n s sc W) Hu).
  - intros q Hq. repeat split. change (S_ (reversed (stepR n s sc)) q) with (S_ (stepR n s sc) q).
    rewrite S_step by assumption. replace (2 * (n / 2))%nat with n by lia. reflexivity.
  - assumption.
Qed.

Lemma nvc_rev n s sc : wf n s sc -> (2 <= n)%nat -> (n mod 2 = 0)%nat -> unit_spins sc ->
  nvc n s sc -> nvc n s (reversed (stepR n s sc)).
Proof.
  intros W Hn He Hu H. unfold nvc in *. rewrite mid_rev, Bstep.
  change (J_ (reversed (stepR n s sc))) with (J_ sc).
  change (c_dt (vars (reversed (stepR n s sc)))) with (- c_dt (vars sc)).
  replace (2 * (n / 2))%nat with n in * by lia.
  replace (- c_dt (vars sc) / 2) with (- (c_dt (vars sc) / 2)) by field.
  apply nv_back in H; [|assumption|exact (proj1 (unit_spins_iff n s sc W) Hu)].
  (* the spins agree on the ring *)
  set (X := S_ (reversed (stepR n s sc))). set (Y := trotF _ _ _ _ _ _ _) in H.
  assert (E : forall q, (q < n)%nat -> X q = Y q).
  { intros q Hq. unfold X, Y. change (S_ (reversed (stepR n s sc)) q) with (S_ (stepR n s sc) q).
    rewrite S_step by assumption. replace (2 * (n / 2))%nat with n by lia. reflexivity. }
  clearbody X Y.
  assert (omx : forall A B p, (forall q, (q < n)%nat -> A q = B q) -> (p < n)%nat ->
     om n A (J_ sc) (B_ sc s (mid sc)) p = om n B (J_ sc) (B_ sc s (mid sc)) p).
  { intros A B p EAB Hp. unfold om. rewrite !EAB by (apply lft_lt || apply rgt_lt; assumption). reflexivity. }
  assert (stx : forall b d A B, (forall q, (q < n)%nat -> A q = B q) -> forall q, (q < n)%nat ->
     stageF RNum n b (J_ sc) (B_ sc s (mid sc)) d A q = stageF RNum n b (J_ sc) (B_ sc s (mid sc)) d B q).
  { intros b d A B EAB. apply stageF_congr. intros q Hq. repeat split. auto. }
  destruct H as (H1 & H2 & H3). unfold nv; cbv zeta.
  split; [|split]; intros p Hp; pose proof (proj1 (onsub_spec _ _ _) Hp) as [Hpn _].
  - rewrite (omx X Y) by assumption. auto.
  - erewrite omx; [apply H2; assumption| |assumption]. intros; apply stx; assumption.
  - erewrite omx; [apply H3; assumption| |assumption]. apply stx. apply stx. assumption.
Qed.

Lemma reverse n s k : forall sc sc', wf n s sc -> (2 <= n)%nat -> (n mod 2 = 0)%nat -> drive_ok (vars sc) ->
  unit_spins sc -> iterM (update ERNum) k (fin sc) = Ok (fin sc') ->
  iterM (update ERNum) k (fin (reversed sc')) = Ok (fin (reversed sc)).
Proof.
  intros sc sc' W Hn He Hok Hu H.
  destruct (iter_ER n s k sc _ W Hn Hok Hu H (finspins_fin sc')) as [E NV]. apply fin_inj in E.
  change (sc' = evol n s k sc) in E. subst sc'. clear H.
  assert (V : forall j, vars (reversed (evol n s j sc)) = vars (reversed sc)).
  { intro j. unfold reversed; cbn. rewrite vars_evol. reflexivity. }
  assert (Hok' : drive_ok (vars (reversed sc))) by exact Hok.
  induction k; [reflexivity|]. cbn [iterM].
  rewrite evol_S. set (scm := evol n s k sc) in *.
  assert (Wm : wf n s scm) by (apply wf_evol; assumption).
  assert (Um : unit_spins scm) by (apply unit_evol; assumption).
  assert (Nm : nvc n s (reversed (stepR n s scm))).
  { apply nvc_rev; auto. exact (NV k ltac:(lia)). }
  assert (Hokm : drive_ok (vars (reversed (stepR n s scm)))).
  { change (drive_ok (vars (reversed scm))). unfold scm. rewrite V. assumption. }
  pose proof (update_ER n s (reversed (stepR n s scm)) (rev_wf n s _ (wf_step n s scm Wm)) Hn Hokm
    (unit_step n s scm Wm Um) Nm) as E.
  rewrite step_rev in E by assumption.
  etransitivity; [apply (f_equal (fun q => bind q _) E)|]. cbn [bind].
  apply IHk. intros j Hj. apply NV. lia.
Qed.
