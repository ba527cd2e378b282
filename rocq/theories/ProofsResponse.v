(** Response runs: the static fields are switched off at time 0. *)
From Coq Require Import String Reals Lra Lia List ZArith Arith Bool.
From Flocq Require Import Core.
From Verif Require Import Num Monad NumR Spin Config Chain Langevin Fit Files Writers Runs SpecVec SpecChain SpecTotal SpecRuns SpecResponse
  ProofsSpin ProofsChain ProofsEnergy ProofsDyn ProofsDyn2 ProofsMC ProofsNew ProofsTotal ProofsFrame ProofsLoop ProofsSim ProofsColumns.
Import ListNotations.
Local Close Scope R_scope.
Local Open Scope nat_scope.

Lemma mapi_map {A B C} (f : nat -> B -> C) (g : A -> B) l : forall k, mapi f k (map g l) = mapi (fun i a => f i (g a)) k l.
Proof. induction l; intro k; [reflexivity|]. cbn. rewrite IHl. reflexivity. Qed.
Lemma mapi_ext {A B} (f g : nat -> A -> B) l : (forall i a, f i a = g i a) -> forall k, mapi f k l = mapi g k l.
Proof. intros H. induction l; intro k; [reflexivity|]. cbn. rewrite H, IHl. reflexivity. Qed.
Lemma er_add0 (a : num ERNum) : nadd ERNum (nofZ ERNum 0) a = a.
Proof. destruct a as [r|]; [|reflexivity]. cbn. f_equal. apply Rplus_0_l. Qed.

Lemma no_field_is_free (sc : chain (num ERNum)) :
  update_no_field ERNum sc = bind (update ERNum (free ERNum sc)) (fun c => Ok (with_static c (static_h sc))).
Proof.
  unfold update_no_field, update, free, with_static. cbv zeta. cbn [vars t static_h j_couple spins has_file].
  destruct (h_ext ERNum (vars sc) _) as [he|p|]; try reflexivity. cbn [bind].
  rewrite mapi_map.
  match goal with |- bind (trotter _ _ ?l1 _ _) _ = bind (bind (trotter _ _ ?l2 _ _) _) _ => assert (E : l2 = l1) end.
  { apply mapi_ext. intros i a. destruct (i <? _); [|reflexivity]. unfold sum_vec. destruct he as [x y z]. cbn [vx vy vz]. f_equal; apply er_add0. }
  rewrite E.
  destruct (trotter _ _ _ _ _); reflexivity.
Qed.
Lemma free_twice N sc l : length l = length (static_h sc) -> free N (with_static sc l) = free N sc.
Proof.
  intros H. unfold free, with_static. cbn. f_equal. revert H. generalize (static_h sc). induction l; intros [|b l'] H; try discriminate; [reflexivity|].
  cbn. f_equal. apply IHl. cbn in H. lia.
Qed.
Lemma update_static N sc c : update N sc = Ok c -> static_h c = static_h sc.
Proof.
  unfold update. cbv zeta. intros H. destruct (h_ext _ _ _); try discriminate. cbn [bind] in H. destruct (trotter _ _ _ _ _); try discriminate.
  cbn [bind] in H. injection H as <-. reflexivity.
Qed.
Lemma free_free N sc : free N (free N sc) = free N sc.
Proof. unfold free, with_static. cbn. rewrite map_map. reflexivity. Qed.
Lemma free_fix N sc : static_h sc = static_h (free N sc) -> free N sc = sc.
Proof. intros H. destruct sc. unfold free, with_static in *. cbn in *. rewrite <- H. reflexivity. Qed.
Lemma update_free N sc c : update N (free N sc) = Ok c -> free N c = c.
Proof.
  intros H. apply update_static in H. apply free_fix. unfold free, with_static in *. cbn in *. rewrite H. rewrite map_map. reflexivity.
Qed.
Lemma update_free_len N sc c : update N (free N sc) = Ok c -> length (static_h c) = length (static_h sc).
Proof. intros H. apply update_static in H. rewrite H. unfold free. cbn. apply map_length. Qed.

Lemma iter_no_field k : forall sc, iterM (update_no_field ERNum) k sc =
  bind (iterM (update ERNum) k (free ERNum sc)) (fun c => Ok (with_static c (static_h sc))).
Proof.
  induction k as [|k IH]; intros sc; cbn [iterM].
  - cbn [bind]. unfold free, with_static. cbn. destruct sc; reflexivity.
  - rewrite no_field_is_free. destruct (update ERNum (free ERNum sc)) as [c|p|] eqn:E; try reflexivity. cbn [bind].
    rewrite IH. cbn [with_static static_h]. rewrite free_twice by (symmetry; apply (update_free_len _ _ _ E)). rewrite (update_free _ _ _ E). reflexivity.
Qed.

(** the free chain of real data *)
Definition freeR (sc : chain R) : chain R := with_static sc (map (fun _ => vzero) (static_h sc)).
Lemma free_fin sc : free ERNum (fin sc) = fin (freeR sc).
Proof. unfold free, freeR, fin, with_static, chain_map. cbn. rewrite !map_map. reflexivity. Qed.
Lemma free_wf n s sc : wf n s sc -> wf n s (freeR sc).
Proof. destruct 1; constructor; cbn; auto. rewrite map_length; auto. Qed.
Lemma B_free sc s x i : B_ (freeR sc) s x i = drive_only sc s x i.
Proof.
  unfold B_, drive_only, h_, at_, freeR. cbn [with_static static_h vars].
  assert (E : nth i (map (fun _ => vzero) (static_h sc)) vzero = vzero).
  { generalize i. induction (static_h sc) as [|a l IH]; intros [|j]; try reflexivity. cbn. apply IH. }
  rewrite E. destruct (i <? s); [|reflexivity]. unfold vadd, vzero. destruct (drive_field (vars sc) x). cbn. f_equal; ring.
Qed.

Lemma free_conserved n s sc k sc' : wf n s sc -> (2 <= n)%nat -> (n mod 2 = 0)%nat -> drive_ok (vars sc) -> unit_spins sc ->
  undriven (vars sc) -> iterM (update_no_field ERNum) k (fin sc) = Ok (fin sc') ->
  ring_energy n (S_ sc') (J_ sc') (drive_only sc s (t sc')) = ring_energy n (S_ sc) (J_ sc) (drive_only sc s (t sc)).
Proof.
  intros W Hn He Hd Hu Un E. rewrite iter_no_field, free_fin in E.
  destruct (iterM (update ERNum) k (fin (freeR sc))) as [c|p|] eqn:E1; try discriminate. cbn [bind] in E. apply ok_inj in E.
  assert (Ec : c = fin (with_static sc' (static_h (freeR sc)))).
  { assert (Sc : static_h c = map (v3map Some) (static_h (freeR sc))).
    { clear - E1. revert E1. change (map (v3map Some) (static_h (freeR sc))) with (static_h (fin (freeR sc))). generalize (fin (freeR sc)).
      induction k as [|k IH]; intros a H; cbn [iterM] in H; [injection H as <-; reflexivity|].
      destruct (update ERNum a) as [b|p|] eqn:E; try discriminate. cbn [bind] in H. rewrite (IH b H). apply (update_static ERNum a b E). }
    destruct c as [jc hc sp tt vc fc], sc' as [jc' hc' sp' tt' vc' fc']. unfold with_static, fin, chain_map in *. cbn in *. injection E as -> _ -> -> -> ->.
    rewrite Sc. reflexivity. }
  subst c. 
  destruct (conserve_total2 n s (freeR sc) k _ (free_wf n s sc W) Hn He Hd Hu Un E1) as [C _].
  set (c1 := with_static sc' (static_h (freeR sc))) in *.
  assert (Hh : hs_ok (vars (fin (freeR sc)))).
  { apply hs_ok_fin, drive_ok_hs, Hd. }
  assert (W1 : wf n s c1 /\ vars c1 = vars sc).
  { destruct (iter_update_frame ERNum n s k (fin (freeR sc)) (proj2 (wf_fin _ _ _) (free_wf n s sc W)) Hn Hh) as (sp & F & L).
    rewrite E1 in F. apply ok_inj in F. assert (Wf : wf n s (fin c1)).
    { rewrite F. pose proof (proj2 (wf_fin _ _ _) (free_wf n s sc W)) as [w1 w2 w3 w4 w5 w6 w7]. constructor; cbn in *; auto. }
    split; [apply wf_fin; exact Wf|]. apply (f_equal vars) in F. cbn in F.
    assert (I : forall a b : config R, config_map Some a = config_map Some b -> a = b).
    { intros a b. assert (M : forall l1 l2 : list R, map Some l1 = map Some l2 -> l1 = l2).
      { induction l1; intros [|y l2] H; try discriminate; [reflexivity|]. cbn in H. injection H as -> H. f_equal. auto. }
      destruct a, b. cbn. intros H. injection H. intros. repeat match goal with H : map Some _ = map Some _ |- _ => apply M in H end. subst. reflexivity. }
    apply I in F. exact F. }
  destruct W1 as [W1 V1].
  rewrite (total_energy2_value n s c1 W1) in C by (try rewrite V1; assumption || lia).
  rewrite (total_energy2_value n s (freeR sc) (free_wf n s sc W)) in C by (assumption || lia).
  apply ok_inj in C. injection C as C.
  assert (N0 : (INR n <> 0)%R) by (apply not_0_INR; lia).
  apply (f_equal (fun x => (x * INR n)%R)) in C. unfold Rdiv in C. rewrite !Rmult_assoc, !Rinv_l, !Rmult_1_r in C by exact N0.
  etransitivity; [|etransitivity; [exact C|]].
  - apply ring_energy_ext; try reflexivity. intros i _. symmetry. assert (B0 : B_ c1 s (t c1) i = B_ (freeR sc') s (t sc') i).
    { unfold B_, h_, at_. cbn [freeR c1 with_static static_h vars t].
      assert (Z : forall l : list vec, nth i (map (fun _ => vzero) l) vzero = vzero).
      { generalize i. intros i0 l. revert i0. induction l as [|a l IH]; intros [|j]; try reflexivity. cbn. apply IH. }
      rewrite !Z. reflexivity. }
    etransitivity; [exact B0|]. rewrite B_free. unfold drive_only. change (vars sc') with (vars c1). rewrite V1. reflexivity.
  - apply ring_energy_ext; try reflexivity. intros i _. apply B_free.
Qed.

(** ** The run *)
Lemma ssize_pos_ok n s (sc : chain (num ERNum)) : wf n s sc -> 2 <= n -> hs_ok (vars sc) -> (exists c', update ERNum sc = Ok c' /\ wf n s c' /\ vars c' = vars sc /\ has_file c' = has_file sc /\ t c' = nadd ERNum (t sc) (c_dt (vars sc))) /\
  (exists c', update_no_field ERNum sc = Ok c' /\ wf n s c' /\ vars c' = vars sc /\ has_file c' = has_file sc /\ t c' = nadd ERNum (t sc) (c_dt (vars sc))).
Proof.
  intros W Hn Hh. split.
  - destruct (update_pure ERNum n s sc W Hn Hh) as (sp & E & L & _). eexists. split; [exact E|]. destruct W; cbn; repeat split; auto.
  - destruct (update_no_field_pure ERNum n s sc W Hn Hh) as (sp & E & L & _). eexists. split; [exact E|]. destruct W; cbn; repeat split; auto.
Qed.

Definition qstep (c : chain (num ERNum)) : chain (num ERNum) :=
  match (if nltb ERNum (t c) (nofZ ERNum 0) then update ERNum c else update_no_field ERNum c) with Ok c' => c' | _ => c end.

Lemma quench_states n s sc x dt : wf n s sc -> 2 <= n -> hs_ok (vars sc) -> t sc = Some x -> c_dt (vars sc) = Some dt ->
  exists st, quench sc x dt st /\ (forall k, wf n s (st k) /\ vars (st k) = vars sc /\ has_file (st k) = has_file sc) /\
   forall k, (if nltb ERNum (t (st k)) (nofZ ERNum 0) then update ERNum (st k) else update_no_field ERNum (st k)) = Ok (st (S k)).
Proof.
  intros W Hn Hh Ex Ed. exists (fun k => Nat.iter k qstep sc).
  assert (P : forall k, let c := Nat.iter k qstep sc in wf n s c /\ vars c = vars sc /\ has_file c = has_file sc /\ t c = Some (x + INR k * dt)%R).
  { induction k as [|k (Wk & Vk & Fk & Tk)]; cbv zeta.
    - split; [exact W|]. split; [reflexivity|]. split; [reflexivity|]. etransitivity; [exact Ex|]. cbn. f_equal. ring.
    - change (Nat.iter (S k) qstep sc) with (qstep (Nat.iter k qstep sc)). set (c := Nat.iter k qstep sc) in *.
      assert (T1 : forall c', t c' = nadd ERNum (t c) (c_dt (vars c)) -> t c' = Some (x + INR (S k) * dt)%R).
      { intros c' E. etransitivity; [exact E|]. etransitivity; [apply f_equal2; [exact Tk|rewrite Vk; exact Ed]|]. rewrite S_INR. change (Some (x + INR k * dt + dt) = Some (x + (INR k + 1) * dt))%R. f_equal. ring. }
      destruct (ssize_pos_ok n s c Wk Hn ltac:(rewrite Vk; exact Hh)) as [(c1 & E1 & W1 & V1 & F1 & T1') (c2 & E2 & W2 & V2 & F2 & T2')].
      unfold qstep. destruct (nltb _ _ _); [rewrite E1|rewrite E2]; (split; [assumption|]); (split; [congruence|]); (split; [congruence|]); apply T1; assumption. }
  assert (Q : forall k, (if nltb ERNum (t (Nat.iter k qstep sc)) (nofZ ERNum 0) then update ERNum (Nat.iter k qstep sc) else update_no_field ERNum (Nat.iter k qstep sc)) = Ok (Nat.iter (S k) qstep sc)).
  { intros k. change (Nat.iter (S k) qstep sc) with (qstep (Nat.iter k qstep sc)). destruct (P k) as (Wk & Vk & Fk & Tk). set (c := Nat.iter k qstep sc) in *.
    destruct (ssize_pos_ok n s c Wk Hn ltac:(rewrite Vk; exact Hh)) as [(c1 & E1 & _) (c2 & E2 & _)].
    unfold qstep. destruct (nltb _ _ _); [rewrite E1|rewrite E2]; reflexivity. }
  split; [split; [reflexivity|]|split; [|exact Q]].
  - intros k. destruct (P k) as (Wk & Vk & Fk & Tk). split; [exact Tk|]. specialize (Q k). split; intro H.
    + assert (L : nltb ERNum (t (Nat.iter k qstep sc)) (nofZ ERNum 0) = true) by (etransitivity; [apply f_equal2; [exact Tk|reflexivity]|apply ltb_ER; exact H]). rewrite L in Q. exact Q.
    + assert (L : nltb ERNum (t (Nat.iter k qstep sc)) (nofZ ERNum 0) = false) by (etransitivity; [apply f_equal2; [exact Tk|reflexivity]|apply ltb_ER_false; exact H]). rewrite L in Q. exact Q.
  - intros k. destruct (P k) as (A & B & C & _). auto.
Qed.

Lemma response_run n s (sc : chain (num ERNum)) (d : draws ERNum) dt tmax fuel :
  wf n s sc -> 2 <= n -> 1 <= s -> hs_ok (vars sc) -> strob (vars sc) = false ->
  c_dt (vars sc) = Some dt -> c_t (vars sc) = Some tmax -> (0 < dt)%R ->
  let m := Z.to_nat (Zceil (2 * tmax / dt)) in
  (m <= fuel -> exists c0 st l0 lines, thermalise ERNum (dr_mc d) 20000000 sc = Ok c0 /\ chain_log ERNum c0 = Ok l0 /\
      quench (set_t c0 (Some (- tmax)%R)) (- tmax) dt st /\ (forall k, chain_log ERNum (st k) = Ok (lines k)) /\
      response_worker ERNum fuel d sc = Ok (l0 ++ concat (map lines (seq 1 m)))) /\
  (fuel < m -> response_worker ERNum fuel d sc = OutOfFuel).
Proof.
  intros W Hn Hs Hh St Ed Et Hd m.
  destruct (thermalise_ok ERNum n s (dr_mc d) 20000000 sc W ltac:(lia) Hh) as (c0 & E0 & W0 & V0 & T0 & F0).
  destruct (chain_log_ok ERNum n s c0 W0 ltac:(rewrite V0; exact Hh) quarter_ER Hs) as [l0 El0].
  set (c1 := set_t c0 (Some (- tmax)%R)).
  assert (W1 : wf n s c1) by (destruct W0; constructor; auto).
  destruct (quench_states n s c1 (- tmax) dt W1 Hn) as (st & Q & P & Q').
  { change (vars c1) with (vars c0). rewrite V0. exact Hh. } { reflexivity. } { change (vars c1) with (vars c0). rewrite V0. exact Ed. }
  assert (X : exists lines, forall k, chain_log ERNum (st k) = Ok (lines k)).
  { exists (fun k => match chain_log ERNum (st k) with Ok l => l | _ => [] end). intros k. destruct (P k) as (Wk & V & _).
    destruct (chain_log_ok ERNum n s (st k) Wk) with (1 := ltac:(rewrite V; change (vars c1) with (vars c0); rewrite V0; exact Hh) : hs_ok (vars (st k))) as [l E]; [exact quarter_ER|exact Hs|]. rewrite E. reflexivity. }
  destruct X as [lines X].
  assert (Em : m = nsteps (- tmax) tmax dt) by (unfold m, nsteps; do 3 f_equal; ring).
  set (ts := ntou64 ERNum (ndiv ERNum (tau (vars c0)) (c_dt (vars c0)))).
  assert (Fo : follows (response_body ERNum ts) st lines m).
  { intros k Hk. unfold response_body. rewrite Q'. cbn [bind]. destruct (P (S k)) as (_ & V & _). rewrite V. change (vars c1) with (vars c0). rewrite V0.
    unfold due. rewrite St. cbn [bind]. rewrite X. reflexivity. }
  assert (B : before ERNum t (c_t (vars c1)) st m).
  { intros k Hk. destruct (proj2 Q k) as [Tk _]. etransitivity; [apply f_equal2; [exact Tk|change (vars c1) with (vars c0); rewrite V0; exact Et]|]. apply ltb_ER. apply nsteps_before; [exact Hd|lia]. }
  assert (R0 : response_worker ERNum fuel d sc = bind (time_loop ERNum t (c_t (vars c1)) (response_body ERNum ts) fuel 0 c1) (fun '(_, l) => Ok (l0 ++ l))).
  { unfold response_worker. rewrite E0. cbn [bind]. cbv zeta. rewrite El0. cbn [bind].
    assert (Ec : set_t c0 (nopp ERNum (c_t (vars c0))) = c1) by (unfold c1; rewrite V0, Et; reflexivity). rewrite Ec. reflexivity. }
  split.
  - intro Hf. exists c0, st, l0, lines. repeat (split; [assumption|]). rewrite R0.
    pose proof (loop_ok ERNum t (c_t (vars c1)) _ st _ m fuel Fo B) as H. rewrite (proj1 Q) in H. rewrite H; [reflexivity| |exact Hf].
    destruct (proj2 Q m) as [Tk _]. etransitivity; [apply f_equal2; [exact Tk|change (vars c1) with (vars c0); rewrite V0; exact Et]|]. apply ltb_ER_false. apply nsteps_after; [exact Hd|lia].
  - intro Hf. rewrite R0. pose proof (loop_short ERNum t (c_t (vars c1)) _ st _ m Fo B fuel 0) as H. rewrite (proj1 Q) in H. rewrite H by lia. reflexivity.
Qed.
