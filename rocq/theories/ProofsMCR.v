(** The samplers in exact arithmetic. *)
From Coq Require Import Reals Lra Lia List ZArith Arith Bool.
From Verif Require Import Num Monad NumR Spin Config Chain Langevin SpecVec SpecChain SpecMC
  ProofsSpin ProofsChain ProofsEnergy ProofsDyn ProofsDynR ProofsDyn2 ProofsMC.
Import ListNotations.
Local Open Scope R_scope.

(** ** Proposals *)
Lemma uniform_dir_dirn u1 u2 : unit_draw u2 -> uniform_dir u1 u2 = dirn (2 * PI * u1) (acos (1 - 2 * u2)).
Proof.
  intros [H1 H2]. unfold uniform_dir, dirn.
  rewrite cos_acos by lra. rewrite sin_acos by lra. unfold Rsqr. cbv zeta.
  f_equal; apply Rmult_comm.
Qed.
Lemma uniform_dir_unit u1 u2 : unit_draw u2 -> unit3 (uniform_dir u1 u2).
Proof. intro H. rewrite uniform_dir_dirn by exact H. apply dirn_unit. Qed.
Lemma propose_ER u1 u2 : unit_draw u2 ->
  propose ERNum (Some u1) (Some u2) = fin3 (uniform_dir u1 u2).
Proof.
  intro H. rewrite uniform_dir_dirn by exact H. unfold propose.
  change (nsub ERNum (nofZ ERNum 1) (nmul ERNum (nofZ ERNum 2) (Some u2))) with (Some (1 - 2 * u2)).
  change (nacos ERNum) with er_acos. destruct H. rewrite er_acos_ok by lra. reflexivity.
Qed.

(** ** Moves *)
Lemma moved_S sc i v k : (k < length (spins sc))%nat -> S_ (moved sc i v) k = if k =? i then v else S_ sc k.
Proof.
  intro H. unfold S_ at 1, at_, moved. cbn [spins set_spins].
  rewrite nth_map_seq by exact H. reflexivity.
Qed.
Lemma moved_J sc i v k : J_ (moved sc i v) k = J_ sc k. Proof. reflexivity. Qed.
Lemma moved_h sc i v k : h_ (moved sc i v) k = h_ sc k. Proof. reflexivity. Qed.
Lemma moved_wf n s sc i v : wf n s sc -> wf n s (moved sc i v).
Proof.
  intro W. destruct W. constructor; cbn; auto. rewrite map_length, seq_length. assumption.
Qed.
Lemma moved_unit n s sc i v : wf n s sc -> unit_spins sc -> unit3 v -> unit_spins (moved sc i v).
Proof.
  intros W U Hv. apply (unit_spins_iff n s _ (moved_wf n s sc i v W)). intros p Hp.
  rewrite moved_S by (rewrite (wf_spins _ _ _ W); exact Hp).
  destruct (p =? i); [exact Hv|]. apply (proj1 (unit_spins_iff n s _ W) U). exact Hp.
Qed.
Lemma fin_upd (l : list vec) i v : (i < length l)%nat ->
  upd (map (v3map Some) l) i (fin3 v) =
  map (v3map Some) (map (fun k => if k =? i then v else at_ l k) (seq 0 (length l))).
Proof.
  intro Hi. apply (list_ext_nth (fin3 vzero)).
  - rewrite upd_length, !map_length, seq_length. reflexivity.
  - intros k Hk. rewrite upd_length, map_length in Hk.
    rewrite nth_upd by (rewrite map_length; exact Hi).
    change (fin3 vzero) with (v3map (@Some R) vzero).
    rewrite !map_nth, nth_map_seq by exact Hk.
    destruct (k =? i); reflexivity.
Qed.
Lemma Rltb_iff a b : Rltb a b = true <-> a < b.
Proof. unfold Rltb. destruct (Rlt_dec a b); split; intro; auto; try discriminate; contradiction. Qed.
Lemma accepts_b sc x u :
  nltb ERNum (Some x) (nofZ ERNum 0) || nltb ERNum (Some u)
    (nexp ERNum (nmul ERNum (nopp ERNum (beta (vars (fin sc)))) (Some x))) = true
  <-> accepts (beta (vars sc)) x u.
Proof.
  change (beta (vars (fin sc))) with (Some (beta (vars sc))).
  cbn [nltb nofZ nexp nmul nopp ERNum er_ltb er1 er2 option_map].
  rewrite orb_true_iff, !Rltb_iff. unfold accepts.
  replace (- beta (vars sc) * x) with (- (beta (vars sc) * x)) by ring. reflexivity.
Qed.
Lemma acceptP_yes sc i v x u : (i < length (spins sc))%nat -> accepts (beta (vars sc)) x u ->
  acceptP ERNum (fin sc) i (fin3 v) (Some x) (Some u) = fin (moved sc i v).
Proof.
  intros Hi H. unfold acceptP. assert (A := proj2 (accepts_b sc x u) H).
  destruct (_ || _) eqn:Q; [clear A Q|discriminate A].
  unfold fin, chain_map, moved, set_spins. cbn [spins j_couple static_h t vars has_file].
  f_equal. apply fin_upd. exact Hi.
Qed.
Lemma acceptP_no sc i v x u : ~ accepts (beta (vars sc)) x u ->
  acceptP ERNum (fin sc) i v (Some x) (Some u) = fin sc.
Proof.
  intro H. unfold acceptP. destruct (_ || _) eqn:E; [|reflexivity].
  exfalso. apply H. apply accepts_b. exact E.
Qed.
Lemma acceptP_nan (c : chain (num ERNum)) i v u : acceptP ERNum c i v None u = c.
Proof.
  unfold acceptP.
  assert (E : nltb ERNum None (nofZ ERNum 0) || nltb ERNum u (nexp ERNum (nmul ERNum (nopp ERNum (beta (vars c))) None)) = false).
  { cbn. rewrite er2_none_r. destruct u; reflexivity. }
  destruct (_ || _) eqn:Q; [|reflexivity]; (discriminate E || discriminate (eq_trans (eq_sym E) Q)).
Qed.
(** A sampler that uses the energy change [x] is the Metropolis step for E if x is the change of E *)
Lemma step_of n s (sc : chain R) E f d u1 u2 u x : wf n s sc -> (1 <= n)%nat ->
  f (draw d u1 u2 u) (fin sc) =
     Ok (acceptP ERNum (fin sc) (d mod n) (fin3 (uniform_dir u1 u2)) (Some x) (Some u)) ->
  x = E (moved sc (d mod n) (uniform_dir u1 u2)) - E sc ->
  metropolis_step n E f sc d u1 u2 u.
Proof.
  intros W Hn Hf Hx. unfold metropolis_step. cbv zeta. rewrite <- Hx.
  split; intro H; rewrite Hf; f_equal.
  - apply acceptP_yes; [rewrite (wf_spins _ _ _ W); apply Nat.mod_upper_bound; lia|exact H].
  - apply acceptP_no. exact H.
Qed.
(** ... and conversely the step determines the change when all draws are considered *)
Lemma accepts_det b x y : 0 < b ->
  (forall u, unit_draw u -> (accepts b x u <-> accepts b y u)) ->
  (forall u, unit_draw u -> (accepts b (- x) u <-> accepts b (- y) u)) -> x = y.
Proof.
  intros Hb.
  assert (A : forall x y, (forall u, unit_draw u -> (accepts b x u <-> accepts b y u)) -> 0 < x -> x <= y -> x = y).
  { clear x y. intros x y H Hx Hxy. destruct (Req_dec x y) as [|N]; [assumption|exfalso].
    assert (L : exp (- (b * y)) < exp (- (b * x))) by (apply exp_increasing; nra).
    assert (L1 : exp (- (b * x)) < 1) by (rewrite <- exp_0; apply exp_increasing; nra).
    pose proof (exp_pos (- (b * y))).
    destruct (proj1 (H (exp (- (b * y))) ltac:(split; lra)) (or_intror L)); lra. }
  assert (A' : forall x y, (forall u, unit_draw u -> (accepts b x u <-> accepts b y u)) -> 0 < x -> x = y).
  { intros x0 y0 H Hx. destruct (Rle_dec x0 y0) as [l|l]; [apply A; assumption|].
    destruct (Rlt_dec 0 y0) as [p|p].
    - symmetry. apply A; [|exact p|lra]. intros u Hu. symmetry. apply H. exact Hu.
    - exfalso. assert (L1 : exp (- (b * x0)) < 1) by (rewrite <- exp_0; apply exp_increasing; nra).
      pose proof (exp_pos (- (b * x0))).
      assert (L2 : accepts b y0 (exp (- (b * x0)))).
      { destruct (Rlt_dec y0 0); [left; assumption|right]. replace y0 with 0 by lra.
        rewrite Rmult_0_r, Ropp_0, exp_0. lra. }
      destruct (proj2 (H (exp (- (b * x0))) ltac:(split; lra)) L2); lra. }
  intros H1 H2. destruct (Rtotal_order x 0) as [Hx|[Hx|Hx]].
  - assert (- x = - y) by (apply A'; [assumption|lra]). lra.
  - destruct (Rtotal_order y 0) as [Hy|[Hy|Hy]]; [|lra|].
    + assert (- y = - x) by (apply A'; [intros; symmetry; apply H2; assumption|lra]). lra.
    + assert (y = x) by (apply A'; [intros; symmetry; apply H1; assumption|lra]). lra.
  - apply A'; assumption.
Qed.

(** ** Local changes of sums *)
Lemma Rsum_change n f g i : (i < n)%nat -> (forall k, (k < n)%nat -> k <> i -> g k = f k) ->
  Rsum n g = Rsum n f + (g i - f i).
Proof.
  induction n as [|n IH]; [lia|]. intros Hi H. cbn [Rsum].
  destruct (Nat.eq_dec i n) as [->|Ne].
  - rewrite (Rsum_ext n g f); [lra|]. intros k Hk. apply H; lia.
  - rewrite IH; [|lia|intros; apply H; lia]. rewrite (H n) by lia. lra.
Qed.
Lemma Rsum_change2 n f g i j : (i < n)%nat -> (j < n)%nat -> i <> j ->
  (forall k, (k < n)%nat -> k <> i -> k <> j -> g k = f k) ->
  Rsum n g = Rsum n f + (g i - f i) + (g j - f j).
Proof.
  intros Hi Hj Hij H.
  rewrite (Rsum_change n (fun k => if k =? i then g i else f k) g j Hj).
  - rewrite (Rsum_change n f (fun k => if k =? i then g i else f k) i Hi).
    + rewrite Nat.eqb_refl. destruct (Nat.eqb_spec j i); [congruence|]. lra.
    + intros k _ Hk. destruct (Nat.eqb_spec k i); [contradiction|reflexivity].
  - intros k Hk Hkj. destruct (Nat.eqb_spec k i); [subst; reflexivity|]. apply H; assumption.
Qed.
Lemma Rsum_change3 n f g i j l : (i < n)%nat -> (j < n)%nat -> (l < n)%nat -> i <> j -> i <> l -> j <> l ->
  (forall k, (k < n)%nat -> k <> i -> k <> j -> k <> l -> g k = f k) ->
  Rsum n g = Rsum n f + (g i - f i) + (g j - f j) + (g l - f l).
Proof.
  intros Hi Hj Hl Hij Hil Hjl H.
  rewrite (Rsum_change2 n (fun k => if k =? i then g i else f k) g j l Hj Hl Hjl).
  - rewrite (Rsum_change n f (fun k => if k =? i then g i else f k) i Hi).
    + rewrite Nat.eqb_refl. destruct (Nat.eqb_spec j i), (Nat.eqb_spec l i); try congruence; lra.
    + intros k _ Hk. destruct (Nat.eqb_spec k i); [contradiction|reflexivity].
  - intros k Hk Hkj Hkl. destruct (Nat.eqb_spec k i); [subst; reflexivity|]. apply H; assumption.
Qed.

Lemma lft_mod' n i : (i < n)%nat -> ((i + (n - 1)) mod n = lft n i)%nat.
Proof.
  intro H. unfold lft. destruct (Nat.eqb_spec i 0).
  - subst. apply Nat.mod_small. lia.
  - replace (i + (n - 1))%nat with ((i - 1) + 1 * n)%nat by lia. rewrite Nat.mod_add by lia.
    apply Nat.mod_small. lia.
Qed.
Lemma rgt_ne n i : (i < n)%nat -> (2 <= n)%nat -> rgt n i <> i.
Proof. intros. unfold rgt. destruct (Nat.eqb_spec (i + 1) n); lia. Qed.
Lemma lft_ne n i : (i < n)%nat -> (2 <= n)%nat -> lft n i <> i.
Proof. intros. unfold lft. destruct (Nat.eqb_spec i 0); lia. Qed.
Lemma lft_rgt_ne n i : (i < n)%nat -> (3 <= n)%nat -> lft n i <> rgt n i.
Proof. intros. unfold lft, rgt. destruct (Nat.eqb_spec i 0), (Nat.eqb_spec (i + 1) n); lia. Qed.
Lemma rgt_is n k i : (k < n)%nat -> (i < n)%nat -> rgt n k = i -> k = lft n i.
Proof. intros Hk Hi <-. symmetry. apply lft_rgt. exact Hk. Qed.
Lemma lft_is n k i : (k < n)%nat -> (i < n)%nat -> lft n k = i -> k = rgt n i.
Proof. intros Hk Hi <-. symmetry. apply rgt_lft. exact Hk. Qed.

(** ** Energy changes *)
Section Changes.
Context (n s : nat) (sc : chain R) (W : wf n s sc) (i : nat) (Hi : (i < n)%nat) (v : vec).
Notation S := (S_ sc). Notation J := (J_ sc). Notation h := (h_ sc).
Notation l := (lft n). Notation r := (rgt n).
Notation S' := (S_ (moved sc i v)).

Lemma mS k : (k < n)%nat -> S' k = if k =? i then v else S k.
Proof. intro H. apply moved_S. rewrite (wf_spins _ _ _ W). exact H. Qed.
Lemma mS_i : S' i = v.
Proof. rewrite mS by exact Hi. rewrite Nat.eqb_refl. reflexivity. Qed.
Lemma mS_ne k : (k < n)%nat -> k <> i -> S' k = S k.
Proof. intros H Ne. rewrite mS by exact H. destruct (Nat.eqb_spec k i); [contradiction|reflexivity]. Qed.

(** sum of site and right-bond terms *)
Lemma change_bonds (F : nat -> vec -> vec -> R) : (2 <= n)%nat ->
  Rsum n (fun k => F k (S' k) (S' (r k))) - Rsum n (fun k => F k (S k) (S (r k)))
  = (F i v (S (r i)) - F i (S i) (S (r i))) + (F (l i) (S (l i)) v - F (l i) (S (l i)) (S i)).
Proof.
  intro Hn. pose proof (lft_lt n i Hi) as Hl. pose proof (rgt_lt n i Hi) as Hr.
  rewrite (Rsum_change2 n (fun k => F k (S k) (S (r k))) _ i (l i) Hi Hl).
  - rewrite !mS_i, (rgt_lft n i Hi), mS_i. rewrite (mS_ne (r i)), (mS_ne (l i));
      auto using lft_ne, rgt_ne. lra.
  - intro Q. symmetry in Q. revert Q. apply lft_ne; assumption.
  - intros k Hk H1 H2. rewrite (mS_ne k Hk H1), (mS_ne (r k)); auto using rgt_lt.
    intro Q. apply H2. apply rgt_is; assumption.
Qed.
(** sum of three-site terms *)
Lemma change_trips (F : nat -> vec -> vec -> vec -> R) : (3 <= n)%nat ->
  Rsum n (fun k => F k (S' (l k)) (S' k) (S' (r k))) - Rsum n (fun k => F k (S (l k)) (S k) (S (r k)))
  = (F i (S (l i)) v (S (r i)) - F i (S (l i)) (S i) (S (r i)))
    + (F (l i) (S (l (l i))) (S (l i)) v - F (l i) (S (l (l i))) (S (l i)) (S i))
    + (F (r i) v (S (r i)) (S (r (r i))) - F (r i) (S i) (S (r i)) (S (r (r i)))).
Proof.
  intro Hn. pose proof (lft_lt n i Hi) as Hl. pose proof (rgt_lt n i Hi) as Hr.
  assert (Hn2 : (2 <= n)%nat) by lia.
  pose proof (lft_ne n i Hi Hn2) as Nl. pose proof (rgt_ne n i Hi Hn2) as Nr.
  pose proof (lft_rgt_ne n i Hi Hn) as Nlr.
  rewrite (Rsum_change3 n (fun k => F k (S (l k)) (S k) (S (r k))) _ i (l i) (r i) Hi Hl Hr); auto.
  - rewrite !mS_i, (rgt_lft n i Hi), (lft_rgt n i Hi), !mS_i.
    rewrite (mS_ne (r i)), (mS_ne (l i)) by assumption.
    rewrite (mS_ne (l (l i))), (mS_ne (r (r i))).
    + lra.
    + auto using rgt_lt.
    + intro Q. apply Nlr. symmetry. apply rgt_is; assumption.
    + auto using lft_lt.
    + intro Q. apply Nlr. apply lft_is; assumption.
  - intros k Hk H1 H2 H3. rewrite (mS_ne k Hk H1), (mS_ne (r k)), (mS_ne (l k)); auto using rgt_lt, lft_lt.
    + intro Q. apply H3. apply lft_is; assumption.
    + intro Q. apply H2. apply rgt_is; assumption.
Qed.
Lemma change_site (F : nat -> vec -> R) :
  Rsum n (fun k => F k (S' k)) - Rsum n (fun k => F k (S k)) = F i v - F i (S i).
Proof.
  rewrite (Rsum_change n (fun k => F k (S k)) _ i Hi).
  - rewrite mS_i. lra.
  - intros k Hk H1. rewrite (mS_ne k Hk H1). reflexivity.
Qed.

Lemma Rsum_mod (F : nat -> nat -> R) : Rsum n (fun k => F k ((k + 1) mod n)%nat) = Rsum n (fun k => F k (r k)).
Proof. apply Rsum_ext. intros k Hk. rewrite (rgt_mod n k Hk). reflexivity. Qed.

Lemma dP_value : (2 <= n)%nat ->
  dP ERNum n (fin sc) i (fin3 v) =
  Some (ring_energy n S' (J_ (moved sc i v)) (h_ (moved sc i v)) - ring_energy n S J h).
Proof.
  intro Hn. unfold dP. rewrite !spins_fin, !js_fin, !hs_fin.
  transitivity (Some (de_plain RNum (S (l i)) (S (r i)) (J (l i)) (J i) (h i) (S i) v)); [reflexivity|].
  f_equal. change (h_ (moved sc i v)) with h. change (J_ (moved sc i v)) with J.
  unfold ring_energy, bond. rewrite !(Rsum_mod (fun a b => - dot (_ a) (vhad (_ a) (_ b)) + dot (_ a) (_ a))).
  rewrite (change_bonds (fun k a b => - dot a (vhad (J k) b) + dot (h k) a) Hn).
  unfold de_plain, for3, dot, vhad. cbn. lra.
Qed.
Lemma dL_value : (2 <= n)%nat ->
  dL ERNum n (fin sc) i (fin3 v) =
  Some (exchange_energy n S' (J_ (moved sc i v)) - exchange_energy n S J).
Proof.
  intro Hn. unfold dL. rewrite !spins_fin, !js_fin.
  transitivity (Some (de_plain RNum (S (l i)) (S (r i)) (J (l i)) (J i) (mk3 0 0 0) (S i) v)); [reflexivity|].
  f_equal. change (J_ (moved sc i v)) with J.
  unfold exchange_energy, bond. rewrite !(Rsum_mod (fun a b => - dot (_ a) (vhad (_ a) (_ b)))).
  rewrite (change_bonds (fun k a b => - dot a (vhad (J k) b)) Hn).
  unfold de_plain, for3, dot, vhad. cbn. lra.
Qed.
End Changes.
