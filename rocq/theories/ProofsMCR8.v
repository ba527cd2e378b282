(** Closed loops of the Magnus samplers. *)
From Coq Require Import Reals Lra Lia List ZArith Arith Bool.
From Verif Require Import Num Monad NumR Spin Config Chain Langevin SpecVec SpecChain SpecMC Samples
  ProofsSpin ProofsChain ProofsEnergy ProofsDyn ProofsDynR ProofsDyn2 ProofsMC ProofsMCR ProofsMCR2 ProofsMCR3 ProofsMCR4 ProofsMCR5 ProofsMCR6 ProofsMCR7.
Import ListNotations.
Local Open Scope R_scope.

Lemma flagL_last s : (1 <= s)%nat -> (Z.of_nat s < 2 ^ 31)%Z -> flagL s (s - 1) = true.
Proof.
  intros H1 H2. unfold flagL. replace (Z.of_nat s - 1)%Z with (Z.of_nat (s - 1)) by lia.
  rewrite as_usize_i32 by lia. apply Nat.eqb_refl.
Qed.
Lemma flagL_not s i : (1 <= s)%nat -> (Z.of_nat s < 2 ^ 31)%Z -> i <> (s - 1)%nat -> flagL s i = false.
Proof.
  intros H1 H2 H. unfold flagL. replace (Z.of_nat s - 1)%Z with (Z.of_nat (s - 1)) by lia.
  rewrite as_usize_i32 by lia. apply Nat.eqb_neq. exact H.
Qed.

(** the configuration with a at p, b at q, e_y elsewhere *)
Definition two_site (n p q : nat) (a b : vec) : list vec :=
  map (fun i => if i =? p then a else if i =? q then b else mk3 0 1 0) (seq 0 n).
Lemma two_site_len n p q a b : length (two_site n p q a b) = n.
Proof. unfold two_site. rewrite map_length, seq_length. reflexivity. Qed.
Lemma two_site_unit n p q a b : unit3 a -> unit3 b -> Forall unit3 (two_site n p q a b).
Proof.
  intros Ha Hb. unfold two_site. apply Forall_forall. intros x Hx. apply in_map_iff in Hx as [i [<- _]].
  destruct (i =? p); [exact Ha|]. destruct (i =? q); [exact Hb|]. unfold unit3, dot. cbn. ring.
Qed.
Lemma two_site_S n p q a b sc k : (k < n)%nat ->
  S_ (with_spins sc (two_site n p q a b)) k = if k =? p then a else if k =? q then b else mk3 0 1 0.
Proof. intro H. unfold S_, at_, with_spins, two_site. cbn [spins set_spins]. rewrite nth_map_seq by exact H. reflexivity. Qed.

Section Magnus.
Context (n s : nat) (sc : chain R) (W : wf n s sc) (Hn : (3 <= n)%nat) (Hs : (1 <= s)%nat) (Ht : tau (vars sc) <> 0)
  (Hb : 0 < beta (vars sc)).

Lemma magnus_D sp : length sp = n -> forall d u1 u2 u, unit_draw u2 ->
  metropolis_update_magnus ERNum (draw d u1 u2 u) (fin (with_spins sc sp)) =
  Ok (acceptP ERNum (fin (with_spins sc sp)) (d mod n) (fin3 (uniform_dir u1 u2))
        (Some (DMG n s (with_spins sc sp) (d mod n) (uniform_dir u1 u2))) (Some u)).
Proof.
  intros L d u1 u2 u D2. assert (W' : wf n s (with_spins sc sp)) by (destruct W; constructor; cbn; assumption).
  etransitivity; [apply (magnus_ER n s); [exact W'|exact D2|lia]|]. f_equal. f_equal. apply dMG_value; [exact W'|exact Ht].
Qed.

Lemma no_energy_loop p a b a' b' : (p < n)%nat -> unit3 a -> unit3 b -> unit3 a' -> unit3 b' ->
  vz a <> -1 -> vz b <> -1 -> vz a' <> -1 -> vz b' <> -1 -> a' <> a -> b' <> b ->
  (let c := with_spins sc (two_site n p (rgt n p) a b) in
   dot (vsub a' a) (vsub (gM n s c p) (gM n s (moved c (rgt n p) b') p))
   + dot (vsub b' b) (vsub (gM n s (moved c p a') (rgt n p)) (gM n s c (rgt n p))) <> 0) ->
  ~ samples_some_energy n (metropolis_update_magnus ERNum) sc.
Proof.
  intros Hp Ua Ub Ua' Ub' Za Zb Za' Zb' Na Nb L [E HE]. set (q := rgt n p) in *.
  assert (Hq : (q < n)%nat) by (apply rgt_lt; exact Hp).
  assert (Hpq : q <> p) by (apply rgt_ne; [exact Hp|lia]).
  set (c := with_spins sc (two_site n p q a b)) in *.
  assert (C : conf n sc c) by (exists (two_site n p q a b); repeat split; auto using two_site_len, two_site_unit).
  assert (Wc : wf n s c) by (apply (conf_wf n s sc W); exact C).
  assert (Sp : S_ c p = a) by (unfold c; rewrite two_site_S, Nat.eqb_refl by exact Hp; reflexivity).
  assert (Sq : S_ c q = b).
  { unfold c; rewrite two_site_S by exact Hq. destruct (Nat.eqb_spec q p); [contradiction|]. rewrite Nat.eqb_refl. reflexivity. }
  assert (Htc : tau (vars c) <> 0) by exact Ht.
  pose proof (loop_zero n s sc W Hb (metropolis_update_magnus ERNum) (DMG n s) magnus_D E HE c p q a' b' C Hp Hq
     (not_eq_sym Hpq) Ua' Ub' Za' Zb') as Q.
  rewrite Sp, Sq in Q. specialize (Q Za Zb Na Nb).
  assert (Anti : forall c i v, conf n sc c -> (i < n)%nat -> DMG n s (moved c i v) i (S_ c i) = - DMG n s c i v).
  { intros c0 i v C0 Hi. apply DMG_anti; [apply (conf_wf n s sc W); exact C0|exact Hi|lia|].
    destruct C0 as [sp [_ [_ ->]]]. exact Ht. }
  specialize (Q Anti).
  pose proof (loop_value n s c p a' b' Wc Hn Hp Htc) as V. cbv zeta in V. fold q in V.
  rewrite Sp, Sq in V. rewrite V in Q. apply L. exact Q.
Qed.

Lemma no_energy_boundary : (s < n)%nat -> vx (J_ sc (s - 1)) <> 0 \/ vz (J_ sc (s - 1)) <> 0 ->
  ~ samples_some_energy n (metropolis_update_magnus ERNum) sc.
Proof.
  intros Hsn HJ.
  assert (Hp : (s - 1 < n)%nat) by lia.
  assert (Hr : rgt n (s - 1) = s) by (unfold rgt; destruct (Nat.eqb_spec (s - 1 + 1) n); lia).
  assert (I32 : (Z.of_nat s < 2 ^ 31)%Z) by (pose proof (wf_i32 _ _ _ W); lia).
  assert (K0 : 2 * PI / tau (vars sc) <> 0) by (apply (omega_nz sc Ht)).
  assert (Main : forall a b a' b',
     let c := with_spins sc (two_site n (s - 1) s a b) in
     dot (vsub a' a) (vsub (gM n s c (s - 1)) (gM n s (moved c s b') (s - 1)))
     + dot (vsub b' b) (vsub (gM n s (moved c (s - 1) a') s) (gM n s c s))
     = 2 * PI / tau (vars sc) * (vx (J_ sc (s - 1)) * (vz a' - vz a) * (vx b - vx b')
                                 - vz (J_ sc (s - 1)) * (vx a' - vx a) * (vz b - vz b'))).
  { intros a b a' b' c.
    assert (Wc : wf n s c) by (destruct W; constructor; cbn; try assumption; apply two_site_len).
    assert (Nll : lft n (s - 1) <> s) by (unfold lft; destruct (Nat.eqb_spec (s - 1) 0); lia).
    assert (Nrr : rgt n s <> (s - 1)%nat) by (unfold rgt; destruct (Nat.eqb_spec (s + 1) n); lia).
    assert (Lq : lft n s = (s - 1)%nat) by (unfold lft; destruct (Nat.eqb_spec s 0); lia).
    assert (Hll : (lft n (s - 1) < n)%nat) by (apply lft_lt; exact Hp).
    assert (Hrr : (rgt n s < n)%nat) by (apply rgt_lt; lia).
    unfold gM. rewrite !Hr, !Lq. rewrite flagL_last by assumption. rewrite (flagL_not s s) by (auto; lia).
    destruct (Nat.ltb_spec (s - 1) s); [|lia]. destruct (Nat.ltb_spec s s); [lia|].
    rewrite !(mS n s c Wc _ _ _ Hll), !(mS n s c Wc _ _ _ Hrr), !(mS n s c Wc _ _ _ Hp), !(mS n s c Wc _ _ s Hsn).
    rewrite !Nat.eqb_refl.
    assert (Sp : S_ c (s - 1) = a) by (unfold c; rewrite two_site_S, Nat.eqb_refl by exact Hp; reflexivity).
    assert (Sq : S_ c s = b).
    { unfold c; rewrite two_site_S by exact Hsn. destruct (Nat.eqb_spec s (s - 1)); [lia|]. rewrite Nat.eqb_refl. reflexivity. }
    rewrite Sp, Sq.
    destruct (Nat.eqb_spec (lft n (s - 1)) s); [contradiction|].
    destruct (Nat.eqb_spec (rgt n s) (s - 1)); [contradiction|].
    change (J_ (moved c s b')) with (J_ sc). change (J_ (moved c (s - 1) a')) with (J_ sc). change (J_ c) with (J_ sc).
    change (vars (moved c s b')) with (vars sc). change (vars c) with (vars sc).
    unfold dot, vsub. cbn [vx vy vz]. ring. }
  destruct HJ as [HJ|HJ].
  - apply (no_energy_loop (s - 1) (mk3 0 0 1) (mk3 1 0 0) (mk3 0 1 0) (mk3 (-1) 0 0)); try exact Hp;
      try (unfold unit3, dot; cbn; lra); try (cbn; lra); try (intro Q; injection Q; lra).
    cbv zeta. rewrite Hr. rewrite Main. cbn [vx vy vz].
    replace (vx (J_ sc (s - 1)) * (0 - 1) * (1 - -1) - vz (J_ sc (s - 1)) * (0 - 0) * (0 - 0)) with (vx (J_ sc (s - 1)) * -2) by ring.
    apply Rmult_integral_contrapositive_currified; [exact K0|].
    apply Rmult_integral_contrapositive_currified; [exact HJ|lra].
  - apply (no_energy_loop (s - 1) (mk3 1 0 0) (mk3 0 0 1) (mk3 (-1) 0 0) (mk3 0 1 0)); try exact Hp;
      try (unfold unit3, dot; cbn; lra); try (cbn; lra); try (intro Q; injection Q; lra).
    cbv zeta. rewrite Hr. rewrite Main. cbn [vx vy vz].
    replace (vx (J_ sc (s - 1)) * (0 - 0) * (0 - 0) - vz (J_ sc (s - 1)) * (-1 - 1) * (1 - 0)) with (vz (J_ sc (s - 1)) * 2) by ring.
    apply Rmult_integral_contrapositive_currified; [exact K0|].
    apply Rmult_integral_contrapositive_currified; [exact HJ|lra].
Qed.
Lemma no_energy_ring : s = n -> vx (J_ sc (n - 1)) + vz (J_ sc (n - 1)) <> 0 ->
  ~ samples_some_energy n (metropolis_update_magnus ERNum) sc.
Proof.
  intros Hsn HJ.
  assert (Hp : (n - 1 < n)%nat) by lia.
  assert (H0 : (0 < n)%nat) by lia.
  assert (Hr : rgt n (n - 1) = 0%nat) by (unfold rgt; destruct (Nat.eqb_spec (n - 1 + 1) n); lia).
  assert (I32 : (Z.of_nat s < 2 ^ 31)%Z) by (pose proof (wf_i32 _ _ _ W); lia).
  assert (K0 : 2 * PI / tau (vars sc) <> 0) by (apply (omega_nz sc Ht)).
  assert (Main : forall a b a' b',
     let c := with_spins sc (two_site n (n - 1) 0 a b) in
     dot (vsub a' a) (vsub (gM n s c (n - 1)) (gM n s (moved c 0 b') (n - 1)))
     + dot (vsub b' b) (vsub (gM n s (moved c (n - 1) a') 0) (gM n s c 0))
     = 2 * PI / tau (vars sc) * (vx (J_ sc (n - 1)) + vz (J_ sc (n - 1)))
        * ((vz a' - vz a) * (vx b - vx b') - (vx a' - vx a) * (vz b - vz b'))).
  { intros a b a' b' c.
    assert (Wc : wf n s c) by (destruct W; constructor; cbn; try assumption; apply two_site_len).
    assert (Nll : lft n (n - 1) <> 0%nat) by (unfold lft; destruct (Nat.eqb_spec (n - 1) 0); lia).
    assert (Nrr : rgt n 0 <> (n - 1)%nat) by (unfold rgt; destruct (Nat.eqb_spec (0 + 1) n); lia).
    assert (Lq : lft n 0 = (n - 1)%nat) by reflexivity.
    assert (Hll : (lft n (n - 1) < n)%nat) by (apply lft_lt; exact Hp).
    assert (Hrr : (rgt n 0 < n)%nat) by (apply rgt_lt; lia).
    unfold gM. rewrite !Hr, !Lq. rewrite Hsn. rewrite flagL_last by lia. rewrite (flagL_not n 0) by lia.
    destruct (Nat.ltb_spec (n - 1) n); [|lia]. destruct (Nat.ltb_spec 0 n); [|lia].
    destruct (Nat.eqb_spec (n - 1) 0); [lia|]. rewrite Nat.eqb_refl.
    rewrite !(mS n s c Wc _ _ _ Hll), !(mS n s c Wc _ _ _ Hrr), !(mS n s c Wc _ _ _ Hp), !(mS n s c Wc _ _ 0%nat H0).
    rewrite !Nat.eqb_refl.
    assert (Sp : S_ c (n - 1) = a) by (unfold c; rewrite two_site_S, Nat.eqb_refl by exact Hp; reflexivity).
    assert (Sq : S_ c 0 = b).
    { unfold c; rewrite two_site_S by exact H0. destruct (Nat.eqb_spec 0 (n - 1)); [lia|]. reflexivity. }
    rewrite Sp, Sq.
    destruct (Nat.eqb_spec (lft n (n - 1)) 0); [contradiction|].
    destruct (Nat.eqb_spec (rgt n 0) (n - 1)); [contradiction|].
    change (J_ (moved c 0 b')) with (J_ sc). change (J_ (moved c (n - 1) a')) with (J_ sc). change (J_ c) with (J_ sc).
    change (vars (moved c 0 b')) with (vars sc). change (vars (moved c (n - 1) a')) with (vars sc). change (vars c) with (vars sc).
    unfold dot, vsub. cbn [vx vy vz]. ring. }
  apply (no_energy_loop (n - 1) (mk3 1 0 0) (mk3 0 0 1) (mk3 (-1) 0 0) (mk3 0 1 0)); try exact Hp;
      try (unfold unit3, dot; cbn; lra); try (cbn; lra); try (intro Q; injection Q; lra).
  cbv zeta. rewrite Hr. rewrite Main. cbn [vx vy vz].
  apply Rmult_integral_contrapositive_currified; [|lra].
  apply Rmult_integral_contrapositive_currified; assumption.
Qed.

(** Away from the two end sites of the subsystem the sampler does sample an energy; it has no linear term *)
Lemma magnus_bulk d u1 u2 u : unit_draw u1 -> unit_draw u2 -> unit_draw u ->
  (d mod n <> 0)%nat -> (d mod n <> s - 1)%nat ->
  metropolis_step n (fun c => magnus_energy n s (omega sc) (S_ c) (J_ c)) (metropolis_update_magnus ERNum) sc d u1 u2 u.
Proof.
  intros D1 D2 D3 N0 Ns. set (i := (d mod n)%nat) in *. set (v := uniform_dir u1 u2) in *.
  assert (Hi : (i < n)%nat) by (apply Nat.mod_upper_bound; lia).
  assert (I32 : (Z.of_nat s < 2 ^ 31)%Z) by (pose proof (wf_i32 _ _ _ W); pose proof (wf_sub _ _ _ W); lia).
  pose proof (wf_sub _ _ _ W) as Hsub.
  eapply (step_of n s); [exact W|lia| |].
  - etransitivity; [apply (magnus_ER n s); [exact W|exact D2|lia]|]. f_equal. f_equal.
    apply (dMG_value n s); [exact W|exact Ht].
  - fold i v. rewrite DMG_linear by exact Ht.
    unfold magnus_energy. change (J_ (moved sc i v)) with (J_ sc).
    assert (X : forall S : nat -> vec, exchange_energy n S (J_ sc) - omega sc * Rsum (s - 1) (fun k => magnus_bond S (J_ sc) k (k + 1))
      = Rsum n (fun k => - dot (S k) (vhad (J_ sc k) (S (rgt n k)))
           - omega sc * (if k <? s - 1 then (vz (J_ sc k) - vx (J_ sc k)) * (vx (S k) * vz (S (rgt n k)) + vz (S k) * vx (S (rgt n k))) else 0))).
    { intro S. unfold exchange_energy, bond. rewrite (Rsum_mod n (fun a b => - dot (S a) (vhad (J_ sc a) (S b)))).
      rewrite Rsum_minus, Rsum_scal. f_equal. f_equal.
      rewrite (Rsum_if n (s - 1)) by lia. apply Rsum_ext. intros k Hk. unfold magnus_bond, rgt.
      destruct (Nat.eqb_spec (k + 1) n); [lia|]. reflexivity. }
    rewrite !X.
    rewrite (change_bonds n s sc W i Hi v (fun k a b => - dot a (vhad (J_ sc k) b) - omega sc * (if k <? s - 1 then (vz (J_ sc k) - vx (J_ sc k)) * (vx a * vz b + vz a * vx b) else 0))) by lia.
    unfold gM. rewrite flagL_not by assumption. destruct (Nat.eqb_spec i 0); [contradiction|].
    fold (omega sc).
    assert (Ll : lft n i = (i - 1)%nat) by (unfold lft; destruct (Nat.eqb_spec i 0); [contradiction|reflexivity]).
    rewrite Ll. destruct (Nat.ltb_spec i s).
    + destruct (Nat.ltb_spec i (s - 1)); [|lia]. destruct (Nat.ltb_spec (i - 1) (s - 1)); [|lia].
      unfold dot, vsub, vhad. cbn [vx vy vz]. ring.
    + destruct (Nat.ltb_spec i (s - 1)); [lia|]. destruct (Nat.ltb_spec (i - 1) (s - 1)); [lia|].
      unfold dot, vsub, vhad. cbn [vx vy vz]. ring.
Qed.
End Magnus.

(** ** Second order *)
Lemma mf_e1_ER b a c d j k : mf_e1 ERNum b (fin3 a) (fin3 c) (fin3 d) (fin3 j) (fin3 k) = Some (mf_e1 RNum b a c d j k).
Proof.
  unfold mf_e1. destruct b; [|reflexivity].
  change (ndiv ERNum (vz (fin3 c)) (nofZ ERNum 2)) with (er_div (Some (vz c)) (Some 2)). rewrite div2_ok. reflexivity.
Qed.
Lemma mf_e2_ER b a1 a2 a3 a4 a5 j1 j2 j3 j4 :
  mf_e2 ERNum b (fin3 a1) (fin3 a2) (fin3 a3) (fin3 a4) (fin3 a5) (fin3 j1) (fin3 j2) (fin3 j3) (fin3 j4)
  = Some (mf_e2 RNum b a1 a2 a3 a4 a5 j1 j2 j3 j4).
Proof.
  unfold mf_e2. destruct b; [|reflexivity].
  change (ndiv ERNum (vx (fin3 a3)) (nofZ ERNum 2)) with (er_div (Some (vx a3)) (Some 2)). rewrite div2_ok. reflexivity.
Qed.
Lemma de_mag_full_ER w b a1 a2 a3 a4 a5 j1 j2 j3 j4 v : w <> 0 ->
  de_mag_full ERNum (Some w) b (fin3 a1) (fin3 a2) (fin3 a3) (fin3 a4) (fin3 a5) (fin3 j1) (fin3 j2) (fin3 j3) (fin3 j4) (fin3 v)
  = Some (de_mag_full RNum w b a1 a2 a3 a4 a5 j1 j2 j3 j4 v).
Proof.
  intro H. unfold de_mag_full. rewrite !mf_e1_ER, !mf_e2_ER.
  change (ndiv ERNum) with er_div. change (nmul ERNum (Some w) (Some w)) with (Some (w * w)).
  rewrite !er_div_ok by (try apply Rmult_integral_contrapositive_currified; exact H). reflexivity.
Qed.
Definition DMF (n s : nat) (c : chain R) (i : nat) (v : vec) : R :=
  de_mag_full RNum (omega c) (i <? s)
    (S_ c (lft n (lft n i))) (S_ c (lft n i)) (S_ c i) (S_ c (rgt n i)) (S_ c (rgt n (rgt n i)))
    (J_ c (lft n (lft n i))) (J_ c (lft n i)) (J_ c i) (J_ c (rgt n i)) v.
Lemma dMF_value n s c i v : tau (vars c) <> 0 -> dMF ERNum n s (fin c) i (fin3 v) = Some (DMF n s c i v).
Proof.
  intros Ht. unfold dMF. rewrite !spins_fin, !js_fin. rewrite (om_fin c Ht).
  rewrite de_mag_full_ER by (apply omega_nz; exact Ht). reflexivity.
Qed.
Lemma de_mag_full_anti w b a1 a2 a3 a4 a5 j1 j2 j3 j4 v :
  de_mag_full RNum w b a1 a2 v a4 a5 j1 j2 j3 j4 a3 = - de_mag_full RNum w b a1 a2 a3 a4 a5 j1 j2 j3 j4 v.
Proof.
  unfold de_mag_full, for3. cbn [nadd nsub nmul ndiv nopp RNum nofZ]. unfold Rdiv.
  match goal with |- @eq _ ?a ?b => change (@eq R a b) end. ring.
Qed.
Lemma DMF_anti n s c i v : wf n s c -> (i < n)%nat -> (3 <= n)%nat ->
  DMF n s (moved c i v) i (S_ c i) = - DMF n s c i v.
Proof.
  intros W Hi Hn. unfold DMF. rewrite (mS_i n s c W i Hi v).
  assert (X : forall k, (k < n)%nat -> k <> i -> S_ (moved c i v) k = S_ c k) by (intros; apply (mS_ne n s); assumption).
  rewrite !X; auto using lft_lt, rgt_lt, lft_ne, rgt_ne.
  - apply de_mag_full_anti.
  - unfold rgt. destruct (Nat.eqb_spec (i + 1) n); repeat match goal with |- context [?a =? ?b] => destruct (Nat.eqb_spec a b) end; lia.
  - apply rgt_ne; [exact Hi|lia].
  - apply lft_ne; [exact Hi|lia].
  - unfold lft. destruct (Nat.eqb_spec i 0); repeat match goal with |- context [?a =? ?b] => destruct (Nat.eqb_spec a b) end; lia.
Qed.


Section MagFull.
Context (n s : nat) (sc : chain R) (W : wf n s sc) (Hn : (6 <= n)%nat) (Hs : (3 <= s)%nat) (Ht : tau (vars sc) <> 0)
  (Hb : 0 < beta (vars sc)).
Lemma magfull_D sp : length sp = n -> forall d u1 u2 u, unit_draw u2 ->
  metropolis_update_mag_full ERNum (draw d u1 u2 u) (fin (with_spins sc sp)) =
  Ok (acceptP ERNum (fin (with_spins sc sp)) (d mod n) (fin3 (uniform_dir u1 u2))
        (Some (DMF n s (with_spins sc sp) (d mod n) (uniform_dir u1 u2))) (Some u)).
Proof.
  intros L d u1 u2 u D2. assert (W' : wf n s (with_spins sc sp)) by (destruct W; constructor; cbn; assumption).
  etransitivity; [apply (magfull_ER n s); [exact W'|exact D2|lia]|]. f_equal. f_equal. apply dMF_value. exact Ht.
Qed.
Definition three_site (a b c : vec) : list vec :=
  map (fun i => if i =? 2 then a else if i =? 0 then b else if i =? 3 then c else mk3 0 0 1) (seq 0 n).
Lemma three_site_S a b c k : (k < n)%nat ->
  S_ (with_spins sc (three_site a b c)) k = if k =? 2 then a else if k =? 0 then b else if k =? 3 then c else mk3 0 0 1.
Proof. intro H. unfold S_, at_, with_spins, three_site. cbn [spins set_spins]. rewrite nth_map_seq by exact H. reflexivity. Qed.

Lemma six_nb : lft n 2 = 1%nat /\ lft n 1 = 0%nat /\ rgt n 2 = 3%nat /\ rgt n 3 = 4%nat /\
  lft n 0 = (n - 1)%nat /\ lft n (n - 1) = (n - 2)%nat /\ rgt n 0 = 1%nat /\ rgt n 1 = 2%nat.
Proof.
  unfold lft, rgt. repeat match goal with |- context [?a =? ?b] => destruct (Nat.eqb_spec a b); try lia end; repeat split; lia.
Qed.
Lemma six_loop :
  let a := mk3 1 0 0 in let b := mk3 1 0 0 in let a' := mk3 (-1) 0 0 in let b' := mk3 (-1) 0 0 in
  let c := with_spins sc (three_site a b a) in
  DMF n s c 2 a' + DMF n s (moved c 2 a') 0 b' + DMF n s (moved (moved c 2 a') 0 b') 2 a
  + DMF n s (moved (moved (moved c 2 a') 0 b') 2 a) 0 b = 4 * vx (J_ sc 2) * vx (J_ sc 0) / (omega sc * omega sc).
Proof.
  intros a b a' b' c. pose proof (omega_nz sc Ht) as K0.
  assert (Wc : wf n s c) by (destruct W; constructor; cbn; try assumption; unfold three_site; rewrite map_length; apply seq_length).
  destruct six_nb as (A1 & A2 & A3 & A4 & A5 & A6 & A7 & A8).
  unfold DMF. rewrite !A1, !A2, !A3, !A4, !A5, !A6, !A7, !A8.
  destruct (Nat.ltb_spec 2 s); [|lia]. destruct (Nat.ltb_spec 0 s); [|lia].
  assert (Wm : forall c i v, wf n s c -> wf n s (moved c i v)) by (intros; apply moved_wf; assumption).
  assert (M : forall c i v k, wf n s c -> (k < n)%nat -> S_ (moved c i v) k = if k =? i then v else S_ c k) by (intros c0 i v k X Y; apply (mS n s c0 X i v k Y)).
  rewrite !M by (auto; lia).
  repeat match goal with |- context [?a =? ?b] => destruct (Nat.eqb_spec a b); try lia end.
  unfold c. rewrite !three_site_S by lia. cbn [Nat.eqb].
  repeat match goal with |- context [?a =? ?b] => destruct (Nat.eqb_spec a b); try lia end.
  repeat match goal with |- context [J_ (moved ?c ?i ?v)] => change (J_ (moved c i v)) with (J_ c) end.
  unfold a, b, a', b'. repeat match goal with |- context [omega (moved ?c ?i ?v)] => change (omega (moved c i v)) with (omega sc) end.
  change (omega (with_spins sc (three_site (mk3 1 0 0) (mk3 1 0 0) (mk3 1 0 0)))) with (omega sc).
  change (J_ (with_spins sc (three_site (mk3 1 0 0) (mk3 1 0 0) (mk3 1 0 0)))) with (J_ sc).
  generalize dependent (omega sc). intros w K0.
  unfold de_mag_full, for3, mf_e1, mf_e2. cbn [vx vy vz nadd nsub nmul ndiv nopp RNum nofZ].
  match goal with |- @eq _ ?a ?b => change (@eq R a b) end. set (h1 := nlit RNum 5 1). set (h2 := nlit RNum 15 1). change (num RNum) with R in h1, h2. clearbody h1 h2. field_simplify_eq; [|exact K0]. reflexivity.
Qed.
Lemma no_energy_magfull : vx (J_ sc 0) <> 0 -> vx (J_ sc 2) <> 0 ->
  ~ samples_some_energy n (metropolis_update_mag_full ERNum) sc.
Proof.
  intros H0 H2 [E HE]. set (a := mk3 1 0 0). set (a' := mk3 (-1) 0 0).
  set (c := with_spins sc (three_site a a a)).
  assert (Ua : unit3 a) by (unfold unit3, dot; cbn; lra). assert (Ua' : unit3 a') by (unfold unit3, dot; cbn; lra).
  assert (C : conf n sc c).
  { exists (three_site a a a). repeat split; [unfold three_site; rewrite map_length; apply seq_length|].
    unfold three_site. apply Forall_forall. intros x Hx. apply in_map_iff in Hx as [i [<- _]].
    destruct (i =? 2)%nat; [exact Ua|]. destruct (i =? 0)%nat; [exact Ua|]. destruct (i =? 3)%nat; [exact Ua|].
    unfold unit3, dot; cbn; lra. }
  assert (S2 : S_ c 2 = a) by (unfold c; rewrite three_site_S by lia; reflexivity).
  assert (S0 : S_ c 0 = a) by (unfold c; rewrite three_site_S by lia; reflexivity).
  assert (Na : a' <> a) by (intro Q; injection Q; lra).
  pose proof (loop_zero n s sc W Hb (metropolis_update_mag_full ERNum) (DMF n s) magfull_D E HE c 2 0 a' a' C ltac:(lia) ltac:(lia)
     ltac:(lia) Ua' Ua') as Q.
  rewrite S2, S0 in Q. cbn [vz a a'] in Q.
  specialize (Q ltac:(lra) ltac:(lra) ltac:(lra) ltac:(lra) Na Na).
  assert (Anti : forall c i v, conf n sc c -> (i < n)%nat -> DMF n s (moved c i v) i (S_ c i) = - DMF n s c i v).
  { intros c0 i v C0 Hi. apply DMF_anti; [apply (conf_wf n s sc W); exact C0|exact Hi|lia]. }
  specialize (Q Anti). pose proof six_loop as L. cbv zeta in L. fold a a' in L. fold c in L. rewrite L in Q.
  pose proof (omega_nz sc Ht) as K0.
  assert (X : 4 * vx (J_ sc 2) * vx (J_ sc 0) / (omega sc * omega sc) <> 0); [|contradiction].
  unfold Rdiv. apply Rmult_integral_contrapositive_currified.
  - apply Rmult_integral_contrapositive_currified; [|exact H0]. apply Rmult_integral_contrapositive_currified; [lra|exact H2].
  - apply Rinv_neq_0_compat, Rmult_integral_contrapositive_currified; exact K0.
Qed.
End MagFull.

(** ** Langevin thermalisation against the reported open-chain energy *)
Lemma not_step' n s sc E1 E2 f d u1 u2 : wf n s sc -> (1 <= n)%nat -> 0 < beta (vars sc) ->
  unit_draw u1 -> unit_draw u2 ->
  metropolis_for n E1 f sc ->
  let sc' := moved sc (d mod n) (uniform_dir u1 u2) in
  uniform_dir u1 u2 <> S_ sc (d mod n) ->
  (0 < E1 sc' - E1 sc /\ E2 sc' - E2 sc < E1 sc' - E1 sc) \/ (0 < E2 sc' - E2 sc /\ E1 sc' - E1 sc < E2 sc' - E2 sc) ->
  exists u, unit_draw u /\ ~ metropolis_step n E2 f sc d u1 u2 u.
Proof.
  intros W Hn Hb D1 D2 M sc' Ne H. set (b := beta (vars sc)) in *.
  set (x1 := E1 sc' - E1 sc) in *. set (x2 := E2 sc' - E2 sc) in *.
  assert (G : forall x, 0 < x -> unit_draw (exp (- (b * x)))).
  { intros x Hx. split; [left; apply exp_pos|]. rewrite <- exp_0. apply exp_increasing. nra. }
  assert (Fin : fin sc' <> fin sc).
  { intro Q. apply fin_inj in Q. apply Ne. rewrite <- Q at 1. unfold sc'. rewrite moved_S.
    - rewrite Nat.eqb_refl. reflexivity.
    - rewrite (wf_spins _ _ _ W). apply Nat.mod_upper_bound. lia. }
  destruct H as [[H1 H2]|[H1 H2]].
  - exists (exp (- (b * x1))). split; [apply G; exact H1|]. intros [M2 _].
    destruct (M d u1 u2 _ D1 D2 (G x1 H1)) as [_ M1]. fold b sc' in M1, M2. fold x1 in M1. fold x2 in M2.
    assert (A1 : ~ accepts b x1 (exp (- (b * x1)))) by (intros [A|A]; lra).
    assert (A2 : accepts b x2 (exp (- (b * x1)))) by (right; apply exp_increasing; nra).
    apply Fin. exact (Ok_inj _ _ (eq_trans (eq_sym (M2 A2)) (M1 A1))).
  - exists (exp (- (b * x2))). split; [apply G; exact H1|]. intros [_ M2].
    destruct (M d u1 u2 _ D1 D2 (G x2 H1)) as [M1 _]. fold b sc' in M1, M2. fold x1 in M1. fold x2 in M2.
    assert (A1 : accepts b x1 (exp (- (b * x2)))) by (right; apply exp_increasing; nra).
    assert (A2 : ~ accepts b x2 (exp (- (b * x2)))) by (intros [A|A]; lra).
    apply Fin. exact (Ok_inj _ _ (eq_trans (eq_sym (M1 A1)) (M2 A2))).
Qed.

Definition closing_chain : chain R :=
  mkChain [vzero; vzero; vzero; mk3 (-1) 0 0] [vzero; vzero; vzero; vzero]
          [mk3 0 0 1; mk3 1 0 0; mk3 0 1 0; mk3 1 0 0] 0 (set_beta (ex_conf 4 4 Dnone) 1) true.
Definition field_chain : chain R :=
  mkChain [vzero; vzero; vzero; vzero] [mk3 1 0 0; vzero; vzero; vzero]
          [mk3 0 0 1; mk3 1 0 0; mk3 0 1 0; mk3 1 0 0] 0 (set_beta (ex_conf 4 4 Dnone) 1) true.
Lemma closing_wf : wf 4 4 closing_chain. Proof. constructor; cbn; auto; lia. Qed.
Lemma closing_unit : unit_spins closing_chain.
Proof. unfold unit_spins; cbn. repeat constructor; unfold unit3, dot; cbn; lra. Qed.
Lemma field_wf : wf 4 4 field_chain. Proof. constructor; cbn; auto; lia. Qed.
Lemma field_unit : unit_spins field_chain.
Proof. unfold unit_spins; cbn. repeat constructor; unfold unit3, dot; cbn; lra. Qed.

Lemma lplain_closing g K : exists u, unit_draw u /\
  ~ metropolis_step 4 (fun c => K * val (system_energy ERNum (fin c))) (lplain g) closing_chain 0 0 (1 / 2) u.
Proof.
  apply (not_step' 4 4 closing_chain (fun c => exchange_energy 4 (S_ c) (J_ c))).
  - apply closing_wf. - lia. - cbn; lra. - split; lra. - split; lra.
  - apply (lplain_step 4 4 closing_chain g closing_wf). lia.
  - rewrite uniform_dir_x. cbn. intro Q. injection Q. intros. lra.
  - left.
    rewrite (system_energy_value 4 4 closing_chain closing_wf); [|lia|exact I].
    rewrite (system_energy_value 4 4 (moved closing_chain _ _)); [|apply moved_wf, closing_wf|lia|exact I].
    rewrite uniform_dir_x. unfold val, exchange_energy, bond, dot, vhad, vadd, vzero, drive_field, moved, S_, J_, h_, at_. cbn.
    split; lra.
Qed.
Lemma lplain_field g K : 0 < K -> exists u, unit_draw u /\
  ~ metropolis_step 4 (fun c => K * val (system_energy ERNum (fin c))) (lplain g) field_chain 0 0 (1 / 2) u.
Proof.
  intro HK. apply (not_step' 4 4 field_chain (fun c => exchange_energy 4 (S_ c) (J_ c))).
  - apply field_wf. - lia. - cbn; lra. - split; lra. - split; lra.
  - apply (lplain_step 4 4 field_chain g field_wf). lia.
  - rewrite uniform_dir_x. cbn. intro Q. injection Q. intros. lra.
  - right.
    rewrite (system_energy_value 4 4 field_chain field_wf); [|lia|exact I].
    rewrite (system_energy_value 4 4 (moved field_chain _ _)); [|apply moved_wf, field_wf|lia|exact I].
    rewrite uniform_dir_x. unfold val, exchange_energy, bond, dot, vhad, vadd, vzero, drive_field, moved, S_, J_, h_, at_. cbn.
    split; lra.
Qed.
