(** The first- and second-order Magnus samplers sample no energy function. *)
From Coq Require Import Reals Lra Lia List ZArith Arith Bool.
From Verif Require Import Num Monad NumR Spin Config Chain Langevin SpecVec SpecChain SpecMC Samples
  ProofsSpin ProofsChain ProofsEnergy ProofsDyn ProofsDynR ProofsDyn2 ProofsMC ProofsMCR ProofsMCR2 ProofsMCR3 ProofsMCR4 ProofsMCR6.
Import ListNotations.
Local Open Scope R_scope.

Lemma moved_back n s sc i v : wf n s sc -> moved (moved sc i v) i (S_ sc i) = sc.
Proof.
  intros W. destruct sc as [j h sp t0 c f]. unfold moved, set_spins. cbn [spins j_couple static_h t vars has_file].
  f_equal. rewrite map_length, seq_length.
  apply (list_ext_nth vzero).
  - rewrite map_length, seq_length. reflexivity.
  - intros k Hk. rewrite map_length, seq_length in Hk. rewrite nth_map_seq by exact Hk.
    destruct (Nat.eqb_spec k i); [subst; reflexivity|].
    unfold S_, at_. cbn [spins]. rewrite nth_map_seq by exact Hk.
    destruct (Nat.eqb_spec k i); [contradiction|reflexivity].
Qed.
Lemma moved_spins sc i v : moved sc i v = with_spins sc (spins (moved sc i v)).
Proof. reflexivity. Qed.
Lemma moved_with sc sp i v : exists sp', moved (with_spins sc sp) i v = with_spins sc sp'.
Proof. eexists. reflexivity. Qed.

Lemma loop_back c p q a' b' : moved (moved (moved (moved c p a') q b') p (S_ c p)) q (S_ c q) = c.
Proof.
  destruct c as [j h sp t0 c f]. unfold moved, set_spins.
  cbn [spins j_couple static_h t vars has_file]. f_equal. rewrite !map_length, !seq_length.
  apply (list_ext_nth vzero); [rewrite map_length, seq_length; reflexivity|].
  intros k Hk. rewrite map_length, seq_length in Hk. rewrite nth_map_seq by exact Hk.
  destruct (Nat.eqb_spec k q); [subst; reflexivity|]. unfold S_ at 1, at_. cbn [spins]. rewrite nth_map_seq by exact Hk.
  destruct (Nat.eqb_spec k p); [subst; reflexivity|]. unfold S_ at 1, at_. cbn [spins]. rewrite nth_map_seq by exact Hk.
  destruct (Nat.eqb_spec k q); [contradiction|]. unfold S_ at 1, at_. cbn [spins]. rewrite nth_map_seq by exact Hk.
  destruct (Nat.eqb_spec k p); [contradiction|]. reflexivity.
Qed.

Section Det.
Context (n s : nat) (sc : chain R) (W : wf n s sc) (Hn : (1 <= n)%nat) (Hb : 0 < beta (vars sc)).
Context (f : mcdraw ERNum -> chain (num ERNum) -> res (chain (num ERNum))) (D : chain R -> nat -> vec -> R).
Context (Hf : forall sp, length sp = n -> forall d u1 u2 u, unit_draw u2 ->
  f (draw d u1 u2 u) (fin (with_spins sc sp)) =
  Ok (acceptP ERNum (fin (with_spins sc sp)) (d mod n) (fin3 (uniform_dir u1 u2))
        (Some (D (with_spins sc sp) (d mod n) (uniform_dir u1 u2))) (Some u))).
Context (E : chain R -> R) (HE : forall sp, length sp = n -> Forall unit3 sp -> metropolis_for n E f (with_spins sc sp)).

Definition conf (c : chain R) : Prop := exists sp, length sp = n /\ Forall unit3 sp /\ c = with_spins sc sp.
Lemma conf_wf c : conf c -> wf n s c.
Proof. intros [sp [L [U ->]]]. destruct W. constructor; cbn; assumption. Qed.
Lemma conf_unit c : conf c -> unit_spins c.
Proof. intros [sp [L [U ->]]]. exact U. Qed.
Lemma conf_moved c i v : conf c -> unit3 v -> conf (moved c i v).
Proof.
  intros C Hv. pose proof (conf_wf c C) as Wc. pose proof (conf_unit c C) as Uc.
  exists (spins (moved c i v)). split; [apply (wf_spins _ _ _ (moved_wf n s c i v Wc))|].
  split; [apply (moved_unit n s c i v Wc Uc Hv)|]. destruct C as [sp [_ [_ ->]]]. reflexivity.
Qed.
Lemma acc_iff c i v : conf c -> (i < n)%nat -> unit3 v -> vz v <> -1 -> v <> S_ c i ->
  forall u, unit_draw u -> (accepts (beta (vars sc)) (D c i v) u <-> accepts (beta (vars sc)) (E (moved c i v) - E c) u).
Proof.
  intros C Hi Hv Hz Ne u Hu. pose proof (conf_wf c C) as Wc.
  assert (Bc : beta (vars c) = beta (vars sc)) by (destruct C as [sp [_ [_ ->]]]; reflexivity).
  destruct (reachable v Hv Hz) as [u1 [u2 [D1 [D2 R]]]].
  assert (M : metropolis_step n E f c i u1 u2 u).
  { destruct C as [sp [L [U ->]]]. apply HE; assumption. }
  assert (F : f (draw i u1 u2 u) (fin c) = Ok (acceptP ERNum (fin c) i (fin3 v) (Some (D c i v)) (Some u))).
  { destruct C as [sp [L [U ->]]]. pose proof (Hf sp L i u1 u2 u D2) as Q. rewrite R, Nat.mod_small in Q by exact Hi. exact Q. }
  unfold metropolis_step in M. rewrite R, Nat.mod_small, Bc in M by exact Hi. cbv zeta in M.
  assert (Diff : fin c <> fin (moved c i v)).
  { intro Q. apply fin_inj in Q. apply Ne. rewrite Q. rewrite moved_S by (rewrite (wf_spins _ _ _ Wc); exact Hi).
    rewrite Nat.eqb_refl. reflexivity. }
  assert (Hl : (i < length (spins c))%nat) by (rewrite (wf_spins _ _ _ Wc); exact Hi).
  destruct M as [M1 M2]. split; intro A.
  - rewrite <- Bc in A. pose proof (acceptP_yes c i v _ u Hl A) as Q.
    apply Classical_Prop.NNPP. intro Nn. specialize (M2 Nn).
    apply Diff. apply Ok_inj. rewrite <- Q. rewrite <- M2. exact F.
  - specialize (M1 A). apply Classical_Prop.NNPP. intro Nn. rewrite <- Bc in Nn.
    pose proof (acceptP_no c i (fin3 v) _ u Nn) as Q.
    apply Diff. apply Ok_inj. rewrite <- M1. rewrite <- Q at 1. symmetry. exact F.
Qed.
Lemma det_change c i v : conf c -> (i < n)%nat -> unit3 v -> vz v <> -1 -> v <> S_ c i ->
  vz (S_ c i) <> -1 -> D (moved c i v) i (S_ c i) = - D c i v ->
  E (moved c i v) - E c = D c i v.
Proof.
  intros C Hi Hv Hz Ne Hz' Ha. pose proof (conf_wf c C) as Wc. pose proof (conf_unit c C) as Uc.
  symmetry. apply (accepts_det (beta (vars sc))); [exact Hb|apply acc_iff; assumption|].
  intros u Hu. rewrite <- Ha.
  pose proof (acc_iff (moved c i v) i (S_ c i) (conf_moved c i v C Hv) Hi) as Q.
  rewrite (moved_back n s c i v Wc) in Q. replace (- (E (moved c i v) - E c)) with (E c - E (moved c i v)) by ring.
  apply Q; auto.
  - apply (unit_at c i Uc). rewrite (wf_spins _ _ _ Wc). exact Hi.
  - rewrite moved_S by (rewrite (wf_spins _ _ _ Wc); exact Hi). rewrite Nat.eqb_refl. congruence.
Qed.
(** Around the loop a -> a', b -> b', a' -> a, b' -> b the changes add up to zero *)
Lemma loop_zero c p q a' b' : conf c -> (p < n)%nat -> (q < n)%nat -> p <> q ->
  unit3 a' -> unit3 b' -> vz a' <> -1 -> vz b' <> -1 -> vz (S_ c p) <> -1 -> vz (S_ c q) <> -1 ->
  a' <> S_ c p -> b' <> S_ c q ->
  (forall c i v, conf c -> (i < n)%nat -> D (moved c i v) i (S_ c i) = - D c i v) ->
  D c p a' + D (moved c p a') q b' + D (moved (moved c p a') q b') p (S_ c p)
  + D (moved (moved (moved c p a') q b') p (S_ c p)) q (S_ c q) = 0.
Proof.
  intros C Hp Hq Hpq Ua Ub Za Zb Zp Zq Na Nb Anti.
  pose proof (conf_wf c C) as Wc. pose proof (conf_unit c C) as Uc.
  assert (Up : unit3 (S_ c p)) by (apply (unit_at c p Uc); rewrite (wf_spins _ _ _ Wc); exact Hp).
  assert (Uq : unit3 (S_ c q)) by (apply (unit_at c q Uc); rewrite (wf_spins _ _ _ Wc); exact Hq).
  set (c1 := moved c p a'). assert (C1 : conf c1) by (apply conf_moved; assumption).
  set (c2 := moved c1 q b'). assert (C2 : conf c2) by (apply conf_moved; assumption).
  set (c3 := moved c2 p (S_ c p)). assert (C3 : conf c3) by (apply conf_moved; assumption).
  assert (V : forall c i v k, conf c -> (k < n)%nat -> S_ (moved c i v) k = if k =? i then v else S_ c k).
  { intros c0 i v k C0 Hk. apply moved_S. rewrite (wf_spins _ _ _ (conf_wf c0 C0)). exact Hk. }
  assert (E1p : S_ c1 p = a') by (unfold c1; rewrite V, Nat.eqb_refl by assumption; reflexivity).
  assert (E1q : S_ c1 q = S_ c q) by (unfold c1; rewrite V by assumption; destruct (Nat.eqb_spec q p); [congruence|reflexivity]).
  assert (E2p : S_ c2 p = a') by (unfold c2; rewrite V by assumption; destruct (Nat.eqb_spec p q); [congruence|exact E1p]).
  assert (E2q : S_ c2 q = b') by (unfold c2; rewrite V, Nat.eqb_refl by assumption; reflexivity).
  assert (E3q : S_ c3 q = b') by (unfold c3; rewrite V by assumption; destruct (Nat.eqb_spec q p); [congruence|exact E2q]).
  assert (Hc : moved c3 q (S_ c q) = c).
  { apply loop_back. }
  rewrite <- (det_change c p a') by auto.
  fold c1. rewrite <- (det_change c1 q b'); auto; try (rewrite E1q; assumption).
  fold c2. rewrite <- (det_change c2 p (S_ c p)); auto; try (rewrite E2p; auto).
  fold c3. rewrite <- (det_change c3 q (S_ c q)); auto; try (rewrite E3q; auto).
  rewrite Hc. ring.
Qed.
End Det.

(** ** First order *)
Lemma de_magnus_ER tt i f l a1 a2 a3 a4 a5 j1 j2 j3 j4 v : tt <> 0 ->
  de_magnus ERNum (Some tt) i f l (fin3 a1) (fin3 a2) (fin3 a3) (fin3 a4) (fin3 a5) (fin3 j1) (fin3 j2) (fin3 j3) (fin3 j4) (fin3 v)
  = Some (de_magnus RNum tt i f l a1 a2 a3 a4 a5 j1 j2 j3 j4 v).
Proof.
  intro H. unfold de_magnus. change (ndiv ERNum (npi ERNum) (Some tt)) with (er_div (Some PI) (Some tt)).
  rewrite er_div_ok by exact H. destruct i, f, l; reflexivity.
Qed.
Definition flagL (s i : nat) : bool := (i =? as_usize (Z.of_nat s - 1)).
Definition DMG (n s : nat) (c : chain R) (i : nat) (v : vec) : R :=
  de_magnus RNum (tau (vars c)) (i <? s) (i =? 0) (flagL s i)
    (S_ c (lft n (lft n i))) (S_ c (lft n i)) (S_ c i) (S_ c (rgt n i)) (S_ c (rgt n (rgt n i)))
    (J_ c (lft n (lft n i))) (J_ c (lft n i)) (J_ c i) (J_ c (rgt n i)) v.
Lemma dMG_value n s c i v : wf n s c -> tau (vars c) <> 0 ->
  dMG ERNum n s (fin c) i (fin3 v) = Some (DMG n s c i v).
Proof.
  intros W Ht. unfold dMG. rewrite !spins_fin, !js_fin.
  change (tau (vars (fin c))) with (Some (tau (vars c))). change (ssize (vars (fin c))) with (ssize (vars c)).
  rewrite (wf_ssize _ _ _ W). rewrite de_magnus_ER by exact Ht. reflexivity.
Qed.
(** The change is linear in the new spin *)
Definition gM (n s : nat) (c : chain R) (i : nat) : vec :=
  let Jl := J_ c (lft n i) in let Ji := J_ c i in let Sl := S_ c (lft n i) in let Sr := S_ c (rgt n i) in
  let k := if i <? s then 2 * PI / tau (vars c) else 0 in
  let fl := if i =? 0 then 0 else 1 in let la := if flagL s i then 0 else 1 in
  mk3 (- (vx Sl * vx Jl + vx Ji * vx Sr)
         - k * (vz Ji * vz Sr + vz Jl * vz Sl - fl * (vx Jl * vz Sl) - la * (vx Ji * vz Sr)))
      (- (vy Sl * vy Jl + vy Ji * vy Sr))
      (- (vz Sl * vz Jl + vz Ji * vz Sr)
         - k * (- (vx Ji * vx Sr + vx Jl * vx Sl) + fl * (vz Jl * vx Sl) + la * (vz Ji * vx Sr))).
Lemma DMG_linear n s c i v : tau (vars c) <> 0 -> DMG n s c i v = dot (vsub v (S_ c i)) (gM n s c i).
Proof.
  intro H. unfold DMG, gM, de_magnus, magnus_bracket, for3, dot, vsub.
  destruct (i <? s), (i =? 0), (flagL s i); cbn; field; exact H.
Qed.
Lemma moved_nb n s c i v k : wf n s c -> (k < n)%nat -> k <> i -> S_ (moved c i v) k = S_ c k.
Proof. intros. apply (mS_ne n s); assumption. Qed.
Lemma gM_moved n s c i v : wf n s c -> (i < n)%nat -> (2 <= n)%nat -> gM n s (moved c i v) i = gM n s c i.
Proof.
  intros W Hi Hn. unfold gM. rewrite !(moved_nb n s c i v _ W); auto using lft_lt, rgt_lt, lft_ne, rgt_ne.
Qed.
Lemma DMG_anti n s c i v : wf n s c -> (i < n)%nat -> (2 <= n)%nat -> tau (vars c) <> 0 ->
  DMG n s (moved c i v) i (S_ c i) = - DMG n s c i v.
Proof.
  intros W Hi Hn Ht. rewrite !DMG_linear by exact Ht. rewrite (gM_moved n s) by assumption.
  rewrite (mS_i n s c W i Hi v). unfold dot, vsub. cbn [vx vy vz]. ring.
Qed.
(** Mixed change of the loop that moves p and its right neighbour *)
Lemma loop_value n s c p a' b' : wf n s c -> (3 <= n)%nat -> (p < n)%nat -> tau (vars c) <> 0 ->
  let q := rgt n p in
  DMG n s c p a' + DMG n s (moved c p a') q b' + DMG n s (moved (moved c p a') q b') p (S_ c p)
  + DMG n s (moved (moved (moved c p a') q b') p (S_ c p)) q (S_ c q)
  = dot (vsub a' (S_ c p)) (vsub (gM n s c p) (gM n s (moved c q b') p))
    + dot (vsub b' (S_ c q)) (vsub (gM n s (moved c p a') q) (gM n s c q)).
Proof.
  intros W Hn Hp Ht q.
  assert (Hq : (q < n)%nat) by (apply rgt_lt; exact Hp).
  assert (Hpq : q <> p) by (apply rgt_ne; [exact Hp|lia]).
  assert (W1 := moved_wf n s c p a' W). assert (W2 := moved_wf n s _ q b' W1).
  assert (W3 := moved_wf n s _ p (S_ c p) W2).
  rewrite !DMG_linear by exact Ht.
  assert (F1 : gM n s (moved (moved (moved c p a') q b') p (S_ c p)) q = gM n s c q).
  { unfold gM. change (J_ (moved (moved (moved c p a') q b') p (S_ c p))) with (J_ c).
    change (tau (vars (moved (moved (moved c p a') q b') p (S_ c p)))) with (tau (vars c)).
    assert (X : forall k, (k < n)%nat -> k <> q -> S_ (moved (moved (moved c p a') q b') p (S_ c p)) k = S_ c k).
    { intros k Hk Nk. rewrite (mS n s _ W2) by exact Hk. destruct (Nat.eqb_spec k p); [subst; reflexivity|].
      rewrite (mS_ne n s _ W1), (mS_ne n s _ W) by assumption. reflexivity. }
    rewrite !X; auto using lft_lt, rgt_lt; (apply rgt_ne || apply lft_ne); (assumption || lia). }
  assert (F2 : gM n s (moved (moved c p a') q b') p = gM n s (moved c q b') p).
  { unfold gM. change (J_ (moved (moved c p a') q b')) with (J_ c). change (J_ (moved c q b')) with (J_ c).
    change (tau (vars (moved (moved c p a') q b'))) with (tau (vars c)).
    change (tau (vars (moved c q b'))) with (tau (vars c)).
    assert (X : forall k, (k < n)%nat -> k <> p -> S_ (moved (moved c p a') q b') k = S_ (moved c q b') k).
    { intros k Hk Nk. rewrite (mS n s _ W1 q b' k Hk), (mS n s _ W q b' k Hk). destruct (k =? q); [reflexivity|].
      rewrite (mS_ne n s _ W) by assumption. reflexivity. }
    rewrite !X; auto using lft_lt, rgt_lt; (apply rgt_ne || apply lft_ne); (assumption || lia). }
  rewrite F1, F2.
  assert (G1 : S_ (moved c p a') q = S_ c q) by (apply (mS_ne n s _ W); assumption).
  assert (G2 : S_ (moved (moved c p a') q b') p = a').
  { rewrite (mS_ne n s _ W1) by auto. apply (mS_i n s _ W p Hp). }
  assert (G3 : S_ (moved (moved (moved c p a') q b') p (S_ c p)) q = b').
  { rewrite (mS_ne n s _ W2) by auto. apply (mS_i n s _ W1 q Hq). }
  rewrite G1, G2, G3. unfold dot, vsub. cbn [vx vy vz]. ring.
Qed.
