(** Means over the draws of SpinChain::new: the program makes the walk. *)
From Coq Require Import Reals Lra Lia List ZArith Arith FunctionalExtensionality.
From Verif Require Import Num Monad NumR Spin Config Chain SpecVec SpecChain SpecMC SpecMean SpecNewMean ProofsSpin ProofsNew ProofsEnergy ProofsMean ProofsMean2 ProofsMean3 ProofsMean7 ProofsNewMean ProofsNewMean2 ProofsNewMean3.
Import ListNotations.
Local Open Scope R_scope.

Definition val (o : ER) : R := match o with Some x => x | None => 0 end.
Definition udraw (a : R * R * R) : ER * ER * ER := (Some (fst (fst a)), Some (snd (fst a)), Some (snd a)).
Lemma rot_perp_dead q r a : exists q', rot_perp ERNum (None, q) r a = (None, q').
Proof.
  destruct (rot_perp ERNum (None, q) r a) as [[th|] ph] eqn:E; [|eauto]. exfalso.
  unfold rot_perp in E. cbn [fst snd] in E.
  assert (D : nadd ERNum (nadd ERNum (nmul ERNum (vx r) (vx (new_from_angles ERNum None q))) (nmul ERNum (vy r) (vy (new_from_angles ERNum None q)))) (nmul ERNum (vz r) (vz (new_from_angles ERNum None q))) = None).
  { assert (X : vx (new_from_angles ERNum None q) = None) by (destruct q; reflexivity). rewrite X. destruct (vx r); reflexivity. }
  rewrite (gs_dot_nan _ _ D), rotate_ER_nan_field in E. discriminate.
Qed.
Lemma new_xyz_none q : new_xyz ERNum [nmul ERNum (ncos ERNum None) (nsin ERNum q); nmul ERNum (nsin ERNum None) (nsin ERNum q); ncos ERNum q] = Ok nan3.
Proof. unfold new_xyz. destruct q; reflexivity. Qed.
Lemma step_none b e1 e2 u st : (let '(u1, u2, u3) := u in
   exists q', rot_perp ERNum st (mk3 (nmul ERNum (ncos ERNum (nmul ERNum (nmul ERNum (nofZ ERNum 2) (npi ERNum)) u1)) (nsin ERNum (nacos ERNum (nsub ERNum (nofZ ERNum 1) (nmul ERNum (nofZ ERNum 2) u2)))))
      (nmul ERNum (nsin ERNum (nmul ERNum (nmul ERNum (nofZ ERNum 2) (npi ERNum)) u1)) (nsin ERNum (nacos ERNum (nsub ERNum (nofZ ERNum 1) (nmul ERNum (nofZ ERNum 2) u2)))))
      (ncos ERNum (nacos ERNum (nsub ERNum (nofZ ERNum 1) (nmul ERNum (nofZ ERNum 2) u2)))))
      (nacos ERNum (ndiv ERNum (nln ERNum (nsub ERNum e1 (nmul ERNum u3 (nsub ERNum e1 e2)))) b)) = (None, q')) ->
  exists q', new_spin_step ERNum b e1 e2 u st = Ok (nan3, (None, q')).
Proof.
  destruct u as [[u1 u2] u3]. intros [q' E]. exists q'. unfold new_spin_step. cbv zeta. rewrite E. cbn [fst snd]. rewrite new_xyz_none. reflexivity.
Qed.
Lemma step_dead b e1 e2 u q : exists q', new_spin_step ERNum b e1 e2 u (None, q) = Ok (nan3, (None, q')).
Proof. apply step_none. destruct u as [[u1 u2] u3]. apply rot_perp_dead. Qed.
Lemma step_draw b a th ph : b <> 0 -> unit_draw (snd (fst a)) -> unit_draw (snd a) ->
  let s := dirn th ph in
  (good b s a = true -> exists th' ph', new_spin_step ERNum (Some b) (Some (exp b)) (Some (1 / exp b)) (udraw a) (Some th, Some ph) = Ok (fin3 (walk b s a), (Some th', Some ph')) /\ dirn th' ph' = walk b s a) /\
  (good b s a = false -> exists q, new_spin_step ERNum (Some b) (Some (exp b)) (Some (1 / exp b)) (udraw a) (Some th, Some ph) = Ok (nan3, (None, q))).
Proof.
  intros Hb H2 H3 s. unfold unit_draw in H2, H3. destruct a as [[u1 u2] u3]. cbn [fst snd] in H2, H3.
  assert (Us : unit3 s) by apply dirn_unit.
  set (r := rd (u1, u2)).
  assert (E1 : nacos ERNum (nsub ERNum (nofZ ERNum 1) (nmul ERNum (nofZ ERNum 2) (Some u2))) = Some (acos (1 - 2 * u2))) by (apply er_acos_ok; lra).
  pose proof (zz_pos b u3 ltac:(lra)) as Pz. pose proof (cz_range b u3 Hb ltac:(lra)) as Pc.
  assert (E2 : nacos ERNum (ndiv ERNum (nln ERNum (nsub ERNum (Some (exp b)) (nmul ERNum (Some u3) (nsub ERNum (Some (exp b)) (Some (1 / exp b)))))) (Some b)) = Some (acos (cz b u3))).
  { cbn [nacos nln nsub nmul ndiv ERNum er2].
    replace (exp b - u3 * (exp b - 1 / exp b)) with (zz b u3) by (unfold zz; rewrite exp_Ropp; unfold Rdiv; ring).
    rewrite er_ln_ok, er_div_ok, er_acos_ok by assumption. reflexivity. }
  assert (RP : deg s r = false -> rot_perp ERNum (Some th, Some ph) (fin3 r) (Some (acos (cz b u3))) = (theta ERNum (fin3 (walk b s (u1, u2, u3))), phi ERNum (fin3 (walk b s (u1, u2, u3))))).
  { intros D. pose proof (walk_rodr b s (u1, u2, u3) Us D ltac:(cbn; lra) Hb) as Ew. cbn [fst snd] in Ew. fold r in Ew. rewrite Ew. apply deg_false in D.
    assert (Un : unit3 (nrm (gs_sub s r))) by (apply nrm_unit, gs_sub_nonzero; [apply unit3_nonzero; exact Us|exact D]).
    unfold rot_perp. cbn [fst snd]. change (new_from_angles ERNum (Some th) (Some ph)) with (fin3 s). rewrite gs_ER by (auto using unit3_nonzero).
    change (nopp ERNum (Some (acos (cz b u3)))) with (Some (- acos (cz b u3))). rewrite rotate_ER_unit by (auto using unit3_nonzero).
    rewrite (nrm_id (nrm _)), unit3_norm, Rmult_1_l by assumption. reflexivity. }
  split; intros G.
  - apply andb_prop in G. destruct G as [G1 G2]. apply Bool.negb_true_iff in G1, G2. cbn [fst] in G1. fold r in G1.
    assert (Uw : unit3 (walk b s (u1, u2, u3))) by (apply walk_unit; cbn; auto; lra).
    assert (Xw : vx (walk b s (u1, u2, u3)) <> 0) by (intros Q; apply flat_true in Q; congruence).
    destruct (theta_phi_roundtrip _ Uw Xw) as (th' & ph' & Et & Ep & Ed). exists th', ph'. split; [|exact Ed].
    unfold new_spin_step, udraw. cbn [fst snd]. cbv zeta. rewrite E1, E2.
    match goal with |- context [rot_perp ERNum ?x ?y ?w] => replace (rot_perp ERNum x y w) with (Some th', Some ph') by (symmetry; rewrite <- Et, <- Ep; exact (RP G1)) end.
    cbn [fst snd].
    match goal with |- context [new_xyz ERNum ?l] => replace (new_xyz ERNum l) with (Ok (fin3 (dirn th' ph'))) by (symmetry; apply new_xyz_dirn) end.
    cbn [bind]. rewrite Ed. reflexivity.
  - apply step_none. unfold udraw. cbn [fst snd]. rewrite E1, E2.
    change (exists q', rot_perp ERNum (Some th, Some ph) (fin3 r) (Some (acos (cz b u3))) = (None, q')).
    destruct (deg s r) eqn:D.
    + apply deg_true in D. unfold rot_perp. cbn [fst snd]. change (new_from_angles ERNum (Some th) (Some ph)) with (fin3 s). rewrite gs_nan by (right; exact D).
      rewrite rotate_ER_nan_field. eexists. rewrite theta_nan. reflexivity.
    + rewrite (RP eq_refl). unfold good in G. cbn [fst] in G. fold r in G. rewrite D in G. cbn [negb andb] in G. apply Bool.negb_false_iff, flat_true in G.
      eexists. f_equal. unfold theta. cbn [fin3 v3map vx vy vz ndiv ERNum natan]. rewrite G, er_div_zero. reflexivity.
Qed.
Lemma spins_dead b e1 e2 u : forall n k q, exists l, new_spins ERNum b e1 e2 u k n (None, q) = Ok l /\ l = repeat nan3 n.
Proof.
  induction n as [|n IH]; intros k q; cbn [new_spins]; [eauto|]. destruct (step_dead b e1 e2 (u k) q) as [q' E]. rewrite E. cbn [bind].
  destruct (IH (S k) q') as (l & El & ->). rewrite El. cbn [bind]. eauto.
Qed.
Lemma spins_draw b x : b <> 0 -> forall n k th ph, (forall i, (i < n)%nat -> unit_draw (snd (fst (x (k + i)%nat))) /\ unit_draw (snd (x (k + i)%nat))) ->
  exists l, new_spins ERNum (Some b) (Some (exp b)) (Some (1 / exp b)) (fun i => udraw (x i)) k n (Some th, Some ph) = Ok l /\
    map (v3map val) l = wl b n (dirn th ph) (fun i => x (k + i)%nat) /\ existsb undefined_spin l = dead b n (dirn th ph) (fun i => x (k + i)%nat).
Proof.
  intros Hb. induction n as [|n IH]; intros k th ph Hx; cbn [new_spins wl dead]; [exists []; auto|].
  destruct (Hx 0%nat ltac:(lia)) as [H2 H3]. rewrite Nat.add_0_r in *. destruct (step_draw b (x k) th ph Hb H2 H3) as [Sg Sb].
  destruct (good b (dirn th ph) (x k)) eqn:G.
  - destruct (Sg eq_refl) as (th' & ph' & E & Ed). rewrite E. cbn [bind].
    destruct (IH (S k) th' ph') as (l & El & M & D). { intros i Hi. replace (S k + i)%nat with (k + S i)%nat by lia. apply Hx. lia. }
    rewrite El. cbn [bind]. eexists. split; [reflexivity|]. cbn [map existsb]. rewrite M, D, Ed.
    replace (fun i => x (S k + i)%nat) with (fun i => x (k + S i)%nat) by (apply functional_extensionality; intros i; f_equal; lia).
    split; [|reflexivity]. f_equal. destruct (walk b (dirn th ph) (x k)); reflexivity.
  - destruct (Sb eq_refl) as (q & E). rewrite E. cbn [bind]. destruct (spins_dead (Some b) (Some (exp b)) (Some (1 / exp b)) (fun i => udraw (x i)) n (S k) q) as (l & El & ->).
    rewrite El. cbn [bind]. eexists. split; [reflexivity|]. split; [|reflexivity]. cbn [map repeat]. f_equal. clear. induction n as [|n IH]; [reflexivity|]. cbn [repeat map]. rewrite IH. reflexivity.
Qed.

(** ** The chain *)
Lemma list_of {A} (f : nat -> A) : forall n l, length l = n -> (forall i, (i < n)%nat -> nth_error l i = Some (f i)) -> l = map f (seq 0 n).
Proof.
  induction n as [|n IH] using nat_ind; intros l L H; [destruct l; [reflexivity|discriminate]|].
  destruct (exists_last (l := l)) as (l0 & a & ->); [intros ->; discriminate|]. rewrite app_length in L. cbn in L. assert (L0 : length l0 = n) by lia. rewrite seq_S, map_app. f_equal.
  - apply IH; [exact L0|]. intros i Hi. rewrite <- (H i) by lia. rewrite nth_error_app1 by lia. reflexivity.
  - pose proof (H n ltac:(lia)) as Q. rewrite nth_error_app2, L0, Nat.sub_diag in Q by lia. cbn in Q. cbn. congruence.
Qed.
Section M.
Variables (n : nat) (conf : config R) (jz hz : nat -> vec).
Hypothesis Hn : hsize conf = Z.of_nat n.
Hypothesis Hs : (hsize conf < 2 ^ 31)%Z.
Hypothesis Hf : (3 <= length (hfield conf))%nat.
Hypothesis Hh : (3 <= length (hs conf))%nat.
Hypothesis Hb : beta conf <> 0.
Definition new_j (i : nat) : vec := vadd (mk3 1 1 (lambda conf)) (vscale (jvar conf) (jz i)).
Definition new_chain (l : list vec) : chain R := mkChain (map new_j (seq 0 n)) (map (new_h conf hz) (seq 0 n)) l (- trel conf) conf (c_log conf).
Lemma val_some (x : R) : val (Some x) = x. Proof. reflexivity. Qed.
Lemma val3_fin v : v3map val (fin3 v) = v. Proof. destruct v; reflexivity. Qed.
Lemma made_walk x : (forall i, (i < n)%nat -> unit_draw (snd (fst (x i))) /\ unit_draw (snd (x i))) ->
  exists c, made conf jz hz x = Ok c /\ real_chain c = new_chain (wl (beta conf) n first_dir x) /\ undefined c = ind (dead (beta conf) n first_dir x) /\
    (dead (beta conf) n first_dir x = false -> c = fin (new_chain (wl (beta conf) n first_dir x))).
Proof.
  intros Hx. assert (H0 : (0 <= hsize conf < 2 ^ 31)%Z) by lia.
  set (d := @mkNewDraw ERNum (fun i => udraw (x i)) (fun i => fin3 (jz i)) (fun i => fin3 (hz i))).
  destruct (chain_new_ok ERNum (config_map Some conf) d (conf_ok_map conf H0 Hf Hh)) as (sc & E & L1 & L2 & L3 & Et & Ev & Ef).
  change (Z.to_nat (hsize (config_map Some conf))) with (Z.to_nat (hsize conf)) in L1, L2, L3. rewrite Hn, Nat2Z.id in L1, L2, L3.
  exists sc. split; [exact E|].
  pose proof (new_fields_value conf d jz hz sc Hf Hh H0 (fun _ => eq_refl) (fun _ => eq_refl) E) as F. rewrite Hn in F.
  destruct (spins_draw (beta conf) x Hb n 0 (1 / 100) (PI / 2)) as (l & El & M & D). { intros i Hi. apply Hx. exact Hi. }
  assert (Es : spins sc = l).
  { unfold chain_new in E. cbv zeta in E. cbn [config_map hsize beta] in E. rewrite as_usize_small in E by exact H0. rewrite Hn, Nat2Z.id in E.
    change (nexp ERNum (Some (beta conf))) with (Some (exp (beta conf))) in E.
    assert (Ed : ndiv ERNum (nofZ ERNum 1) (Some (exp (beta conf))) = Some (1 / exp (beta conf))) by (apply er_div_ok; apply Rgt_not_eq, exp_pos).
    assert (Ep : ndiv ERNum (npi ERNum) (nofZ ERNum 2) = Some (PI / 2)) by (apply er_div_ok; lra).
    assert (Et0 : nlit ERNum 1 2 = Some (1/100)) by reflexivity.
    rewrite Ed, Ep, Et0 in E. change (nd_u d) with (fun i => udraw (x i)) in E. match type of E with context [new_spins ERNum ?a ?p ?q ?u ?k ?nn ?st] => replace (new_spins ERNum a p q u k nn st) with (Ok l) in E by (symmetry; exact El) end. cbn [bind] in E.
    destruct (normal_new _ _ _); cbn [bind] in E; try discriminate.
    destruct (normal_new _ _ _); cbn [bind] in E; try discriminate.
    destruct (mapM _ _); cbn [bind] in E; try discriminate.
    injection E as <-. reflexivity. }
  assert (D0 : dirn (1 / 100) (PI / 2) = first_dir) by (apply v0_dirn). rewrite D0 in M, D. change (fun i => x (0 + i)%nat) with x in M, D.
  assert (Ej : j_couple sc = map (fun i => fin3 (new_j i)) (seq 0 n)) by (apply list_of; [exact L2|]; intros i Hi; exact (proj2 (F i ltac:(lia)))).
  assert (Eh : static_h sc = map (fun i => fin3 (new_h conf hz i)) (seq 0 n)) by (apply list_of; [exact L3|]; intros i Hi; exact (proj1 (F i ltac:(lia)))).
  pose proof (f_equal vars (real_fin (mkChain [] [] [] 0 conf true))) as Ec.
  clear E F L1 L2 L3. destruct sc as [jc sh sp t0 vv hf]. cbn [j_couple static_h spins t vars has_file] in Es, Ef, Ej, Eh, Et, Ev. subst jc sh sp t0 vv hf.
  split; [|split].
  - unfold real_chain, chain_map, new_chain. cbn [j_couple static_h spins t vars has_file]. change (fun o : ER => match o with Some y => y | None => 0 end) with val. rewrite !map_map. f_equal; (exact M || exact Ec || (apply map_ext; intros i; apply val3_fin)).
  - unfold undefined. cbn [spins]. rewrite D. reflexivity.
  - intros Dd. rewrite Dd in D. unfold fin, chain_map, new_chain. cbn [j_couple static_h spins t vars has_file]. rewrite <- M, !map_map. f_equal; try reflexivity.
    clear - D. induction l as [|v l IH]; [reflexivity|]. cbn [map existsb] in *. apply Bool.orb_false_iff in D. destruct D as [D1 D2]. f_equal; [|exact (IH D2)].
    destruct v as [[a|] [b|] [c|]]; try discriminate. reflexivity.
Qed.
End M.
