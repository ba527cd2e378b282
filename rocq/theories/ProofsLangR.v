(** The Langevin step in exact arithmetic: the bath-free limit conserves the open-chain
    energy, damping lowers it. *)
From Coq Require Import Reals Lra Lia List ZArith Arith Bool.
From Verif Require Import Num Monad NumR Spin Config Chain Langevin SpecVec SpecChain SpecMC SpecLang
  ProofsSpin ProofsChain ProofsEnergy ProofsDrive ProofsNew ProofsDyn ProofsDynR ProofsDyn2 ProofsLang.
Import ListNotations.
Local Open Scope R_scope.

(** ** One damped rotation *)
Lemma damped_sq g s om : unit3 s ->
  dot (damped g s om) (damped g s om) = dot om om + g * g * (dot om om - dot s om * dot s om).
Proof.
  intro H. unfold unit3, dot in H. unfold damped, dot; cbn.
  set (a := vx s) in *; set (b := vy s) in *; set (c := vz s) in *.
  set (x := vx om); set (y := vy om); set (z := vz om).
  assert (E : g * g * ((a * x + b * y + c * z) * (a * x + b * y + c * z)) =
     g * g * ((a * x + b * y + c * z) * (a * x + b * y + c * z))) by reflexivity.
  replace (x * x + y * y + z * z + g * g * (x * x + y * y + z * z - (a * x + b * y + c * z) * (a * x + b * y + c * z)))
   with (x * x + y * y + z * z + g * g * ((a * a + b * b + c * c) * (x * x + y * y + z * z) - (a * x + b * y + c * z) * (a * x + b * y + c * z)))
   by (rewrite H; ring).
  ring.
Qed.

Lemma sperp_nonneg s om : unit3 s -> 0 <= dot om om - dot s om * dot s om.
Proof.
  intro H. assert (E : dot om om - dot s om * dot s om = dot (cross s om) (cross s om)).
  { unfold unit3, dot in H. rewrite <- (Rmult_1_l (dot om om)), <- H. unfold dot, cross; cbn; ring. }
  rewrite E. apply dot_nonneg.
Qed.

Lemma damped_rot g s om phi f : unit3 s -> f <> 0 ->
  f * f = dot om om + g * g * (dot om om - dot s om * dot s om) ->
  dot (rodr s (vscale (/ f) (damped g s om)) phi) om =
  dot s om + g * (dot om om - dot s om * dot s om) / f *
             (sin phi - (1 - cos phi) * (g * dot s om) / f).
Proof.
  intros Hs Hf E.
  assert (E1 : dot s (vscale (/ f) (damped g s om)) = dot s om / f).
  { unfold damped, dot; cbn. field. assumption. }
  assert (E2 : dot (damped g s om) om = dot om om) by (unfold damped, dot; cbn; ring).
  assert (E3 : dot (cross (vscale (/ f) (damped g s om)) s) om = - (g * (dot om om - dot s om * dot s om) / f)).
  { rewrite <- (Rmult_1_l (dot om om)). unfold unit3 in Hs. rewrite <- Hs.
    unfold damped, dot; cbn. field. assumption. }
  transitivity (dot s om * cos phi + dot (vscale (/ f) (damped g s om)) om *
                dot s (vscale (/ f) (damped g s om)) * (1 - cos phi)
                - dot (cross (vscale (/ f) (damped g s om)) s) om * sin phi).
  { unfold rodr. generalize (vscale (/ f) (damped g s om)). intro k. unfold dot; cbn; ring. }
  rewrite E1, E3.
  replace (dot (vscale (/ f) (damped g s om)) om) with (dot om om / f).
  2:{ rewrite <- E2. unfold dot; cbn. field. assumption. }
  replace (dot om om / f * (dot s om / f)) with (dot s om * (dot om om / (f * f))) by (field; assumption).
  assert (Q : dot om om / (f * f) = 1 - g * g * (dot om om - dot s om * dot s om) / (f * f)).
  { replace (dot om om) with (f * f - g * g * (dot om om - dot s om * dot s om)) at 1 by (rewrite E; ring).
    field. assumption. }
  rewrite Q. field. assumption.
Qed.

(** 1 - cos x <= x sin x on [0, pi/2] *)
Lemma one_cos_le x : 0 <= x <= PI / 2 -> 1 - cos x <= x * sin x.
Proof.
  intros [H0 H1]. pose proof PI_RGT_0.
  destruct (Req_dec x 0) as [->|Hx]; [rewrite cos_0, sin_0; lra|].
  set (y := x / 2). assert (Hy : x = 2 * y) by (unfold y; lra). assert (0 < y <= PI / 4) by (unfold y; lra).
  rewrite Hy, cos_2a_sin, sin_2a.
  assert (S : sin y < y) by (apply sin_lt_x; lra).
  assert (S0 : 0 < sin y) by (apply sin_gt_0; lra).
  assert (C : 1 / 2 <= cos y).
  { rewrite <- cos_PI3. apply cos_decr_1; lra. }
  assert (sin y <= 2 * y * cos y). { apply Rle_trans with y; [lra|]. nra. }
  nra.
Qed.

Section Damp.
Variables (g d : R) (s om : vec).
Hypothesis Hs : unit3 s.
Hypothesis Hg : 0 <= g.
Hypothesis Hd : 0 <= d.
Notation F := (damped g s om).
Notation a := (dot s om).
Notation X := (dot om om - dot s om * dot s om).

Lemma damped_exact : F <> vzero ->
  dot (rotate RNum s F d) om =
  a + g * X / norm F * (sin (norm F * d) - (1 - cos (norm F * d)) * (g * a) / norm F).
Proof.
  intro HF. rewrite rotate_R_unit_eq by assumption.
  assert (Hn : norm F <> 0).
  { intro E. apply HF, dot_zero. rewrite <- norm_sq, E. ring. }
  unfold nrm.
  transitivity (dot (rodr s (vscale (/ norm F) F) (norm F * d)) om).
  { f_equal. f_equal. apply v3_ext; cbn; field; assumption. }
  apply damped_rot; [assumption|assumption|]. rewrite norm_sq. apply damped_sq. assumption.
Qed.

Lemma norm_pos v : v <> vzero -> 0 < norm v.
Proof.
  intro H. destruct (Rle_lt_or_eq_dec 0 (norm v)) as [L|L]; [apply sqrt_pos|assumption|].
  exfalso. apply H, dot_zero. rewrite <- norm_sq, <- L. ring.
Qed.

Lemma damp_bracket : F <> vzero -> norm F * d <= PI / 2 -> g * norm om * d <= 1 ->
  0 <= sin (norm F * d) - (1 - cos (norm F * d)) * (g * a) / norm F.
Proof.
  intros HF H1 H2. pose proof (norm_pos _ HF) as P. pose proof PI_RGT_0.
  set (phi := norm F * d) in *. assert (0 <= phi) by (unfold phi; nra).
  assert (S0 : 0 <= sin phi) by (apply sin_ge_0; lra).
  pose proof (one_cos_le phi ltac:(lra)) as C.
  assert (Ha : a <= norm om).
  { pose proof (sperp_nonneg s om Hs). pose proof (norm_sq om). pose proof (sqrt_pos (dot om om)).
    fold (norm om) in *. apply Rsqr_incr_0_var; [unfold Rsqr; lra|assumption]. }
  assert (C1 : 0 <= 1 - cos phi) by (pose proof (COS_bound phi); lra).
  apply Rle_trans with (sin phi - phi * sin phi * (g * norm om) / norm F).
  - replace (phi * sin phi * (g * norm om) / norm F) with (sin phi * (g * norm om * d)).
    2:{ unfold phi. field. lra. }
    nra.
  - assert ((1 - cos phi) * (g * a) / norm F <= phi * sin phi * (g * norm om) / norm F); [|lra].
    unfold Rdiv. apply Rmult_le_compat_r; [left; apply Rinv_0_lt_compat; assumption|].
    assert (0 <= norm om) by apply sqrt_pos.
    assert (g * a <= g * norm om) by nra. assert (0 <= g * norm om) by nra. nra.
Qed.

Lemma damp_le : F <> vzero -> norm F * d <= PI / 2 -> g * norm om * d <= 1 ->
  a <= dot (rotate RNum s F d) om.
Proof.
  intros HF H1 H2. rewrite damped_exact by assumption.
  pose proof (damp_bracket HF H1 H2). pose proof (norm_pos _ HF).
  pose proof (sperp_nonneg s om Hs).
  assert (0 <= g * X / norm F).
  { apply Rmult_le_pos; [nra|left; apply Rinv_0_lt_compat; assumption]. }
  nra.
Qed.

Lemma damp_lt : 0 < g -> 0 < d -> cross s om <> vzero -> norm F * d < PI / 2 -> g * norm om * d < 1 ->
  a < dot (rotate RNum s F d) om.
Proof.
  intros Hg' Hd' HX H1 H2.
  assert (EX : X = dot (cross s om) (cross s om)).
  { unfold unit3, dot in Hs. rewrite <- (Rmult_1_l (dot om om)), <- Hs. unfold dot, cross; cbn; ring. }
  assert (PX : 0 < X).
  { rewrite EX. destruct (Rle_lt_or_eq_dec 0 (dot (cross s om) (cross s om)) (dot_nonneg _)) as [L|L]; [assumption|].
    exfalso. apply HX, dot_zero. auto. }
  assert (HF : F <> vzero).
  { intro E. pose proof (damped_sq g s om Hs) as Q. rewrite E in Q.
    change (dot vzero vzero) with (0 * 0 + 0 * 0 + 0 * 0) in Q. pose proof (dot_nonneg om). nra. }
  rewrite damped_exact by assumption. pose proof (norm_pos _ HF) as P. pose proof PI_RGT_0.
  assert (0 < sin (norm F * d) - (1 - cos (norm F * d)) * (g * a) / norm F).
  { set (phi := norm F * d) in *. assert (0 < phi) by (unfold phi; nra).
    assert (S0 : 0 < sin phi) by (apply sin_gt_0; lra).
    pose proof (one_cos_le phi ltac:(lra)) as C.
    assert (Ha : a <= norm om).
    { pose proof (norm_sq om). pose proof (sqrt_pos (dot om om)).
      fold (norm om) in *. apply Rsqr_incr_0_var; [unfold Rsqr; lra|assumption]. }
    assert (C1 : 0 <= 1 - cos phi) by (pose proof (COS_bound phi); lra).
    assert ((1 - cos phi) * (g * a) / norm F <= sin phi * (g * norm om * d)); [|nra].
    replace (sin phi * (g * norm om * d)) with (phi * sin phi * (g * norm om) / norm F) by (unfold phi; field; lra).
    unfold Rdiv. apply Rmult_le_compat_r; [left; apply Rinv_0_lt_compat; assumption|].
    assert (0 <= norm om) by apply sqrt_pos.
    assert (g * a <= g * norm om) by nra. assert (0 <= g * norm om) by nra. nra. }
  assert (0 < g * X / norm F).
  { apply Rmult_lt_0_compat; [nra|apply Rinv_0_lt_compat; assumption]. }
  nra.
Qed.
End Damp.

(** ** The step *)
(** Couplings of the open chain *)
Definition cutJ (M : nat) (J : nat -> vec) (i : nat) : vec := if (i =? M - 1)%nat then vzero else J i.
Definition isend (M p : nat) : bool := ((p =? 0) || (p =? M - 1))%nat.

(** The field on site p; [nl], [nr]: noise fields on the ends *)
Definition lom (M : nat) (g : R) (nl nr : vec) (S J B : nat -> vec) (p : nat) : vec :=
  let f := om M S (cutJ M J) B p in
  if isend M p then vsub (damped g (S p) f) (if (p =? 0)%nat then nl else nr) else f.

Definition lstR (M : nat) (g : R) (nl nr : vec) (b : nat) (J B : nat -> vec) (d : R) (S : nat -> vec) (p : nat) : vec :=
  if onsub M b p then rotate RNum (S p) (lom M g nl nr S J B p) d else S p.

Definition ltrR M g nl nr J B dt (S : nat -> vec) : nat -> vec :=
  lstR M g nl nr 0 J B (dt / 2) (lstR M g nl nr 1 J B dt (lstR M g nl nr 0 J B (dt / 2) S)).

Lemma vzero_had v : vhad vzero v = vzero.
Proof. apply v3_ext; cbn; ring. Qed.

Lemma om_left M S J B : (2 <= M)%nat -> om M S (cutJ M J) B 0 = vsub (vhad (J 0%nat) (S 1%nat)) (B 0%nat).
Proof.
  intro H. unfold om, cutJ, lft, rgt. cbn [Nat.eqb].
  destruct (Nat.eqb_spec (M - 1) (M - 1)); [|lia].
  change (0 + 1)%nat with 1%nat.
  destruct (Nat.eqb_spec 1 M); [lia|].
  destruct M as [|[|M']]; try lia. cbn [Nat.sub Nat.eqb].
  rewrite vzero_had. apply v3_ext; cbn; ring.
Qed.
Lemma om_right M S J B : (2 <= M)%nat ->
  om M S (cutJ M J) B (M - 1) = vsub (vhad (J (M - 2)%nat) (S (M - 2)%nat)) (B (M - 1)%nat).
Proof.
  intro H. unfold om, cutJ, lft, rgt.
  destruct (Nat.eqb_spec (M - 1) 0); [lia|].
  destruct (Nat.eqb_spec (M - 1 - 1) (M - 1)); [lia|].
  destruct (Nat.eqb_spec (M - 1) (M - 1)); [|lia].
  rewrite vzero_had. replace (M - 1 - 1)%nat with (M - 2)%nat by lia.
  apply v3_ext; cbn; ring.
Qed.
Lemma om_mid M S J B p : (p < M)%nat -> isend M p = false -> om M S (cutJ M J) B p = om M S J B p.
Proof.
  intros Hp H. unfold isend in H. apply orb_false_iff in H. destruct H as [H1 H2].
  apply Nat.eqb_neq in H1, H2. unfold om, cutJ, lft.
  destruct (Nat.eqb_spec p 0); [lia|]. destruct (Nat.eqb_spec (p - 1) (M - 1)); [lia|].
  destruct (Nat.eqb_spec p (M - 1)); [lia|]. reflexivity.
Qed.

Lemma end_omega_fin g dt (nu j so h se : vec) : dt <> 0 ->
  end_omega ERNum (Some g) (Some dt) (fin3 nu) (fin3 j) (fin3 so) (fin3 h) (fin3 se) =
  fin3 (vsub (damped g se (vsub (vhad j so) h)) (vscale (/ dt) nu)).
Proof.
  intro H. unfold end_omega. cbv zeta.
  change (ndiv ERNum ?a (Some dt)) with (er_div a (Some dt)).
  cbn [fin3 v3map vx vy vz]. rewrite !er_div_ok by assumption.
  unfold ssh_sum, lcross, j_s, fin3, v3map. cbn. f_equal; f_equal; field; assumption.
Qed.

Lemma lom_ER M g dt nl nr (S J B : nat -> vec) p : dt <> 0 -> (2 <= M)%nat -> (p < M)%nat ->
  lomF ERNum M (Some g) (Some dt) (fin3 nl) (fin3 nr) (finF S) (finF J) (finF B) p =
  fin3 (lom M g (vscale (/ dt) nl) (vscale (/ dt) nr) S J B p).
Proof.
  intros Hdt HM Hp. unfold lomF, lom.
  destruct (Nat.eqb_spec p 0) as [->|H0].
  - rewrite end_omega_fin by assumption. rewrite om_left by assumption. reflexivity.
  - unfold isend. destruct (Nat.eqb_spec p 0); [lia|].
    destruct (Nat.eqb_spec p (M - 1)) as [->|H1]; cbn [orb].
    + rewrite end_omega_fin by assumption. rewrite om_right by assumption.
      replace (M - 1 - 1)%nat with (M - 2)%nat by lia. reflexivity.
    + rewrite omF_ER, om_mid; [reflexivity|assumption|].
      unfold isend. destruct (Nat.eqb_spec p 0); [lia|]. destruct (Nat.eqb_spec p (M - 1)); [lia|]. reflexivity.
Qed.

Lemma lstage_arg M g dt nl nr b (J B : nat -> v3 (num ERNum)) d X p v :
  lstageF ERNum M g dt nl nr b J B d X p = fin3 v -> exists w, X p = fin3 w.
Proof.
  unfold lstageF. destruct (onsub M b p); intro H; [|eauto].
  apply rotate_ER_args in H. destruct H as (w & _ & _ & H & _). eauto.
Qed.

Lemma lstage_fin M g dt nl nr b J B d S p v : dt <> 0 -> (2 <= M)%nat ->
  lstageF ERNum M (Some g) (Some dt) (fin3 nl) (fin3 nr) b (finF J) (finF B) (Some d) (finF S) p = fin3 v ->
  v = lstR M g (vscale (/ dt) nl) (vscale (/ dt) nr) b J B d S p /\
  (onsub M b p = true -> lom M g (vscale (/ dt) nl) (vscale (/ dt) nr) S J B p <> vzero).
Proof.
  intros Hdt HM. unfold lstageF, lstR. destruct (onsub M b p) eqn:E.
  - pose proof (proj1 (onsub_spec _ _ _) E). rewrite lom_ER by tauto. intro H'. apply rotate_ER_fin in H'. tauto.
  - intro H. split; [|discriminate]. symmetry. revert H. clear. destruct (S p), v. cbn. intro H. injection H as -> -> ->. reflexivity.
Qed.

Lemma fun_fin (X : nat -> v3 (num ERNum)) : (forall p, exists v, X p = fin3 v) ->
  exists S : nat -> vec, forall p, X p = fin3 (S p).
Proof.
  intro H. exists (fun p => let f (a : ER) := match a with Some r => r | None => 0 end in
    mk3 (f (vx (X p))) (f (vy (X p))) (f (vz (X p)))).
  intro p. destruct (H p) as [v ->]. destruct v; reflexivity.
Qed.

(** A step with finite result is the real step *)
Lemma ltrot_fin M g dt nl nr J B S (S' : nat -> vec) : dt <> 0 -> (2 <= M)%nat ->
  (forall p, ltrotF ERNum M (Some g) (Some dt) (fin3 nl) (fin3 nr) (finF J) (finF B) (Some (dt / 2)) (finF S) p
             = fin3 (S' p)) ->
  let nl' := vscale (/ dt) nl in let nr' := vscale (/ dt) nr in
  let S1 := lstR M g nl' nr' 0 J B (dt / 2) S in
  let S2 := lstR M g nl' nr' 1 J B dt S1 in
  (forall p, S' p = ltrR M g nl' nr' J B dt S p) /\
  (forall p, onsub M 0 p = true -> lom M g nl' nr' S J B p <> vzero) /\
  (forall p, onsub M 1 p = true -> lom M g nl' nr' S1 J B p <> vzero) /\
  (forall p, onsub M 0 p = true -> lom M g nl' nr' S2 J B p <> vzero).
Proof.
  intros Hdt HM H nl' nr' S1 S2. unfold ltrotF in H.
  set (X1 := lstageF ERNum M (Some g) (Some dt) (fin3 nl) (fin3 nr) 0 (finF J) (finF B) (Some (dt / 2)) (finF S)) in *.
  set (X2 := lstageF ERNum M (Some g) (Some dt) (fin3 nl) (fin3 nr) 1 (finF J) (finF B) (Some dt) X1) in *.
  assert (F2 : forall p, exists v, X2 p = fin3 v) by (intro p; exact (lstage_arg _ _ _ _ _ _ _ _ _ _ _ _ (H p))).
  assert (F1 : forall p, exists v, X1 p = fin3 v).
  { intro p. destruct (F2 p) as [v Hv]. exact (lstage_arg _ _ _ _ _ _ _ _ _ _ _ _ Hv). }
  assert (Q1 : forall p, X1 p = fin3 (S1 p) /\ (onsub M 0 p = true -> lom M g nl' nr' S J B p <> vzero)).
  { intro p. destruct (F1 p) as [v Hv]. destruct (lstage_fin _ _ _ _ _ _ _ _ _ _ _ _ Hdt HM Hv) as [E N].
    split; [rewrite Hv, E; reflexivity|exact N]. }
  assert (EX2 : forall p, X2 p = lstageF ERNum M (Some g) (Some dt) (fin3 nl) (fin3 nr) 1 (finF J) (finF B) (Some dt) (finF S1) p).
  { intro p. apply lstageF_ext; auto. intro q. apply Q1. }
  assert (Q2 : forall p, X2 p = fin3 (S2 p) /\ (onsub M 1 p = true -> lom M g nl' nr' S1 J B p <> vzero)).
  { intro p. destruct (F2 p) as [v Hv]. rewrite EX2 in Hv.
    destruct (lstage_fin _ _ _ _ _ _ _ _ _ _ _ _ Hdt HM Hv) as [E N].
    split; [rewrite EX2, Hv, E; reflexivity|exact N]. }
  assert (Q3 : forall p, S' p = ltrR M g nl' nr' J B dt S p /\ (onsub M 0 p = true -> lom M g nl' nr' S2 J B p <> vzero)).
  { intro p. apply lstage_fin; [assumption..|]. rewrite <- H. apply lstageF_ext; auto.
    intro q. symmetry. apply Q2. }
  split; [intro; apply Q3|]. split; [apply Q1|]. split; [apply Q2|apply Q3].
Qed.

(** ** Energy *)
Section En.
Variables (M : nat) (J B : nat -> vec).
Hypothesis HM : (M mod 2 = 0)%nat.
Hypothesis HM2 : (2 <= M)%nat.
Notation units S := (forall p, (p < M)%nat -> unit3 (S p)).
Notation E S := (open_energy M S J B).

Lemma open_cut S : E S = ring_energy M S (cutJ M J) B.
Proof.
  rewrite ring_open by lia.
  replace (bond S (cutJ M J) (M - 1) 0) with 0.
  2:{ unfold bond, cutJ. destruct (Nat.eqb_spec (M - 1) (M - 1)); [|lia].
      unfold dot; cbn. ring. }
  rewrite Rplus_0_r. unfold open_energy. f_equal. apply Rsum_ext. intros i Hi.
  unfold bond, cutJ. destruct (Nat.eqb_spec i (M - 1)); [lia|reflexivity].
Qed.

Lemma lst_unit g nl nr b d S : units S -> units (lstR M g nl nr b J B d S).
Proof. intros H p Hp. unfold lstR. destruct (onsub M b p); [apply rotate_R_nrm_unit|]; auto. Qed.

Lemma lst_om g nl nr b d S p : (p < M)%nat -> (p mod 2 = b)%nat ->
  om M (lstR M g nl nr b J B d S) (cutJ M J) B p = om M S (cutJ M J) B p.
Proof.
  intros Hp Hb. unfold om. do 2 f_equal; f_equal; unfold lstR;
  match goal with |- (if ?c then _ else _) = _ => replace c with false; [reflexivity|] end;
  symmetry; apply not_true_iff_false; rewrite onsub_spec.
  - rewrite par_lft by assumption. lia.
  - rewrite par_rgt by assumption. lia.
Qed.

(** The energy change of a stage *)
Lemma lst_energy g nl nr b d S : (b < 2)%nat ->
  E (lstR M g nl nr b J B d S) - E S =
  Rsum M (fun p => if (p mod 2 =? b)%nat
                   then dot (S p) (om M S (cutJ M J) B p)
                        - dot (lstR M g nl nr b J B d S p) (om M S (cutJ M J) B p) else 0).
Proof.
  intro Hb. rewrite !open_cut, !(ring_by_sub M (cutJ M J) B HM b) by (assumption || lia).
  rewrite <- Rsum_minus. apply Rsum_ext. intros p Hp. cbv beta.
  destruct (Nat.eqb_spec (p mod 2) b) as [H|H].
  - rewrite lst_om by assumption. ring.
  - unfold lstR. replace (onsub M b p) with false; [ring|].
    symmetry. apply not_true_iff_false. rewrite onsub_spec. lia.
Qed.

Lemma lst_zero b d S : (b < 2)%nat -> units S -> E (lstR M 0 vzero vzero b J B d S) = E S.
Proof.
  intros Hb HS. apply Rminus_diag_uniq. rewrite lst_energy by assumption.
  etransitivity; [|apply (Rsum_0 M)]. apply Rsum_ext. intros p Hp. destruct (Nat.eqb_spec (p mod 2) b) as [H|H]; [|reflexivity].
  unfold lstR. replace (onsub M b p) with true by (symmetry; apply onsub_spec; auto).
  assert (L : lom M 0 vzero vzero S J B p = om M S (cutJ M J) B p).
  { unfold lom. destruct (isend M p); [|reflexivity]. unfold damped. destruct (p =? 0)%nat; apply v3_ext; cbn; ring. }
  rewrite L, rotate_R_dot by auto. ring.
Qed.

Lemma ltr_zero dt S : units S -> E (ltrR M 0 vzero vzero J B dt S) = E S.
Proof.
  intro H. unfold ltrR. rewrite !lst_zero; auto using lst_unit.
Qed.
Lemma ltr_unit g nl nr dt S : units S -> units (ltrR M g nl nr J B dt S).
Proof. intro H. unfold ltrR. auto using lst_unit. Qed.
End En.

Lemma Rsum_nonpos n f : (forall i, (i < n)%nat -> f i <= 0) -> Rsum n f <= 0.
Proof.
  induction n; intro H; cbn; [lra|]. pose proof (H n ltac:(lia)).
  assert (Rsum n f <= 0) by (apply IHn; intros; apply H; lia). lra.
Qed.

Lemma cauchy u v : dot u v * dot u v <= dot u u * dot v v.
Proof.
  assert (E : dot u u * dot v v - dot u v * dot u v = dot (cross u v) (cross u v)) by (unfold dot, cross; cbn; ring).
  pose proof (dot_nonneg (cross u v)). lra.
Qed.
Lemma norm_ge0 v : 0 <= norm v. Proof. apply sqrt_pos. Qed.
Lemma dot_norm u v : Rabs (dot u v) <= norm u * norm v.
Proof.
  apply Rsqr_incr_0_var; [|apply Rmult_le_pos; apply norm_ge0].
  rewrite <- Rsqr_abs. unfold Rsqr.
  replace (norm u * norm v * (norm u * norm v)) with ((norm u * norm u) * (norm v * norm v)) by ring.
  rewrite !norm_sq. apply cauchy.
Qed.
Lemma norm_le u c : 0 <= c -> dot u u <= c * c -> norm u <= c.
Proof. intros H1 H2. apply Rsqr_incr_0_var; [|assumption]. unfold Rsqr. rewrite norm_sq. assumption. Qed.
Lemma norm_sub u v : norm (vsub u v) <= norm u + norm v.
Proof.
  pose proof (norm_ge0 u); pose proof (norm_ge0 v).
  apply norm_le; [lra|]. pose proof (dot_norm u v) as D.
  pose proof (Rle_abs (- dot u v)) as D'. rewrite Rabs_Ropp in D'.
  replace (dot (vsub u v) (vsub u v)) with (dot u u + dot v v - 2 * dot u v) by (unfold dot; cbn; ring).
  rewrite <- !norm_sq. nra.
Qed.

(** Bounds that make the step small *)
Section Diss.
Variables (M : nat) (J B : nat -> vec) (g dt K : R).
Hypothesis HM : (M mod 2 = 0)%nat.
Hypothesis HM2 : (2 <= M)%nat.
Hypothesis Hg : 0 <= g.
Hypothesis Hdt : 0 < dt.
Notation units S := (forall p, (p < M)%nat -> unit3 (S p)).
Notation E S := (open_energy M S J B).
Hypothesis HK0 : forall v, unit3 v -> norm (vsub (vhad (J 0%nat) v) (B 0%nat)) <= K.
Hypothesis HK1 : forall v, unit3 v -> norm (vsub (vhad (J (M - 2)%nat) v) (B (M - 1)%nat)) <= K.
Hypothesis Hs1 : sqrt (1 + g * g) * K * dt <= PI / 2.
Hypothesis Hs2 : g * K * dt <= 1.

Lemma end_bound S p : units S -> (p < M)%nat -> isend M p = true -> norm (om M S (cutJ M J) B p) <= K.
Proof.
  intros HS Hp H. unfold isend in H. apply orb_true_iff in H.
  destruct H as [H|H]; apply Nat.eqb_eq in H; subst p.
  - rewrite om_left by assumption. apply HK0, HS; lia.
  - rewrite om_right by assumption. apply HK1, HS; lia.
Qed.

Lemma damped_norm s o : unit3 s -> norm (damped g s o) <= sqrt (1 + g * g) * norm o.
Proof.
  intro Hs. apply norm_le; [apply Rmult_le_pos; [apply sqrt_pos|apply norm_ge0]|].
  replace (sqrt (1 + g * g) * norm o * (sqrt (1 + g * g) * norm o))
    with ((sqrt (1 + g * g) * sqrt (1 + g * g)) * (norm o * norm o)) by ring.
  rewrite sqrt_sqrt, norm_sq, damped_sq by (assumption || nra).
  pose proof (Rle_0_sqr (dot s o)) as Q. unfold Rsqr in Q. pose proof (Rle_0_sqr g) as Q'. unfold Rsqr in Q'. nra.
Qed.

Lemma lst_diss b d S : (b < 2)%nat -> 0 <= d <= dt -> units S ->
  (forall p, onsub M b p = true -> lom M g vzero vzero S J B p <> vzero) ->
  E (lstR M g vzero vzero b J B d S) <= E S.
Proof.
  intros Hb Hd HS Hnz. apply Rminus_le. rewrite lst_energy by assumption.
  apply Rsum_nonpos. intros p Hp. destruct (Nat.eqb_spec (p mod 2) b) as [H|H]; [|lra].
  assert (Ho : onsub M b p = true) by (apply onsub_spec; auto).
  unfold lstR. rewrite Ho. specialize (Hnz p Ho). revert Hnz. unfold lom.
  destruct (isend M p) eqn:Ee.
  - replace (vsub (damped g (S p) (om M S (cutJ M J) B p)) (if (p =? 0)%nat then vzero else vzero))
      with (damped g (S p) (om M S (cutJ M J) B p)) by (destruct (p =? 0)%nat; apply v3_ext; cbn; ring).
    intro Hnz. pose proof (end_bound S p HS Hp Ee) as HB.
    pose proof (damped_norm (S p) (om M S (cutJ M J) B p) (HS p Hp)) as HN.
    pose proof (norm_ge0 (om M S (cutJ M J) B p)). pose proof (norm_ge0 (damped g (S p) (om M S (cutJ M J) B p))).
    pose proof (sqrt_pos (1 + g * g)).
    assert (a1 : norm (damped g (S p) (om M S (cutJ M J) B p)) * d <= PI / 2).
    { apply Rle_trans with (sqrt (1 + g * g) * K * dt); [|assumption].
      apply Rmult_le_compat; try lra.
      apply Rle_trans with (1 := HN). apply Rmult_le_compat_l; assumption. }
    assert (a2 : g * norm (om M S (cutJ M J) B p) * d <= 1).
    { apply Rle_trans with (g * K * dt); [|assumption].
      apply Rmult_le_compat; try lra; [apply Rmult_le_pos; assumption|apply Rmult_le_compat_l; assumption]. }
    pose proof (damp_le g d (S p) _ (HS p Hp) Hg (proj1 Hd) Hnz a1 a2). lra.
  - intros _. rewrite rotate_R_dot by auto. lra.
Qed.

Lemma ltr_diss S : units S ->
  let S1 := lstR M g vzero vzero 0 J B (dt / 2) S in
  let S2 := lstR M g vzero vzero 1 J B dt S1 in
  (forall p, onsub M 0 p = true -> lom M g vzero vzero S J B p <> vzero) ->
  (forall p, onsub M 1 p = true -> lom M g vzero vzero S1 J B p <> vzero) ->
  (forall p, onsub M 0 p = true -> lom M g vzero vzero S2 J B p <> vzero) ->
  E (ltrR M g vzero vzero J B dt S) <= E S.
Proof.
  intros HS S1 S2 H1 H2 H3.
  assert (U1 : units S1) by (apply lst_unit; assumption).
  assert (U2 : units S2) by (apply lst_unit; assumption).
  pose proof (lst_diss 0 (dt / 2) S ltac:(lia) ltac:(lra) HS H1) as D1. fold S1 in D1.
  pose proof (lst_diss 1 dt S1 ltac:(lia) ltac:(lra) U1 H2) as D2. fold S2 in D2.
  pose proof (lst_diss 0 (dt / 2) S2 ltac:(lia) ltac:(lra) U2 H3) as D3.
  change (ltrR M g vzero vzero J B dt S) with (lstR M g vzero vzero 0 J B (dt / 2) S2). lra.
Qed.
End Diss.

(** ** The update function *)
Lemma ok_inj {A} (a b : A) : Ok a = Ok b -> a = b.
Proof. intro H; injection H as H; exact H. Qed.

Lemma ltrot_arg M g dt nl nr (J B : nat -> v3 (num ERNum)) d X p v :
  ltrotF ERNum M g dt nl nr J B d X p = fin3 v -> exists w, X p = fin3 w.
Proof.
  unfold ltrotF. intro H. apply lstage_arg in H. destruct H as [w H].
  apply lstage_arg in H. destruct H as [w' H]. apply lstage_arg in H. exact H.
Qed.

(** Standard deviation of the noise *)
Lemma lsigma_fin sc g : nfinite ERNum (lsigma ERNum (lfin sc g)) = true ->
  beta (vars sc) <> 0 /\ 0 <= 2 * g * c_dt (vars sc) / beta (vars sc) /\
  lsigma ERNum (lfin sc g) = Some (sqrt (2 * g * c_dt (vars sc) / beta (vars sc))).
Proof.
  unfold lsigma, lfin; cbn [base gamma].
  change (nfinite ERNum (er_sqrt (er_div (Some (2 * g * c_dt (vars sc))) (Some (beta (vars sc))))) = true ->
    beta (vars sc) <> 0 /\ 0 <= 2 * g * c_dt (vars sc) / beta (vars sc) /\
    er_sqrt (er_div (Some (2 * g * c_dt (vars sc))) (Some (beta (vars sc)))) =
    Some (sqrt (2 * g * c_dt (vars sc) / beta (vars sc)))).
  unfold er_div. destruct (Req_EM_T (beta (vars sc)) 0) as [E|E]; cbn [er_sqrt]; [discriminate|].
  destruct (Rlt_dec _ 0) as [L|L]; [discriminate|]. intros _. split; [assumption|]. split; [lra|reflexivity].
Qed.

Lemma lsigma_ok sc g : beta (vars sc) <> 0 -> 0 <= 2 * g * c_dt (vars sc) / beta (vars sc) ->
  nfinite ERNum (lsigma ERNum (lfin sc g)) = true.
Proof.
  intros H1 H2. unfold lsigma, lfin; cbn [base gamma].
  change (nfinite ERNum (er_sqrt (er_div (Some (2 * g * c_dt (vars sc))) (Some (beta (vars sc))))) = true).
  rewrite er_div_ok by assumption. cbn [er_sqrt]. destruct (Rlt_dec _ 0); [lra|reflexivity].
Qed.

Definition noise_of (sigma : R) (z : v3 (num ERNum)) : v3 (num ERNum) :=
  v3map (fun z => nadd ERNum (nofZ ERNum 0) (nmul ERNum (Some sigma) z)) z.

Lemma end_omega_noise g dt nu j so h se v :
  end_omega ERNum g dt nu j so h se = fin3 v -> exists w, nu = fin3 w /\ exists d, dt = Some d /\ d <> 0.
Proof.
  intro H. unfold end_omega in H. cbv zeta in H. unfold ssh_sum in H.
  pose proof (f_equal vx H) as Hx. pose proof (f_equal vy H) as Hy. pose proof (f_equal vz H) as Hz.
  cbn [vx vy vz fin3 v3map nsub nadd nmul ERNum] in Hx, Hy, Hz. clear H.
  apply er2_some in Hx, Hy, Hz.
  destruct Hx as (? & x & _ & Hx), Hy as (? & y & _ & Hy), Hz as (? & z & _ & Hz).
  apply er_div_some in Hx, Hy, Hz.
  destruct Hx as (a & d & Ha & Hd & Hnz & _), Hy as (b & d1 & Hb & _), Hz as (c & d2 & Hc & _).
  exists (mk3 a b c). split; [|exists d; split; assumption].
  destruct nu; cbn in *; subst; reflexivity.
Qed.

(** The first site is rotated with the left noise, the last with the right one *)
Lemma ltrot_noise M g dt nl nr (J B X : nat -> v3 (num ERNum)) d : (2 <= M)%nat -> (M mod 2 = 0)%nat ->
  (forall p, exists v, ltrotF ERNum M g dt nl nr J B d X p = fin3 v) ->
  exists wl wr x, nl = fin3 wl /\ nr = fin3 wr /\ dt = Some x /\ x <> 0.
Proof.
  intros HM He H.
  assert (O0 : onsub M 0 0 = true) by (apply onsub_spec; split; [lia|reflexivity]).
  assert (O1 : onsub M 1 (M - 1) = true) by (apply onsub_spec; split; [lia|lia]).
  destruct (H 0%nat) as [v Hv]. unfold ltrotF in Hv. unfold lstageF at 1 in Hv. rewrite O0 in Hv.
  apply rotate_ER_args in Hv. destruct Hv as (_ & f & _ & _ & Hf & _).
  unfold lomF in Hf. cbn [Nat.eqb] in Hf. apply end_omega_noise in Hf. destruct Hf as (wl & -> & x & -> & Hx).
  destruct (H (M - 1)%nat) as [v1 Hv1]. unfold ltrotF in Hv1. apply lstage_arg in Hv1.
  destruct Hv1 as [w1 Hv1]. unfold lstageF at 1 in Hv1. rewrite O1 in Hv1.
  apply rotate_ER_args in Hv1. destruct Hv1 as (_ & f1 & _ & _ & Hf1 & _).
  unfold lomF in Hf1. destruct (Nat.eqb_spec (M - 1) 0); [lia|]. rewrite Nat.eqb_refl in Hf1.
  apply end_omega_noise in Hf1. destruct Hf1 as (wr & -> & _).
  exists wl, wr, x. auto.
Qed.

Lemma B_fin' sc s x p :
  fieldF ERNum (fin sc) s (fin3 (drive_field (vars sc) x)) p = fin3 (B_ sc s x p).
Proof. unfold fieldF, B_. rewrite hs_fin. destruct (p <? s)%nat; [apply sum_vec_fin|reflexivity]. Qed.

Definition bfin (c : lchain (num ERNum)) : Prop := finspins (base c).

(** Finite spins come from finite spins *)
Lemma lupdate_back n s zl zr (c c' : lchain (num ERNum)) : wf n s (base c) -> (2 <= n)%nat -> hs_ok (vars (base c)) ->
  lupdate ERNum zl zr c = Ok c' ->
  nfinite ERNum (lsigma ERNum c) = true /\
  wf n s (base c') /\ vars (base c') = vars (base c) /\ gamma c' = gamma c /\ (bfin c' -> bfin c).
Proof.
  intros W Hn Hd H. destruct (nfinite ERNum (lsigma ERNum c)) eqn:Hf.
  2:{ rewrite (lupdate_nofinite ERNum n s zl zr c W Hd Hf) in H. discriminate. }
  destruct (lupdate_pure ERNum n s zl zr c W Hn Hd Hf) as (sp' & E & L & A).
  assert (E' := eq_trans (eq_sym E) H). apply ok_inj in E'. subst c'.
  split; [reflexivity|]. split; [|split; [reflexivity|split; [reflexivity|]]].
  - destruct W as [w1 w2 w3 w4 w5 w6 w7]. constructor; cbn; auto.
  - intro Hf'. apply Forall_forall. intros v Hv. apply (In_nth _ _ (z3 ERNum)) in Hv.
    destruct Hv as (p & Hp & <-). destruct (finspins_at _ p Hf') as [w Hw].
    cbn [spins base] in Hw. rewrite A in Hw. apply ltrot_arg in Hw. exact Hw.
Qed.

Lemma lupdate_real n s zl zr sc g c' : wf n s sc -> (2 <= n)%nat -> (n mod 2 = 0)%nat -> drive_ok (vars sc) ->
  lupdate ERNum zl zr (lfin sc g) = Ok c' -> bfin c' ->
  let dt := c_dt (vars sc) in
  let sigma := sqrt (2 * g * dt / beta (vars sc)) in
  exists sp nl nr, dt <> 0 /\ noise_of sigma zl = fin3 nl /\ noise_of sigma zr = fin3 nr /\
    length sp = n /\
    c' = lfin (mkChain (j_couple sc) (static_h sc) sp (t sc + dt) (vars sc) (has_file sc)) g /\
    let B := B_ sc s (t sc + dt) in
    let nl' := vscale (/ dt) nl in let nr' := vscale (/ dt) nr in
    let S1 := lstR n g nl' nr' 0 (J_ sc) B (dt / 2) (S_ sc) in
    let S2 := lstR n g nl' nr' 1 (J_ sc) B dt S1 in
    (forall p, at_ sp p = ltrR n g nl' nr' (J_ sc) B dt (S_ sc) p) /\
    (forall p, onsub n 0 p = true -> lom n g nl' nr' (S_ sc) (J_ sc) B p <> vzero) /\
    (forall p, onsub n 1 p = true -> lom n g nl' nr' S1 (J_ sc) B p <> vzero) /\
    (forall p, onsub n 0 p = true -> lom n g nl' nr' S2 (J_ sc) B p <> vzero).
Proof.
  intros W Hn He Hd H Hf dt sigma.
  pose proof (proj2 (wf_fin n s sc) W) as W'.
  assert (Hh : hs_ok (vars (base (lfin sc g)))) by (apply hs_ok_fin, drive_ok_hs, Hd).
  destruct (lupdate_back n s zl zr (lfin sc g) c' W' Hn Hh H) as (Hs & _).
  destruct (lupdate_pure ERNum n s zl zr (lfin sc g) W' Hn Hh Hs) as (sp' & E & L & A).
  assert (E' := eq_trans (eq_sym E) H). apply ok_inj in E'. subst c'. clear E H.
  destruct (lsigma_fin sc g Hs) as (Hb & Hr & ES). rewrite ES in A.
  change (base (lfin sc g)) with (fin sc) in *. change (gamma (lfin sc g)) with (Some g) in *.
  change (vars (fin sc)) with (config_map (@Some R) (vars sc)) in *. change (t (fin sc)) with (Some (t sc)) in *.
  cbn [config_map c_dt] in A.
  change (ndiv ERNum (Some (c_dt (vars sc))) (nofZ ERNum 2)) with (er_div (Some dt) (Some 2)) in A.
  rewrite er_div_ok in A by lra.
  change (nadd ERNum (Some (t sc)) (Some (c_dt (vars sc)))) with (Some (t sc + dt)) in A.
  rewrite h_extP_fin in A by assumption.
  change (v3map _ zl) with (noise_of sigma zl) in A. change (v3map _ zr) with (noise_of sigma zr) in A.
  replace (2 * (n / 2))%nat with n in A by (revert He; clear; intro; pose proof (Nat.div_mod n 2); lia).
  assert (A' : forall p, at3 ERNum sp' p = ltrotF ERNum n (Some g) (Some dt) (noise_of sigma zl) (noise_of sigma zr)
     (finF (J_ sc)) (finF (B_ sc s (t sc + dt))) (Some (dt / 2)) (finF (S_ sc)) p).
  { intro p. rewrite A. unfold ltrotF.
    assert (ST : forall b d (X Y : nat -> v3 (num ERNum)), (forall q, X q = Y q) -> forall q,
     lstageF ERNum n (Some g) (Some dt) (noise_of sigma zl) (noise_of sigma zr) b (at3 ERNum (j_couple (fin sc)))
       (fieldF ERNum (fin sc) s (fin3 (drive_field (vars sc) (t sc + dt)))) d X q =
     lstageF ERNum n (Some g) (Some dt) (noise_of sigma zl) (noise_of sigma zr) b (finF (J_ sc)) (finF (B_ sc s (t sc + dt))) d Y q).
    { intros b d X Y HXY q. apply lstageF_ext; auto using js_fin. intros; apply B_fin'. }
    apply ST. intro q. apply ST. intro r. apply ST. intro u. apply spins_fin. }
  clear A.
  assert (Ff : forall p, exists v, at3 ERNum sp' p = fin3 v) by (intro p; exact (finspins_at _ p Hf)).
  destruct (ltrot_noise n (Some g) (Some dt) (noise_of sigma zl) (noise_of sigma zr) (finF (J_ sc))
     (finF (B_ sc s (t sc + dt))) (finF (S_ sc)) (Some (dt / 2)) Hn He) as (nl & nr & x & Enl & Enr & Ex & Hx).
  { intro p. rewrite <- A'. apply Ff. }
  injection Ex as <-.
  destruct (list_fin3 sp') as [sp Esp]; [exact Hf|].
  exists sp, nl, nr. split; [assumption|]. split; [assumption|]. split; [assumption|].
  assert (Lsp : length sp = n) by (subst sp'; rewrite map_length in L; exact L).
  split; [assumption|]. split.
  { unfold lfin, fin, chain_map; cbn [j_couple static_h spins t vars has_file base]. rewrite Esp. reflexivity. }
  apply (ltrot_fin n g dt nl nr (J_ sc) (B_ sc s (t sc + dt)) (S_ sc) (at_ sp) Hx Hn).
  intro p. rewrite <- Enl, <- Enr. rewrite <- A', Esp. apply at3_fin.
Qed.
