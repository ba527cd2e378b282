(** Accuracy of the Langevin step without noise. *)
From Coq Require Import Reals Lra Lia List ZArith Arith Bool.
From Verif Require Import Num Monad NumR Spin Config Chain Langevin SpecVec SpecChain SpecMC SpecLang SpecOrder SpecBath
  ProofsSpin ProofsChain ProofsEnergy ProofsDrive ProofsNew ProofsMCR ProofsDyn ProofsDynR ProofsDyn2 ProofsDyn4 ProofsLang ProofsLangR ProofsLangE
  ProofsJet ProofsOrder ProofsOrder2 ProofsOrder3 ProofsFirst.
Import ListNotations.
Local Open Scope R_scope.

(** ** The damped field *)
Lemma lom_quiet n g S J B p : lom n g vzero vzero S J B p =
  let f := om n S (cutJ n J) B p in if isend n p then damped g (S p) f else f.
Proof.
  unfold lom. cbv zeta. destruct (isend n p); [|reflexivity].
  destruct (p =? 0)%nat; generalize (damped g (S p) (om n S (cutJ n J) B p)); intro; apply v3_ext; cbn; ring.
Qed.
Lemma isend_spec n i : (i < n)%nat -> isend n i = ((i =? 0) || (i + 1 =? n))%nat.
Proof.
  intro H. unfold isend. f_equal. destruct (Nat.eqb_spec i (n - 1)), (Nat.eqb_spec (i + 1) n); auto; lia.
Qed.
Lemma open_field_om n s sc sp x i : (2 <= n)%nat -> (i < n)%nat ->
  open_field n s sc sp x i = om n sp (cutJ n (J_ sc)) (B_ sc s x) i.
Proof.
  intros Hn Hi. unfold open_field. destruct (Nat.eqb_spec i 0) as [->|H0].
  - rewrite om_left by exact Hn. destruct (Nat.eqb_spec (0 + 1) n); [lia|]. cbn [plus].
    generalize (vhad (J_ sc 0) (sp 1%nat)), (B_ sc s x 0%nat). intros. apply v3_ext; cbn; ring.
  - destruct (Nat.eqb_spec (i + 1) n) as [E|E].
    + replace i with (n - 1)%nat by lia. rewrite om_right by exact Hn. replace (n - 1 - 1)%nat with (n - 2)%nat by lia.
      generalize (vhad (J_ sc (n - 2)) (sp (n - 2)%nat)), (B_ sc s x (n - 1)%nat). intros. apply v3_ext; cbn; ring.
    + rewrite om_mid; [|exact Hi|]. 
      * unfold om, lft, rgt. destruct (Nat.eqb_spec i 0); [lia|]. destruct (Nat.eqb_spec (i + 1) n); [lia|]. reflexivity.
      * unfold isend. destruct (Nat.eqb_spec i 0); [lia|]. destruct (Nat.eqb_spec i (n - 1)); [lia|]. reflexivity.
Qed.

Lemma damped_le g s f : unit3 s -> norm (damped g s f) <= (1 + Rabs g) * norm f.
Proof.
  intro U. unfold damped. eapply Rle_trans; [apply norm_sub_le|]. rewrite norm_vscale.
  pose proof (norm_cross_unit s f U). pose proof (Rabs_pos g).
  assert (Rabs g * norm (cross s f) <= Rabs g * norm f) by (apply Rmult_le_compat_l; assumption). lra.
Qed.
Lemma damped_diff g s f s' f' : unit3 s' -> 
  norm (vsub (damped g s f) (damped g s' f')) <= norm (vsub f f') + Rabs g * (norm (vsub s s') * norm f + norm (vsub f f')).
Proof.
  intro U. replace (vsub (damped g s f) (damped g s' f')) with
    (vsub (vsub f f') (vscale g (vadd (cross (vsub s s') f) (cross s' (vsub f f'))))) by (unfold damped; apply v3_ext; cbn; ring).
  eapply Rle_trans; [apply norm_sub_le|]. apply Rplus_le_compat_l. rewrite norm_vscale. apply Rmult_le_compat_l; [apply Rabs_pos|].
  eapply Rle_trans; [apply norm_triangle|]. apply Rplus_le_compat; [apply norm_cross|apply norm_cross_unit; exact U].
Qed.

(** Bounded velocities make Lipschitz functions *)
Lemma real_lip f d K r r' : (forall x, derivable_pt_lim f x (d x)) -> (forall x, Rabs (d x) <= K) -> Rabs (f r - f r') <= K * Rabs (r - r').
Proof.
  intros Hf Hd.
  assert (G : forall a b, a < b -> Rabs (f b - f a) <= K * Rabs (b - a)).
  { intros a b Hab. destruct (MVT_cor2 f d a b Hab) as (c & E & _); [intros; apply Hf|].
    rewrite E, Rabs_mult. apply Rmult_le_compat_r; [apply Rabs_pos|apply Hd]. }
  destruct (Rtotal_order r r') as [H|[->|H]].
  - rewrite (Rabs_minus_sym (f r)), (Rabs_minus_sym r). apply G; exact H.
  - rewrite !Rminus_diag_eq by reflexivity. rewrite Rabs_R0. lra.
  - apply G; exact H.
Qed.
Lemma vec_lip f v K r r' : (forall x, has_velocity f x (v x)) -> (forall x, norm (v x) <= K) -> norm (vsub (f r) (f r')) <= 2 * K * Rabs (r - r').
Proof.
  intros Hf Hv. rewrite Rmult_assoc. apply norm_comp. repeat split; cbn.
  - apply (real_lip (fun x => vx (f x)) (fun x => vx (v x))); [apply Hf|intro x; apply (comp_norm _ _ (Hv x))].
  - apply (real_lip (fun x => vy (f x)) (fun x => vy (v x))); [apply Hf|intro x; apply (comp_norm _ _ (Hv x))].
  - apply (real_lip (fun x => vz (f x)) (fun x => vz (v x))); [apply Hf|intro x; apply (comp_norm _ _ (Hv x))].
Qed.

Lemma cut_bound n J j i : (forall i, (i < n)%nat -> norm (J i) <= j) -> (i < n)%nat -> norm (cutJ n J i) <= j.
Proof.
  intros H Hi. unfold cutJ. destruct (i =? n - 1)%nat; [|auto]. rewrite norm_vzero. eapply Rle_trans; [apply norm_nonneg|apply (H i Hi)].
Qed.

Section Bath.
Context (n s : nat) (sc : chain R) (g T : R) (X : R -> nat -> vec).
Context (Ww : wf n s sc) (Hn : (2 <= n)%nat) (Hev : (n mod 2 = 0)%nat) (Hd : drive_ok (vars sc)) (Hu : unit_spins sc) (HT : 0 <= T)
  (HX : bath_solves n s sc g T X).
Notation units S := (forall p, (p < n)%nat -> unit3 (S p)).
Definition Gf (r : R) (S : nat -> vec) (i : nat) : vec := lom n g vzero vzero S (J_ sc) (B_ sc s r) i.

Lemma B_all : exists b, 0 <= b /\ forall x i, (i < n)%nat -> norm (B_ sc s x i) <= b.
Proof.
  destruct (B_form sc s) as (w & p & q & u & HB). destruct (fin_bound u n) as (K & K0 & HK).
  exists (norm p + norm q + K). split; [pose proof (norm_nonneg p); pose proof (norm_nonneg q); lra|].
  intros x i Hi. rewrite HB. eapply Rle_trans; [apply trigv_bound|].
  pose proof (pick_bound s i p). pose proof (pick_bound s i q). pose proof (HK i Hi). lra.
Qed.
Lemma B_lip : exists K, 0 <= K /\ forall x y i, norm (vsub (B_ sc s x i) (B_ sc s y i)) <= K * Rabs (x - y).
Proof.
  destruct (B_form sc s) as (w & p & q & u & HB). exists (2 * (Rabs w * (norm p + norm q))). split.
  { pose proof (norm_nonneg p). pose proof (norm_nonneg q). pose proof (Rabs_pos w).
    assert (0 <= Rabs w * (norm p + norm q)) by (apply Rmult_le_pos; lra). lra. }
  intros x y i. apply (vec_lip (fun r => B_ sc s r i) (fun r => Bd s w p q r i)).
  - intro r. apply (B_vel sc s w p q u HB).
  - intro r. apply Bd_bound.
Qed.

Lemma gf_bound r S i b j : (forall i, (i < n)%nat -> norm (J_ sc i) <= j) -> 0 <= j ->
  (forall x i, (i < n)%nat -> norm (B_ sc s x i) <= b) -> units S -> (i < n)%nat ->
  norm (Gf r S i) <= (1 + Rabs g) * (2 * j + b).
Proof.
  intros Hj j0 Hb HS Hi. unfold Gf. rewrite lom_quiet. cbv zeta.
  assert (A : norm (om n S (cutJ n (J_ sc)) (B_ sc s r) i) <= 2 * j + b).
  { apply (om_bound n (cutJ n (J_ sc)) j); auto. intros; apply cut_bound; auto. }
  pose proof (Rabs_pos g). pose proof (norm_nonneg (om n S (cutJ n (J_ sc)) (B_ sc s r) i)).
  destruct (isend n i).
  - eapply Rle_trans; [apply damped_le; auto|]. apply Rmult_le_compat_l; lra.
  - assert (0 <= Rabs g * (2 * j + b)) by (apply Rmult_le_pos; lra). lra.
Qed.
Lemma gf_lip r S S' e i b j : (forall i, (i < n)%nat -> norm (J_ sc i) <= j) -> 0 <= j ->
  (forall x i, (i < n)%nat -> norm (B_ sc s x i) <= b) -> 0 <= b -> units S -> units S' ->
  (forall p, (p < n)%nat -> norm (vsub (S p) (S' p)) <= e) -> (i < n)%nat ->
  norm (vsub (Gf r S i) (Gf r S' i)) <= (2 * j + Rabs g * (4 * j + b)) * e.
Proof.
  intros Hj j0 Hb b0 HS HS' He Hi. unfold Gf. rewrite !lom_quiet. cbv zeta.
  set (f := om n S (cutJ n (J_ sc)) (B_ sc s r) i). set (f' := om n S' (cutJ n (J_ sc)) (B_ sc s r) i).
  assert (A : norm f <= 2 * j + b).
  { apply (om_bound n (cutJ n (J_ sc)) j); auto. intros; apply cut_bound; auto. }
  assert (D : norm (vsub f f') <= 2 * j * e) by (apply (om_diff n (cutJ n (J_ sc)) j); auto; intros; apply cut_bound; auto).
  pose proof (Rabs_pos g). assert (e0 : 0 <= e) by (eapply Rle_trans; [apply norm_nonneg|apply (He i Hi)]).
  destruct (isend n i).
  - eapply Rle_trans; [apply damped_diff; auto|].
    assert (P1 : norm (vsub (S i) (S' i)) * norm f <= e * (2 * j + b)) by (apply Rmult_le_compat; auto using norm_nonneg).
    assert (P2 : Rabs g * (norm (vsub (S i) (S' i)) * norm f + norm (vsub f f')) <= Rabs g * (e * (2 * j + b) + 2 * j * e)) by (apply Rmult_le_compat_l; lra).
    replace ((2 * j + Rabs g * (4 * j + b)) * e) with (2 * j * e + Rabs g * (e * (2 * j + b) + 2 * j * e)) by ring. lra.
  - assert (0 <= Rabs g * (4 * j + b) * e) by (repeat apply Rmult_le_pos; lra).
    replace ((2 * j + Rabs g * (4 * j + b)) * e) with (2 * j * e + Rabs g * (4 * j + b) * e) by ring. lra.
Qed.
Lemma om_time S J x y i : norm (vsub (om n S J (B_ sc s x) i) (om n S J (B_ sc s y) i)) = norm (vsub (B_ sc s x i) (B_ sc s y i)).
Proof.
  rewrite !om_lin. unfold norm. f_equal. generalize (lin n J S i), (B_ sc s x i), (B_ sc s y i). intros. unfold dot; cbn. ring.
Qed.
Lemma gf_time K : 0 <= K -> (forall x y i, norm (vsub (B_ sc s x i) (B_ sc s y i)) <= K * Rabs (x - y)) ->
  forall r r' S i, units S -> (i < n)%nat -> norm (vsub (Gf r S i) (Gf r' S i)) <= (1 + Rabs g) * K * Rabs (r - r').
Proof.
  intros K0 HK r r' S i HS Hi. unfold Gf. rewrite !lom_quiet. cbv zeta.
  set (f := om n S (cutJ n (J_ sc)) (B_ sc s r) i). set (f' := om n S (cutJ n (J_ sc)) (B_ sc s r') i).
  assert (D : norm (vsub f f') <= K * Rabs (r - r')) by (unfold f, f'; rewrite om_time; apply HK).
  pose proof (Rabs_pos g). pose proof (Rabs_pos (r - r')). assert (0 <= K * Rabs (r - r')) by (apply Rmult_le_pos; assumption).
  replace ((1 + Rabs g) * K * Rabs (r - r')) with (K * Rabs (r - r') + Rabs g * (K * Rabs (r - r'))) by ring.
  assert (Rabs g * norm (vsub f f') <= Rabs g * (K * Rabs (r - r'))) by (apply Rmult_le_compat_l; assumption).
  destruct (isend n i).
  - eapply Rle_trans; [apply damped_diff; auto|]. rewrite vsub_self, Rmult_0_l, Rplus_0_l. lra.
  - assert (0 <= Rabs g * (K * Rabs (r - r'))) by (apply Rmult_le_pos; assumption). lra.
Qed.
(** constants for the field *)
Lemma gf_consts : exists W L, 0 <= W /\ 0 <= L /\
  (forall r S i, units S -> (i < n)%nat -> norm (Gf r S i) <= W) /\
  (forall r S S' e i, units S -> units S' -> (forall p, (p < n)%nat -> norm (vsub (S p) (S' p)) <= e) -> (i < n)%nat ->
     norm (vsub (Gf r S i) (Gf r S' i)) <= L * e) /\
  (forall r r' S i, units S -> (i < n)%nat -> norm (vsub (Gf r S i) (Gf r' S i)) <= L * Rabs (r - r')).
Proof.
  destruct (fin_bound (J_ sc) n) as (j & j0 & Hj). destruct B_all as (b & b0 & Hb). destruct B_lip as (K & K0 & HK).
  pose proof (Rabs_pos g) as g0.
  assert (L1 : 0 <= 2 * j + Rabs g * (4 * j + b)) by (assert (0 <= Rabs g * (4 * j + b)) by (apply Rmult_le_pos; lra); lra).
  assert (L2 : 0 <= (1 + Rabs g) * K) by (apply Rmult_le_pos; lra).
  exists ((1 + Rabs g) * (2 * j + b)), (2 * j + Rabs g * (4 * j + b) + (1 + Rabs g) * K).
  split; [apply Rmult_le_pos; lra|]. split; [lra|]. split; [|split].
  - intros. apply gf_bound; assumption.
  - intros r S S' e i HS HS' He Hi. assert (e0 : 0 <= e) by (eapply Rle_trans; [apply norm_nonneg|apply (He i Hi)]).
    eapply Rle_trans; [apply (gf_lip r S S' e i b j); assumption|]. apply Rmult_le_compat_r; lra.
  - intros r r' S i HS Hi. eapply Rle_trans; [apply (gf_time K K0 HK); assumption|]. apply Rmult_le_compat_r; [apply Rabs_pos|lra].
Qed.

(** ** The run *)
Fixpoint lpath (dt : R) (k : nat) : nat -> vec :=
  match k with
  | O => S_ sc
  | S k => ltrR n g vzero vzero (J_ sc) (B_ sc s (t sc + INR k * dt + dt)) dt (lpath dt k)
  end.
Lemma start_unit : units (S_ sc).
Proof. exact (proj1 (unit_spins_iff n s sc Ww) Hu). Qed.
Lemma lpath_unit dt k : units (lpath dt k).
Proof.
  induction k as [|k IH]; [exact start_unit|]. cbn [lpath]. apply ltr_unit; exact IH.
Qed.
Lemma mo_start i : (i < n)%nat -> unit3 (X (t sc) i).
Proof. intro Hi. rewrite (proj1 HX) by exact Hi. apply start_unit; exact Hi. Qed.
Lemma mo_motion x i : t sc <= x <= t sc + T -> (i < n)%nat -> has_velocity (fun r => X r i) x (cross (X x i) (Gf x (X x) i)).
Proof.
  intros Hx Hi. pose proof (proj2 HX x i Hx Hi) as H. cbv zeta in H. rewrite open_field_om in H by assumption.
  unfold Gf. rewrite lom_quiet. cbv zeta. rewrite isend_spec by exact Hi. exact H.
Qed.
Lemma mo_stays x i : t sc <= x <= t sc + T -> (i < n)%nat -> unit3 (X x i).
Proof. apply (mo_unit n Gf (t sc) (t sc + T) X mo_motion mo_start). Qed.

Lemma lpath_error : exists K, 0 <= K /\ forall dt k i, 0 < dt <= 1 -> INR k * dt <= T -> (i < n)%nat ->
  norm (vsub (lpath dt k i) (X (t sc + INR k * dt) i)) <= K * dt.
Proof.
  destruct gf_consts as (W & L & W0 & L0 & H1 & H2 & H3).
  destruct (first_global n Gf W L W0 L0 H1 H2 H3 (t sc) (t sc + T) (HTle sc T HT) X mo_motion mo_start) as (K & K0 & H).
  exists K. split; [exact K0|]. intros dt k i Hdt Hk Hi.
  apply (H dt (fun k => t sc + INR k * dt + dt) (lpath dt)); auto; try lra.
  - intro q. replace (t sc + INR q * dt + dt - (t sc + INR q * dt)) with dt by ring. rewrite Rabs_pos_eq; lra.
  - intros p Hp. symmetry. apply (proj1 HX). exact Hp.
  - intros q p Hp. apply lpath_unit. exact Hp.
Qed.
End Bath.

(** ** The program *)
Lemma quiet_noise g sc z nl nr : quiet g z ->
  noise_of (sqrt (2 * g * c_dt (vars sc) / beta (vars sc))) (fst z) = fin3 nl ->
  noise_of (sqrt (2 * g * c_dt (vars sc) / beta (vars sc))) (snd z) = fin3 nr -> nl = vzero /\ nr = vzero.
Proof.
  intros (a & b & -> & Hq) El Er. cbn [fst snd] in *.
  assert (Z : g = 0 -> sqrt (2 * g * c_dt (vars sc) / beta (vars sc)) = 0).
  { intros ->. rewrite Rmult_0_r, Rmult_0_l. unfold Rdiv. rewrite Rmult_0_l. apply sqrt_0. }
  split; [apply (noise_zero _ _ _ El)|apply (noise_zero _ _ _ Er)]; destruct Hq as [Hq|(-> & ->)]; auto.
Qed.
Definition nextc (sc : chain R) (sp : list vec) : chain R :=
  mkChain (j_couple sc) (static_h sc) sp (t sc + c_dt (vars sc)) (vars sc) (has_file sc).
Lemma nextc_wf n s sc sp : wf n s sc -> length sp = n -> wf n s (nextc sc sp).
Proof. intros [w1 w2 w3 w4 w5 w6 w7] L. constructor; cbn; auto. Qed.
Lemma lstep_quiet n s sc g z c' : wf n s sc -> (2 <= n)%nat -> (n mod 2 = 0)%nat -> drive_ok (vars sc) -> quiet g z ->
  lupdate ERNum (fst z) (snd z) (lfin sc g) = Ok c' -> bfin c' ->
  exists sp, length sp = n /\ c' = lfin (nextc sc sp) g /\
    forall p, at_ sp p = ltrR n g vzero vzero (J_ sc) (B_ sc s (t sc + c_dt (vars sc))) (c_dt (vars sc)) (S_ sc) p.
Proof.
  intros W Hn He Hd Hq H Hf.
  destruct (lupdate_real n s _ _ sc g c' W Hn He Hd H Hf) as (sp & nl & nr & Hdt & Enl & Enr & Lsp & -> & A & _).
  destruct (quiet_noise g sc z nl nr Hq Enl Enr) as (-> & ->).
  exists sp. split; [exact Lsp|]. split; [reflexivity|]. intro p. rewrite A.
  replace (vscale (/ c_dt (vars sc)) vzero) with vzero by (apply v3_ext; cbn; ring). reflexivity.
Qed.
Lemma ltr_ext n g J B dt S S' : (forall p, S p = S' p) -> forall p, ltrR n g vzero vzero J B dt S p = ltrR n g vzero vzero J B dt S' p.
Proof.
  assert (G : forall b d Y Y', (forall p, Y p = Y' p) -> forall p, lstR n g vzero vzero b J B d Y p = lstR n g vzero vzero b J B d Y' p).
  { intros b d Y Y' E p. unfold lstR, lom, om. rewrite !E. reflexivity. }
  intros E p. unfold ltrR. apply G. intro. apply G. intro. apply G. exact E.
Qed.
Lemma lpath_shift n s sc sp g k : forall dt, c_dt (vars sc) = dt ->
  (forall p, at_ sp p = ltrR n g vzero vzero (J_ sc) (B_ sc s (t sc + dt)) dt (S_ sc) p) ->
  forall p, lpath n s (nextc sc sp) g dt k p = lpath n s sc g dt (S k) p.
Proof.
  intros dt Edt Hsp. induction k as [|k IH]; intro p.
  - cbn [lpath INR]. rewrite Rmult_0_l, Rplus_0_r. apply Hsp.
  - cbn [lpath] in IH |- *. rewrite (ltr_ext _ _ _ _ _ _ _ IH p).
    change (J_ (nextc sc sp)) with (J_ sc). change (B_ (nextc sc sp) s) with (B_ sc s).
    cbn [t nextc]. rewrite S_INR, Edt.
    replace (t sc + dt + INR k * dt + dt) with (t sc + (INR k + 1) * dt + dt) by ring. reflexivity.
Qed.
Lemma lrun_path n s g zs : Forall (quiet g) zs -> forall sc sc' g', wf n s sc -> (2 <= n)%nat -> (n mod 2 = 0)%nat -> drive_ok (vars sc) ->
  lrun zs (lfin sc g) = Ok (lfin sc' g') -> forall p, S_ sc' p = lpath n s sc g (c_dt (vars sc)) (length zs) p.
Proof.
  unfold lrun, lruns. induction 1 as [|z zs Hz _ IH]; intros sc sc' g' W Hn He Hok H p; cbn [foldM] in H.
  - apply ok_inj, lfin_inj in H. destruct H as [-> _]. reflexivity.
  - destruct (lupdate ERNum (fst z) (snd z) (lfin sc g)) as [c1| |] eqn:E; try discriminate. cbn [bind] in H.
    assert (W' : wf n s (base (lfin sc g))) by (apply wf_fin; assumption).
    assert (Hh : hs_ok (vars (base (lfin sc g)))) by (apply hs_ok_fin, drive_ok_hs, Hok).
    destruct (lupdate_back n s _ _ _ c1 W' Hn Hh E) as (_ & W1 & V1 & _ & _).
    assert (F1 : bfin c1).
    { apply (lrun_back n s zs c1 (lfin sc' g') W1 Hn); [rewrite V1; assumption|exact H|apply bfin_lfin]. }
    destruct (lstep_quiet n s sc g z c1 W Hn He Hok Hz E F1) as (sp & Lsp & -> & A).
    rewrite (IH (nextc sc sp) sc' g' (nextc_wf n s sc sp W Lsp) Hn He Hok H p).
    apply (lpath_shift n s sc sp g (length zs) (c_dt (vars sc)) eq_refl A).
Qed.

Section Bath2.
Context (n s : nat) (sc : chain R) (g T : R) (X : R -> nat -> vec).
Context (Ww : wf n s sc) (Hn : (2 <= n)%nat) (Hev : (n mod 2 = 0)%nat) (Hd : drive_ok (vars sc)) (Hu : unit_spins sc) (HT : 0 <= T)
  (HX : bath_solves n s sc g T X).
Notation units S := (forall p, (p < n)%nat -> unit3 (S p)).

Lemma path_run dt zs sc' g' : Forall (quiet g) zs -> lrun zs (lfin (with_dt sc dt) g) = Ok (lfin sc' g') ->
  forall i, S_ sc' i = lpath n s sc g dt (length zs) i.
Proof.
  intros Hq H i. rewrite (lrun_path n s g zs Hq (with_dt sc dt) sc' g' (wf_dt n s sc Ww dt) Hn Hev Hd H i).
  change (c_dt (vars (with_dt sc dt))) with dt.
  assert (E : forall k p, lpath n s (with_dt sc dt) g dt k p = lpath n s sc g dt k p).
  { induction k as [|k IH]; intro p; [reflexivity|]. cbn [lpath]. apply ltr_ext. exact IH. }
  apply E.
Qed.
Lemma run_order : exists K, forall dt zs sc' g', 0 < dt -> Forall (quiet g) zs -> INR (length zs) * dt <= T ->
  lrun zs (lfin (with_dt sc dt) g) = Ok (lfin sc' g') ->
  forall i, (i < n)%nat -> norm (vsub (S_ sc' i) (X (t sc + INR (length zs) * dt) i)) <= K * dt.
Proof.
  destruct (lpath_error n s sc g T X Ww Hn Hu HT HX) as (K & K0 & H). exists (K + 2). intros dt zs sc' g' Hdt Hq Hk Hr i Hi.
  rewrite (path_run dt zs sc' g' Hq Hr i). set (k := length zs) in *.
  assert (0 <= K * dt) by (apply Rmult_le_pos; lra).
  rewrite Rmult_plus_distr_r. destruct (Rle_dec dt 1) as [Le|Le].
  - pose proof (H dt k i ltac:(lra) Hk Hi). lra.
  - assert (0 <= INR k * dt) by (apply Rmult_le_pos; [apply pos_INR|lra]).
    pose proof (two_units (lpath n s sc g dt k i) (X (t sc + INR k * dt) i) (lpath_unit n s sc g Ww Hu dt k i Hi)
      (mo_stays n s sc g T X Ww Hn Hu HX (t sc + INR k * dt) i ltac:(lra) Hi)). lra.
Qed.
End Bath2.
