(** Accuracy of the Langevin step: isolated chains, completion. *)
From Coq Require Import Reals Lra Lia List ZArith Arith Bool.
From Verif Require Import Num Monad NumR Spin Config Chain Langevin SpecVec SpecChain SpecMC SpecLang SpecOrder SpecBath
  ProofsSpin ProofsChain ProofsEnergy ProofsDrive ProofsNew ProofsMCR ProofsDyn ProofsDynR ProofsDyn2 ProofsDyn4 ProofsLang ProofsLangR ProofsLangE
  ProofsJet ProofsOrder ProofsOrder2 ProofsOrder3 ProofsFirst ProofsBath.
Import ListNotations.
Local Open Scope R_scope.

Lemma lom_isolated n S J B p : lom n 0 vzero vzero S J B p = om n S (cutJ n J) B p.
Proof.
  rewrite lom_quiet. cbv zeta. destruct (isend n p); [|reflexivity]. unfold damped.
  generalize (om n S (cutJ n J) B p), (S p). intros. apply v3_ext; cbn; ring.
Qed.
Lemma ltr_isolated n J B dt S p : ltrR n 0 vzero vzero J B dt S p = trotF RNum n (cutJ n J) B (dt / 2) dt S p.
Proof.
  assert (G : forall b x Y Y' q, (forall p, Y p = Y' p) -> lstR n 0 vzero vzero b J B x Y q = stageF RNum n b (cutJ n J) B x Y' q).
  { intros b x Y Y' q E. unfold lstR, stageF. destruct (onsub n b q); [|apply E].
    transitivity (rotate RNum (Y' q) (om n Y' (cutJ n J) B q) x); [|reflexivity].
    rewrite lom_isolated, (E q). unfold om. rewrite (E (lft n q)), (E (rgt n q)). reflexivity. }
  unfold ltrR, trotF. apply G. intro. apply G. intro. apply G. reflexivity.
Qed.

Lemma trot_field n J B B' x y S p : (forall q, B q = B' q) -> trotF RNum n J B x y S p = trotF RNum n J B' x y S p.
Proof.
  intro E. assert (G : forall b z Y Y' q, (forall p, Y p = Y' p) -> stageF RNum n b J B z Y q = stageF RNum n b J B' z Y' q).
  { intros b z Y Y' q HY. unfold stageF. rewrite (HY q). destruct (onsub n b q); [|reflexivity].
    change (omF RNum n Y J B q) with (om n Y J B q). change (omF RNum n Y' J B' q) with (om n Y' J B' q).
    unfold om. rewrite (HY (lft n q)), (HY (rgt n q)), (E q). reflexivity. }
  unfold trotF. apply G. intro. apply G. intro. apply G. reflexivity.
Qed.

Section Isolated.
Context (n s : nat) (sc : chain R) (T : R) (X : R -> nat -> vec).
Context (Ww : wf n s sc) (Hn : (2 <= n)%nat) (Hev : (n mod 2 = 0)%nat) (Hd : drive_ok (vars sc)) (Hu : unit_spins sc) (HT : 0 <= T)
  (HX : bath_solves n s sc 0 T X) (Hun : undriven (vars sc)).
Lemma iso_motion x i : t sc <= x <= t sc + T -> (i < n)%nat ->
  has_velocity (fun r => X r i) x (cross (X x i) (om n (X x) (cutJ n (J_ sc)) (B_ sc s x) i)).
Proof.
  intros Hx Hi. pose proof (mo_motion n s sc 0 T X Hn HX x i Hx Hi) as H. unfold Gf in H. rewrite lom_isolated in H. exact H.
Qed.
Lemma iso_error : exists K, 0 <= K /\ forall dt k i, 0 < dt <= 1 -> INR k * dt <= T -> (i < n)%nat ->
  norm (vsub (lpath n s sc 0 dt k i) (X (t sc + INR k * dt) i)) <= K * (dt * dt).
Proof.
  destruct (fin_bound (J_ sc) n) as (j & j0 & Hj). destruct (B_form sc s) as (w & p & q & u & HB).
  destruct (global_error n (cutJ n (J_ sc)) j Hev (fun i Hi => cut_bound n (J_ sc) j i Hj Hi) j0 (t sc) (t sc + T) (HTle sc T HT) (B_ sc s) (Bd s w p q) X
    (B_jet _ _ sc n s w p q u HB) iso_motion (mo_start n s sc 0 T X Ww Hu HX)) as (K & K0 & H).
  exists K. split; [exact K0|]. intros dt k i Hdt Hk Hi.
  apply (H dt (lpath n s sc 0 dt)); auto; try lra.
  - intros r Hr. symmetry. apply (proj1 HX). exact Hr.
  - intros q' r Hr. cbn [lpath]. rewrite ltr_isolated. apply trot_field. intro x. apply B_undriven. exact Hun.
  - intros q' r Hr. apply (lpath_unit n s sc 0 Ww Hu dt q' r Hr).
Qed.
Lemma iso_order : exists K, forall dt zs sc' g', 0 < dt -> Forall (quiet 0) zs -> INR (length zs) * dt <= T ->
  lrun zs (lfin (with_dt sc dt) 0) = Ok (lfin sc' g') ->
  forall i, (i < n)%nat -> norm (vsub (S_ sc' i) (X (t sc + INR (length zs) * dt) i)) <= K * dt ^ 2.
Proof.
  destruct iso_error as (K & K0 & H). exists (K + 2). intros dt zs sc' g' Hdt Hq Hk Hr i Hi.
  rewrite (path_run n s sc 0 Ww Hn Hev Hd dt zs sc' g' Hq Hr i). set (k := length zs) in *.
  assert (dd : 0 <= dt * dt) by apply Rle_0_sqr. assert (0 <= K * (dt * dt)) by (apply Rmult_le_pos; lra).
  replace ((K + 2) * dt ^ 2) with (K * (dt * dt) + 2 * (dt * dt)) by ring. destruct (Rle_dec dt 1) as [Le|Le].
  - pose proof (H dt k i ltac:(lra) Hk Hi). lra.
  - assert (1 * 1 <= dt * dt) by (apply Rmult_le_compat; lra).
    assert (0 <= INR k * dt) by (apply Rmult_le_pos; [apply pos_INR|lra]).
    pose proof (two_units (lpath n s sc 0 dt k i) (X (t sc + INR k * dt) i) (lpath_unit n s sc 0 Ww Hu dt k i Hi)
      (mo_stays n s sc 0 T X Ww Hn Hu HX (t sc + INR k * dt) i ltac:(lra) Hi)). lra.
Qed.
End Isolated.

(** ** Completion *)
Section Go.
Context (n s : nat) (Hn : (2 <= n)%nat) (He : (n mod 2 = 0)%nat).
Notation units S := (forall p, (p < n)%nat -> unit3 (S p)).
Definition live (J B S : nat -> vec) : Prop := forall p, (p < n)%nat -> om n S (cutJ n J) B p <> vzero.
Lemma live_lom g J B S : units S -> live J B S -> forall p, (p < n)%nat -> lom n g vzero vzero S J B p <> vzero.
Proof.
  intros HS H p Hp. rewrite lom_quiet. cbv zeta. destruct (isend n p); [|auto]. apply damped_nonzero; auto.
Qed.
Lemma lstep_go sc g z : wf n s sc -> drive_ok (vars sc) -> unit_spins sc ->
  c_dt (vars sc) <> 0 -> beta (vars sc) <> 0 -> 0 <= 2 * g * c_dt (vars sc) / beta (vars sc) -> quiet g z ->
  let dt := c_dt (vars sc) in let B := B_ sc s (t sc + dt) in
  let S1 := lstR n g vzero vzero 0 (J_ sc) B (dt / 2) (S_ sc) in
  let S2 := lstR n g vzero vzero 1 (J_ sc) B dt S1 in
  live (J_ sc) B (S_ sc) -> live (J_ sc) B S1 -> live (J_ sc) B S2 ->
  exists sp, length sp = n /\ lupdate ERNum (fst z) (snd z) (lfin sc g) = Ok (lfin (nextc sc sp) g) /\ unit_spins (nextc sc sp).
Proof.
  intros W Hok Hu Hdt Hb Hr (a & b & -> & Hq) dt B S1 S2 V0 V1 V2. cbn [fst snd].
  assert (W' : wf n s (base (lfin sc g))) by (apply wf_fin; assumption).
  assert (Hhs : hs_ok (vars (base (lfin sc g)))) by (apply hs_ok_fin, drive_ok_hs, Hok).
  pose proof (lsigma_ok sc g Hb Hr) as Hs.
  destruct (lupdate_pure ERNum n s (fin3 a) (fin3 b) (lfin sc g) W' Hn Hhs Hs) as (sp' & E & L & A).
  destruct (lsigma_fin sc g Hs) as (_ & _ & ES). rewrite ES in A.
  fold dt in Hdt, Hr, ES, A. set (sg := sqrt (2 * g * dt / beta (vars sc))) in *.
  assert (Z : forall v, (g = 0 \/ v = vzero) ->
     v3map (fun z => nadd ERNum (nofZ ERNum 0) (nmul ERNum (Some sg) z)) (fin3 v) = fin3 vzero).
  { intros v Hv. unfold fin3, v3map. cbn [vx vy vz]. destruct Hv as [->| ->].
    - assert (sg = 0) by (unfold sg; rewrite Rmult_0_r, Rmult_0_l; unfold Rdiv; rewrite Rmult_0_l; apply sqrt_0).
      rewrite H. cbn. f_equal; f_equal; ring.
    - cbn. f_equal; f_equal; ring. }
  cbv zeta in A. rewrite (Z a), (Z b) in A by tauto. clear Z.
  change (base (lfin sc g)) with (fin sc) in *. change (gamma (lfin sc g)) with (Some g) in *.
  change (vars (fin sc)) with (config_map (@Some R) (vars sc)) in *. change (t (fin sc)) with (Some (t sc)) in *.
  cbn [config_map c_dt] in A.
  change (ndiv ERNum (Some (c_dt (vars sc))) (nofZ ERNum 2)) with (er_div (Some dt) (Some 2)) in A.
  rewrite er_div_ok in A by lra.
  change (nadd ERNum (Some (t sc)) (Some (c_dt (vars sc)))) with (Some (t sc + dt)) in A.
  rewrite h_extP_fin in A by assumption.
  replace (2 * (n / 2))%nat with n in A by (revert He; clear; intro; pose proof (Nat.div_mod n 2); lia).
  pose proof (proj1 (unit_spins_iff n s sc W) Hu) as U.
  assert (U1 : units S1) by (apply lst_unit; assumption).
  assert (U2 : units S2) by (apply lst_unit; assumption).
  assert (A' : forall p, at3 ERNum sp' p = fin3 (ltrR n g vzero vzero (J_ sc) B dt (S_ sc) p)).
  { intro p. rewrite A. unfold ltrotF.
    assert (ST : forall bb d (X : nat -> v3 (num ERNum)) (Y : nat -> vec), (forall q, X q = fin3 (Y q)) -> units Y ->
     live (J_ sc) B Y -> forall q,
     lstageF ERNum n (Some g) (Some dt) (fin3 vzero) (fin3 vzero) bb (at3 ERNum (j_couple (fin sc)))
       (fieldF ERNum (fin sc) s (fin3 (drive_field (vars sc) (t sc + dt)))) (Some d) X q =
     fin3 (lstR n g vzero vzero bb (J_ sc) B d Y q)).
    { intros bb d X Y HXY HY HN q. rewrite <- (lstage_ok n Hn g dt bb (J_ sc) B d Y Hdt HY (live_lom g _ _ Y HY HN)).
      apply lstageF_ext; auto using js_fin. intros; apply B_fin'. }
    apply (ST 0%nat (dt / 2) _ S2); [|assumption|assumption]. intro q.
    apply (ST 1%nat dt _ S1); [|assumption|assumption]. intro r.
    apply (ST 0%nat (dt / 2) _ (S_ sc)); [apply spins_fin|assumption|assumption]. }
  set (sp := map (ltrR n g vzero vzero (J_ sc) B dt (S_ sc)) (seq 0 n)).
  assert (Lsp : length sp = n) by (unfold sp; rewrite map_length, seq_length; reflexivity).
  assert (Asp : forall p, (p < n)%nat -> at_ sp p = ltrR n g vzero vzero (J_ sc) B dt (S_ sc) p).
  { intros p Hp. unfold at_, sp. rewrite nth_map_seq by assumption. reflexivity. }
  exists sp. split; [exact Lsp|]. split.
  - assert (Esp : sp' = map (v3map Some) sp).
    { apply (fin3_list_ext n); auto. intros p Hp. rewrite A', Asp by assumption. reflexivity. }
    etransitivity; [exact E|]. rewrite Esp. reflexivity.
  - apply (proj2 (unit_spins_iff n s _ (nextc_wf n s sc sp W Lsp))). intros p Hp. unfold S_, nextc. cbn [spins]. rewrite Asp by assumption.
    apply ltr_unit; assumption.
Qed.
End Go.

Section Bath3.
Context (n s : nat) (sc : chain R) (g T : R) (X : R -> nat -> vec).
Context (Ww : wf n s sc) (Hn : (2 <= n)%nat) (Hev : (n mod 2 = 0)%nat) (Hd : drive_ok (vars sc)) (Hu : unit_spins sc) (HT : 0 <= T)
  (HX : bath_solves n s sc g T X).
Context (Hb : beta (vars sc) <> 0) (Hg : 0 <= g / beta (vars sc)).
Notation units S := (forall p, (p < n)%nat -> unit3 (S p)).

(** from the fields along the path to the success of the run *)
Definition lively (dt : R) (k : nat) : Prop :=
  let B := B_ sc s (t sc + INR k * dt + dt) in
  let S0 := lpath n s sc g dt k in
  let S1 := lstR n g vzero vzero 0 (J_ sc) B (dt / 2) S0 in
  let S2 := lstR n g vzero vzero 1 (J_ sc) B dt S1 in
  live n (J_ sc) B S0 /\ live n (J_ sc) B S1 /\ live n (J_ sc) B S2.
Lemma om_ext J B S S' p : (forall q, S q = S' q) -> om n S J B p = om n S' J B p.
Proof. intro E. unfold om. rewrite (E (lft n p)), (E (rgt n p)). reflexivity. Qed.
Lemma lst_ext b J B d S S' : (forall q, S q = S' q) -> forall p, lstR n g vzero vzero b J B d S p = lstR n g vzero vzero b J B d S' p.
Proof. intros E p. unfold lstR, lom. rewrite (E p), (om_ext _ _ _ _ p E). reflexivity. Qed.
Lemma live_ext J B S S' : (forall q, S q = S' q) -> live n J B S' -> live n J B S.
Proof. intros E H p Hp. rewrite (om_ext _ _ _ _ p E). apply H; exact Hp. Qed.
Lemma run_lively dt zs : 0 < dt -> Forall (quiet g) zs -> (forall k, (k < length zs)%nat -> lively dt k) ->
  exists sc', lrun zs (lfin (with_dt sc dt) g) = Ok (lfin sc' g).
Proof.
  intros Hdt Hq Hl.
  assert (G : forall zs, Forall (quiet g) zs -> forall q sc1, wf n s sc1 -> unit_spins sc1 -> vars sc1 = vars (with_dt sc dt) ->
    j_couple sc1 = j_couple sc -> static_h sc1 = static_h sc -> t sc1 = t sc + INR q * dt -> (forall p, S_ sc1 p = lpath n s sc g dt q p) ->
    (forall k, (q <= k < q + length zs)%nat -> lively dt k) -> exists sc', lrun zs (lfin sc1 g) = Ok (lfin sc' g)).
  2:{ apply (G zs Hq 0%nat (with_dt sc dt)); auto; [apply wf_dt; exact Ww|cbn; ring|]. intros k Hk. apply Hl. lia. }
  clear zs Hq Hl. unfold lrun, lruns. induction 1 as [|z zs Hz Hq IH]; intros q sc1 W1 U1 V1 J1 H1 T1 P1 Hl; cbn [foldM length] in *.
  - exists sc1. reflexivity.
  - assert (EJ : J_ sc1 = J_ sc) by (unfold J_; rewrite J1; reflexivity).
    assert (EB : forall x p, B_ sc1 s x p = B_ sc s x p) by (intros; unfold B_, h_; rewrite H1, V1; reflexivity).
    assert (Edt : c_dt (vars sc1) = dt) by (rewrite V1; reflexivity).
    assert (EB' : B_ sc1 s (t sc1 + dt) = B_ sc s (t sc + INR q * dt + dt)).
    { unfold B_. unfold h_. rewrite H1, V1, T1. reflexivity. }
    destruct (Hl q ltac:(lia)) as (L0 & L1 & L2).
    destruct (lstep_go n s Hn Hev sc1 g z W1) as (sp & Lsp & E & Us); auto.
    + rewrite V1; exact Hd.
    + rewrite Edt. lra.
    + rewrite V1; exact Hb.
    + rewrite V1. cbn [vars with_dt set_vars]. change (0 <= 2 * g * dt / beta (vars sc)).
      replace (2 * g * dt / beta (vars sc)) with (2 * dt * (g / beta (vars sc))) by (unfold Rdiv; ring).
      apply Rmult_le_pos; lra.
    + rewrite Edt, EB', EJ. apply (live_ext _ _ _ _ P1). exact L0.
    + rewrite Edt, EB', EJ. eapply live_ext; [|exact L1]. apply lst_ext. exact P1.
    + rewrite Edt, EB', EJ. eapply live_ext; [|exact L2]. apply lst_ext. apply lst_ext. exact P1.
    + rewrite E. cbn [bind]. apply (IH (S q)).
      * apply nextc_wf; assumption.
      * exact Us.
      * exact V1.
      * exact J1.
      * exact H1.
      * cbn [t nextc]. rewrite Edt, T1, S_INR. ring.
      * destruct (lstep_quiet n s sc1 g z _ W1 Hn Hev ltac:(rewrite V1; exact Hd) Hz E (bfin_lfin _ g)) as (sp2 & _ & E2 & A2).
        apply lfin_inj in E2. destruct E2 as [E2 _]. intro p. unfold S_. cbn [spins nextc].
        assert (sp = sp2) by (apply (f_equal spins) in E2; exact E2). subst sp2.
        rewrite A2, Edt, EB', EJ. cbn [lpath]. apply ltr_ext. exact P1.
      * intros k Hk. apply Hl. lia.
Qed.

Lemma run_completes : (forall x i, t sc <= x <= t sc + T -> (i < n)%nat -> open_field n s sc (X x) x i <> vzero) ->
  exists d, 0 < d /\ forall dt zs, 0 < dt < d -> Forall (quiet g) zs -> INR (length zs) * dt <= T ->
    exists sc', lrun zs (lfin (with_dt sc dt) g) = Ok (lfin sc' g).
Proof.
  intro HO. destruct (lpath_error n s sc g T X Ww Hn Hu HT HX) as (K & K0 & HK).
  destruct (gf_consts n s sc g) as (W & L & W0 & L0 & H1 & H2 & H3).
  destruct (B_lip s sc) as (KB & KB0 & HKB). destruct (fin_bound (J_ sc) n) as (j & j0 & Hj).
  assert (Hjc : forall i, (i < n)%nat -> norm (cutJ n (J_ sc) i) <= j) by (intros; apply cut_bound; assumption).
  destruct (B_form sc s) as (w & p & q & u & HB).
  set (F := fun x i => om n (X x) (cutJ n (J_ sc)) (B_ sc s x) i).
  destruct (gap_of (t sc) (t sc + T) n F (HTle sc T HT)) as (m & Hm & Hgap).
  { intros x i Hx Hi. unfold F, om.
    assert (A : forall p, (p < n)%nat -> vcont (fun r => X r p) x).
    { intros p' Hp. eapply velocity_cont. apply (mo_motion n s sc g T X Hn HX x p' Hx Hp). }
    apply vcont_sub; [apply vcont_add; apply vcont_had; apply A; [apply lft_lt|apply rgt_lt]; exact Hi|].
    eapply velocity_cont. apply (B_vel sc s w p q u HB). }
  { intros x i Hx Hi. unfold F. rewrite <- open_field_om by assumption. apply HO; assumption. }
  set (Y := rush W). assert (Y0 : 0 <= Y) by (apply rush0; exact W0).
  set (C := 2 * j * (K + 2 * Y) + KB + 1).
  assert (C0 : 1 <= C) by (unfold C; assert (0 <= 2 * j * (K + 2 * Y)) by (apply Rmult_le_pos; lra); lra).
  assert (I0 : 0 < / C) by (apply Rinv_0_lt_compat; lra).
  exists (Rmin 1 (m / C)). split.
  { apply Rmin_glb_lt; [lra|]. unfold Rdiv. apply Rmult_lt_0_compat; lra. }
  intros dt zs Hdt Hq Hk. apply run_lively; [lra|exact Hq|]. intros k Hkl.
  assert (Hd1 : dt < 1) by (eapply Rlt_le_trans; [apply Hdt|apply Rmin_l]).
  assert (Hm2 : C * dt < m).
  { apply Rlt_le_trans with (C * (m / C)); [|right; field; lra].
    apply Rmult_lt_compat_l; [lra|]. eapply Rlt_le_trans; [apply Hdt|apply Rmin_r]. }
  assert (Hik : INR k * dt + dt <= T).
  { apply Rle_trans with (INR (length zs) * dt); [|exact Hk]. replace (INR k * dt + dt) with (INR (S k) * dt) by (rewrite S_INR; ring).
    apply Rmult_le_compat_r; [lra|]. apply le_INR. lia. }
  assert (Hk0 : 0 <= INR k * dt) by (apply Rmult_le_pos; [apply pos_INR|lra]).
  set (r := t sc + INR k * dt). assert (Hr : t sc <= r <= t sc + T) by (unfold r; lra).
  set (S0 := lpath n s sc g dt k). assert (U0 : units S0) by (apply lpath_unit; assumption).
  assert (E0 : forall p, (p < n)%nat -> norm (vsub (S0 p) (X r p)) <= K * dt) by (intros i Hi; apply HK; lra || exact Hi).
  destruct (near n (Gf n s sc g) W W0 H1 (r + dt) dt S0 (X r) (K * dt) U0 ltac:(lra) E0) as (N1 & N2).
  assert (dY : 0 <= dt * Y) by (apply Rmult_le_pos; lra).
  assert (GG : forall Z, (forall q, (q < n)%nat -> norm (vsub (Z q) (X r q)) <= K * dt + 2 * (dt * Y)) -> live n (J_ sc) (B_ sc s (r + dt)) Z).
  { intros Z HZ i Hi. apply (norm_far _ (F r i) m); [apply Hgap; assumption|].
    eapply Rle_lt_trans; [apply (norm_tri3 _ (om n (X r) (cutJ n (J_ sc)) (B_ sc s (r + dt)) i))|].
    assert (A := om_diff n (cutJ n (J_ sc)) j Hjc Z (X r) (B_ sc s (r + dt)) _ i Hi HZ).
    unfold F. rewrite om_time. pose proof (HKB (r + dt) r i) as B. replace (r + dt - r) with dt in B by ring. rewrite Rabs_pos_eq in B by lra.
    replace (2 * j * (K * dt + 2 * (dt * Y))) with (2 * j * (K + 2 * Y) * dt) in A by ring. unfold C in Hm2. lra. }
  unfold lively. fold r S0. split; [|split].
  - apply GG. intros q' Hq'. pose proof (E0 q' Hq'). lra.
  - apply GG. intros q' Hq'. pose proof (N1 q' Hq') as A. fold Y in A.
    eapply Rle_trans; [exact A|]. lra.
  - apply GG. intros q' Hq'. exact (N2 q' Hq').
Qed.
End Bath3.
