(** Energy along Langevin runs. *)
From Coq Require Import Reals Lra Lia List ZArith Arith Bool.
From Verif Require Import Num Monad NumR Spin Config Chain Langevin SpecVec SpecChain SpecMC SpecLang Samples
  ProofsSpin ProofsChain ProofsEnergy ProofsDrive ProofsNew ProofsDyn ProofsDynR ProofsDyn2 ProofsDyn4 ProofsLang ProofsLangR.
Import ListNotations.
Local Open Scope R_scope.

Lemma noise_zero sigma z v : noise_of sigma z = fin3 v -> sigma = 0 \/ z = fin3 vzero -> v = vzero.
Proof.
  intros H Hz. unfold noise_of, fin3, v3map in H. destruct z as [a b c], v as [x y w]. cbn [vx vy vz] in *.
  injection H as H1 H2 H3. destruct Hz as [->|Hz].
  - destruct a, b, c; try discriminate. cbn in *. injection H1 as H1. injection H2 as H2. injection H3 as H3.
    apply v3_ext; cbn; lra.
  - injection Hz as -> -> ->. cbn in *. injection H1 as H1. injection H2 as H2. injection H3 as H3.
    apply v3_ext; cbn; lra.
Qed.

Lemma open_energy_ext n S J B S' J' B' : (forall i, (i < n)%nat -> S i = S' i) -> (forall i, (i < n)%nat -> J i = J' i) ->
  (forall i, (i < n)%nat -> B i = B' i) -> open_energy n S J B = open_energy n S' J' B'.
Proof.
  intros HS HJ HB. unfold open_energy. f_equal; apply Rsum_ext; intros i Hi.
  - unfold bond. rewrite !HS, HJ by lia. reflexivity.
  - rewrite HS, HB by lia. reflexivity.
Qed.

Lemma bfin_lfin sc g : bfin (lfin sc g). Proof. apply finspins_fin. Qed.

(** One step seen from real numbers; Q relates the spins before and after *)
Lemma lstep_rel n s zl zr sc g c' x : wf n s sc -> (2 <= n)%nat -> (n mod 2 = 0)%nat -> drive_ok (vars sc) ->
  unit_spins sc -> undriven (vars sc) ->
  lupdate ERNum zl zr (lfin sc g) = Ok c' -> bfin c' ->
  exists sc', c' = lfin sc' g /\ wf n s sc' /\ vars sc' = vars sc /\ J_ sc' = J_ sc /\
    B_ sc' s x = B_ sc s x /\ unit_spins sc' /\
    (g = 0 -> open_energy n (S_ sc') (J_ sc) (B_ sc s x) = open_energy n (S_ sc) (J_ sc) (B_ sc s x)) /\
    (forall K, 0 <= g -> 0 < c_dt (vars sc) -> zl = fin3 vzero -> zr = fin3 vzero ->
      (forall v, unit3 v -> norm (vsub (vhad (J_ sc 0) v) (B_ sc s x 0)) <= K) ->
      (forall v, unit3 v -> norm (vsub (vhad (J_ sc (n - 2)) v) (B_ sc s x (n - 1))) <= K) ->
      sqrt (1 + g * g) * K * c_dt (vars sc) <= PI / 2 -> g * K * c_dt (vars sc) <= 1 ->
      open_energy n (S_ sc') (J_ sc) (B_ sc s x) <= open_energy n (S_ sc) (J_ sc) (B_ sc s x)).
Proof.
  intros W Hn He Hok Hu Hd H Hf.
  destruct (lupdate_real n s zl zr sc g c' W Hn He Hok H Hf) as (sp & nl & nr & Hdt & Enl & Enr & Lsp & -> & A & N1 & N2 & N3).
  set (sc' := mkChain _ _ sp _ _ _).
  exists sc'. split; [reflexivity|].
  assert (W' : wf n s sc') by (destruct W as [w1 w2 w3 w4 w5 w6 w7]; constructor; cbn; auto).
  split; [assumption|]. split; [reflexivity|]. split; [reflexivity|]. split; [reflexivity|].
  assert (U : forall p, (p < n)%nat -> unit3 (S_ sc p)) by exact (proj1 (unit_spins_iff n s sc W) Hu).
  assert (ES : forall B, open_energy n (S_ sc') (J_ sc) B = open_energy n
     (ltrR n g (vscale (/ c_dt (vars sc)) nl) (vscale (/ c_dt (vars sc)) nr) (J_ sc) (B_ sc s (t sc + c_dt (vars sc)))
        (c_dt (vars sc)) (S_ sc)) (J_ sc) B).
  { intro B. apply open_energy_ext; auto. intros i Hi. unfold S_ at 1, sc'. cbn [spins]. apply A. }
  assert (EB : forall X, open_energy n X (J_ sc) (B_ sc s x) = open_energy n X (J_ sc) (B_ sc s (t sc + c_dt (vars sc)))).
  { intro X. apply open_energy_ext; auto. intros; apply B_undriven; assumption. }
  split; [|split].
  - apply (proj2 (unit_spins_iff n s sc' W')). intros p Hp. unfold S_, sc'. cbn [spins]. rewrite A. apply ltr_unit; assumption.
  - intros ->. rewrite ES, !EB.
    rewrite (noise_zero _ _ _ Enl), (noise_zero _ _ _ Enr).
    2-3: left; rewrite Rmult_0_r, Rmult_0_l; unfold Rdiv; rewrite Rmult_0_l; apply sqrt_0.
    replace (vscale (/ c_dt (vars sc)) vzero) with vzero by (apply v3_ext; cbn; ring).
    apply ltr_zero; assumption.
  - intros K Hg Hdt0 -> -> HK0 HK1 Hs1 Hs2. rewrite ES, !EB.
    assert (Z1 : nl = vzero) by (apply (noise_zero _ _ _ Enl); auto).
    assert (Z2 : nr = vzero) by (apply (noise_zero _ _ _ Enr); auto). subst nl nr.
    replace (vscale (/ c_dt (vars sc)) vzero) with vzero in * by (apply v3_ext; cbn; ring).
    apply (ltr_diss n (J_ sc) (B_ sc s (t sc + c_dt (vars sc))) g (c_dt (vars sc)) K); auto.
    + intros v Hv. rewrite (B_undriven sc s _ x) by assumption. apply HK0, Hv.
    + intros v Hv. rewrite (B_undriven sc s _ x) by assumption. apply HK1, Hv.
Qed.

Lemma lrun_back n s zs : forall (c c' : lchain (num ERNum)), wf n s (base c) -> (2 <= n)%nat -> hs_ok (vars (base c)) ->
  lrun zs c = Ok c' -> bfin c' -> bfin c.
Proof.
  unfold lrun, lruns. induction zs as [|z zs IH]; cbn [foldM]; intros c c' W Hn Hd H Hf.
  - apply ok_inj in H. subst. assumption.
  - destruct (lupdate ERNum (fst z) (snd z) c) as [c1| |] eqn:E; try discriminate. cbn [bind] in H.
    destruct (lupdate_back n s _ _ c c1 W Hn Hd E) as (_ & W1 & V1 & _ & F1).
    apply F1. apply (IH c1 c' W1 Hn); [rewrite V1; assumption|assumption|assumption].
Qed.

Lemma lfin_inj a b g g' : lfin a g = lfin b g' -> a = b /\ g = g'.
Proof. unfold lfin. intro H. pose proof (f_equal base H) as H1. pose proof (f_equal gamma H) as H2. cbn in H1, H2.
  split; [apply fin_inj; assumption|]. injection H2 as H2. assumption. Qed.

(** Without bath: conservation over any run *)
Lemma lrun_conserve n s x zs : forall sc sc' g', wf n s sc -> (2 <= n)%nat -> (n mod 2 = 0)%nat -> drive_ok (vars sc) ->
  unit_spins sc -> undriven (vars sc) ->
  lrun zs (lfin sc 0) = Ok (lfin sc' g') ->
  open_energy n (S_ sc') (J_ sc') (B_ sc' s x) = open_energy n (S_ sc) (J_ sc) (B_ sc s x).
Proof.
  unfold lrun, lruns. induction zs as [|z zs IH]; cbn [foldM]; intros sc sc' g' W Hn He Hok Hu Hd H.
  - apply ok_inj, lfin_inj in H. destruct H as [-> _]. reflexivity.
  - destruct (lupdate ERNum (fst z) (snd z) (lfin sc 0)) as [c1| |] eqn:E; try discriminate. cbn [bind] in H.
    assert (W' : wf n s (base (lfin sc 0))) by (apply wf_fin; assumption).
    assert (Hh : hs_ok (vars (base (lfin sc 0)))) by (apply hs_ok_fin, drive_ok_hs, Hok).
    destruct (lupdate_back n s _ _ _ c1 W' Hn Hh E) as (_ & W1 & V1 & _ & _).
    assert (F1 : bfin c1).
    { apply (lrun_back n s zs c1 (lfin sc' g') W1 Hn); [rewrite V1; assumption|exact H|apply bfin_lfin]. }
    destruct (lstep_rel n s _ _ sc 0 c1 x W Hn He Hok Hu Hd E F1) as (sc1 & -> & W2 & V2 & J2 & B2 & U2 & C & _).
    specialize (IH sc1 sc' g' W2 Hn He). rewrite V2 in IH. specialize (IH Hok U2 Hd H).
    rewrite IH, J2, B2. apply C. reflexivity.
Qed.

(** Without noise: dissipation over any run *)
Lemma lrun_dissipate n s x K k : forall sc sc' g g', wf n s sc -> (2 <= n)%nat -> (n mod 2 = 0)%nat -> drive_ok (vars sc) ->
  unit_spins sc -> undriven (vars sc) -> 0 <= g -> 0 < c_dt (vars sc) ->
  (forall v, unit3 v -> norm (vsub (vhad (J_ sc 0) v) (B_ sc s x 0)) <= K) ->
  (forall v, unit3 v -> norm (vsub (vhad (J_ sc (n - 2)) v) (B_ sc s x (n - 1))) <= K) ->
  sqrt (1 + g * g) * K * c_dt (vars sc) <= PI / 2 -> g * K * c_dt (vars sc) <= 1 ->
  lrun (repeat (fin3 vzero, fin3 vzero) k) (lfin sc g) = Ok (lfin sc' g') ->
  open_energy n (S_ sc') (J_ sc') (B_ sc' s x) <= open_energy n (S_ sc) (J_ sc) (B_ sc s x).
Proof.
  unfold lrun, lruns. induction k as [|k IH]; cbn [repeat foldM]; intros sc sc' g g' W Hn He Hok Hu Hd Hg Hdt K0 K1 Hs1 Hs2 H.
  - apply ok_inj, lfin_inj in H. destruct H as [-> _]. lra.
  - cbn [fst snd] in H. destruct (lupdate ERNum (fin3 vzero) (fin3 vzero) (lfin sc g)) as [c1| |] eqn:E; try discriminate. cbn [bind] in H.
    assert (W' : wf n s (base (lfin sc g))) by (apply wf_fin; assumption).
    assert (Hh : hs_ok (vars (base (lfin sc g)))) by (apply hs_ok_fin, drive_ok_hs, Hok).
    destruct (lupdate_back n s _ _ _ c1 W' Hn Hh E) as (_ & W1 & V1 & _ & _).
    assert (F1 : bfin c1).
    { apply (lrun_back n s (repeat (fin3 vzero, fin3 vzero) k) c1 (lfin sc' g') W1 Hn);
        [rewrite V1; assumption|exact H|apply bfin_lfin]. }
    destruct (lstep_rel n s _ _ sc g c1 x W Hn He Hok Hu Hd E F1) as (sc1 & -> & W2 & V2 & J2 & B2 & U2 & _ & D).
    specialize (IH sc1 sc' g g' W2 Hn He). rewrite V2, J2, B2 in IH.
    specialize (IH Hok U2 Hd Hg Hdt K0 K1 Hs1 Hs2 H).
    specialize (D K Hg Hdt eq_refl eq_refl K0 K1 Hs1 Hs2). lra.
Qed.

(** A finite spin is a unit vector after the step *)
Lemma ltrot_unit M g dt nl nr (J B X : nat -> v3 (num ERNum)) d p v : (p < M)%nat ->
  ltrotF ERNum M g dt nl nr J B d X p = fin3 v -> unit3 v.
Proof.
  intros Hp H. unfold ltrotF in H. unfold lstageF at 1 in H. destruct (onsub M 0 p) eqn:E0.
  - apply rotate_ER_unit_out in H; assumption.
  - unfold lstageF at 1 in H. destruct (onsub M 1 p) eqn:E1.
    + apply rotate_ER_unit_out in H; assumption.
    + exfalso. apply not_true_iff_false in E0, E1. rewrite onsub_spec in E0, E1.
      pose proof (Nat.mod_upper_bound p 2). lia.
Qed.

Lemma lupdate_unit n s zl zr (c c' : lchain (num ERNum)) : wf n s (base c) -> (2 <= n)%nat -> hs_ok (vars (base c)) ->
  lupdate ERNum zl zr c = Ok c' ->
  forall p v, (p < 2 * (n / 2))%nat -> nth p (spins (base c')) nan3 = fin3 v -> unit3 v.
Proof.
  intros W Hn Hd H p v Hp Hv.
  destruct (lupdate_back n s _ _ c c' W Hn Hd H) as (Hf & _).
  destruct (lupdate_pure ERNum n s zl zr c W Hn Hd Hf) as (sp' & E & L & A).
  assert (E' := eq_trans (eq_sym E) H). apply ok_inj in E'. subst c'. cbn [base spins] in Hv.
  assert (H2 : (2 * (n / 2) <= n)%nat) by (apply Nat.mul_div_le; lia).
  assert (Q : at3 ERNum sp' p = fin3 v).
  { rewrite <- Hv. unfold at3. apply nth_indep.
    apply Nat.lt_le_trans with (1 := Hp). etransitivity; [exact H2|]. apply Nat.eq_le_incl. symmetry. exact L. }
  rewrite A in Q. exact (ltrot_unit _ _ _ _ _ _ _ _ _ p v Hp Q).
Qed.

(** ** Strong static fields: quiet runs never produce NaN *)
Lemma damped_nonzero g s om : unit3 s -> om <> vzero -> damped g s om <> vzero.
Proof.
  intros Hs Ho E. apply Ho, dot_zero. pose proof (damped_sq g s om Hs) as Q. rewrite E in Q.
  replace (dot vzero vzero) with 0 in Q by (unfold dot; cbn; ring).
  pose proof (sperp_nonneg s om Hs). pose proof (dot_nonneg om). pose proof (Rle_0_sqr g) as G. unfold Rsqr in G. nra.
Qed.

Section Strong.
Variables (n s : nat) (Jm : R).
Hypothesis Hn : (2 <= n)%nat.
Hypothesis He : (n mod 2 = 0)%nat.
Hypothesis HJ0 : 0 <= Jm.
Notation units S := (forall p, (p < n)%nat -> unit3 (S p)).

Lemma strong_lom sc g x S p :
  (forall i, (i < n)%nat -> Rabs (vx (J_ sc i)) <= Jm /\ Rabs (vy (J_ sc i)) <= Jm /\ Rabs (vz (J_ sc i)) <= Jm) ->
  (forall i, (i < n)%nat -> 2 * Jm + drive_amp (vars sc) < norm (h_ sc i)) ->
  units S -> (p < n)%nat -> lom n g vzero vzero S (J_ sc) (B_ sc s x) p <> vzero.
Proof.
  intros HJ Hh HS Hp.
  assert (O : om n S (cutJ n (J_ sc)) (B_ sc s x) p <> vzero).
  { set (sc0 := mkChain (upd (j_couple sc) (n - 1) vzero) (static_h sc) (spins sc) (t sc) (vars sc) (has_file sc)).
    assert (EJ : forall i, (i < n)%nat -> cutJ n (J_ sc) i = vzero \/ cutJ n (J_ sc) i = J_ sc i).
    { intros i Hi. unfold cutJ. destruct (i =? n - 1)%nat; auto. }
    assert (BJ : forall i, (i < n)%nat -> Rabs (vx (cutJ n (J_ sc) i)) <= Jm /\ Rabs (vy (cutJ n (J_ sc) i)) <= Jm /\ Rabs (vz (cutJ n (J_ sc) i)) <= Jm).
    { intros i Hi. destruct (EJ i Hi) as [->| ->]; [cbn; rewrite Rabs_R0; auto|auto]. }
    pose proof (lft_lt n p Hp) as Ll. pose proof (rgt_lt n p Hp) as Lr.
    intro E. set (a := vhad (cutJ n (J_ sc) (lft n p)) (S (lft n p))). set (b := vhad (cutJ n (J_ sc) p) (S (rgt n p))).
    assert (Ea : norm a <= Jm).
    { destruct (BJ (lft n p) Ll) as (A1 & A2 & A3).
      pose proof (norm_vhad_le _ (S (lft n p)) Jm HJ0 A1 A2 A3) as Q.
      rewrite (unit3_norm (S (lft n p))) in Q by auto. unfold a. lra. }
    assert (Eb : norm b <= Jm).
    { destruct (BJ p Hp) as (A1 & A2 & A3).
      pose proof (norm_vhad_le _ (S (rgt n p)) Jm HJ0 A1 A2 A3) as Q.
      rewrite (unit3_norm (S (rgt n p))) in Q by auto. unfold b. lra. }
    assert (EB : B_ sc s x p = vadd a b).
    { unfold om in E. fold a b in E. pose proof (f_equal vx E). pose proof (f_equal vy E). pose proof (f_equal vz E).
      cbn in *. apply v3_ext; cbn; lra. }
    assert (NB : norm (B_ sc s x p) <= 2 * Jm) by (rewrite EB; pose proof (norm_triangle a b); lra).
    assert (Nh : norm (h_ sc p) <= norm (B_ sc s x p) + drive_amp (vars sc)).
    { pose proof (drive_amp_ok (vars sc) x) as DA. pose proof (norm_ge0 (drive_field (vars sc) x)).
      unfold B_. destruct (p <? s)%nat; [|lra].
      set (f := drive_field (vars sc) x) in *.
      replace (h_ sc p) with (vsub (vadd (h_ sc p) f) f) at 1
        by (unfold vadd, vsub; destruct (h_ sc p), f; cbn; f_equal; ring).
      pose proof (norm_sub (vadd (h_ sc p) f) f). lra. }
    specialize (Hh p Hp). lra. }
  unfold lom. destruct (isend n p); [|assumption].
  replace (vsub (damped g (S p) (om n S (cutJ n (J_ sc)) (B_ sc s x) p)) (if (p =? 0)%nat then vzero else vzero))
      with (damped g (S p) (om n S (cutJ n (J_ sc)) (B_ sc s x) p)) by (destruct (p =? 0)%nat; apply v3_ext; cbn; ring).
  apply damped_nonzero; auto.
Qed.

Lemma lstage_ok g dt b (J B : nat -> vec) d (S : nat -> vec) : dt <> 0 -> units S ->
  (forall p, (p < n)%nat -> lom n g vzero vzero S J B p <> vzero) ->
  forall p, lstageF ERNum n (Some g) (Some dt) (fin3 vzero) (fin3 vzero) b (finF J) (finF B) (Some d) (finF S) p =
            fin3 (lstR n g vzero vzero b J B d S p).
Proof.
  intros Hdt HS H p. unfold lstageF, lstR. destruct (onsub n b p) eqn:E; [|reflexivity].
  apply onsub_spec in E. rewrite lom_ER by tauto.
  replace (vscale (/ dt) vzero) with vzero by (apply v3_ext; cbn; ring).
  refine (rotate_ER_R _ _ _ _ _); [apply unit3_nonzero, HS; tauto|apply H; tauto].
Qed.

Lemma lstep_strong sc g z : wf n s sc -> drive_ok (vars sc) -> unit_spins sc ->
  (forall i, (i < n)%nat -> Rabs (vx (J_ sc i)) <= Jm /\ Rabs (vy (J_ sc i)) <= Jm /\ Rabs (vz (J_ sc i)) <= Jm) ->
  (forall i, (i < n)%nat -> 2 * Jm + drive_amp (vars sc) < norm (h_ sc i)) ->
  c_dt (vars sc) <> 0 -> beta (vars sc) <> 0 -> 0 <= 2 * g * c_dt (vars sc) / beta (vars sc) ->
  quiet g z ->
  exists sc', lupdate ERNum (fst z) (snd z) (lfin sc g) = Ok (lfin sc' g) /\ wf n s sc' /\ unit_spins sc' /\
    vars sc' = vars sc /\ J_ sc' = J_ sc /\ h_ sc' = h_ sc.
Proof.
  intros W Hok Hu HJ Hh Hdt Hb Hr (a & b & -> & Hq). cbn [fst snd].
  assert (W' : wf n s (base (lfin sc g))) by (apply wf_fin; assumption).
  assert (Hhs : hs_ok (vars (base (lfin sc g)))) by (apply hs_ok_fin, drive_ok_hs, Hok).
  pose proof (lsigma_ok sc g Hb Hr) as Hs.
  destruct (lupdate_pure ERNum n s (fin3 a) (fin3 b) (lfin sc g) W' Hn Hhs Hs) as (sp' & E & L & A).
  destruct (lsigma_fin sc g Hs) as (_ & _ & ES). rewrite ES in A.
  set (dt := c_dt (vars sc)) in *. set (sg := sqrt (2 * g * dt / beta (vars sc))) in *.
  assert (Z : forall v, (g = 0 \/ v = vzero) ->
     v3map (fun z => nadd ERNum (nofZ ERNum 0) (nmul ERNum (Some sg) z)) (fin3 v) = fin3 vzero).
  { intros v Hv. unfold fin3, v3map. cbn [vx vy vz]. destruct Hv as [->| ->].
    - assert (sg = 0) by (unfold sg; rewrite Rmult_0_r, Rmult_0_l; unfold Rdiv; rewrite Rmult_0_l; apply sqrt_0).
      rewrite H. cbn. f_equal; f_equal; ring.
    - cbn. f_equal; f_equal; ring. }
  cbv zeta in A. rewrite (Z a), (Z b) in A by tauto. clear Z.
  change (base (lfin sc g)) with (fin sc) in *. change (gamma (lfin sc g)) with (Some g) in *.
  change (vars (fin sc)) with (config_map (@Some R) (vars sc)) in *. change (t (fin sc)) with (Some (t sc)) in *.
  cbn [config_map c_dt] in A.
  change (ndiv ERNum (Some (c_dt (vars sc))) (nofZ ERNum 2)) with (er_div (Some dt) (Some 2)) in A.
  rewrite er_div_ok in A by lra.
  change (nadd ERNum (Some (t sc)) (Some (c_dt (vars sc)))) with (Some (t sc + dt)) in A.
  rewrite h_extP_fin in A by assumption.
  replace (2 * (n / 2))%nat with n in A by (revert He; clear; intro; pose proof (Nat.div_mod n 2); lia).
  pose proof (proj1 (unit_spins_iff n s sc W) Hu) as U.
  set (B := B_ sc s (t sc + dt)) in *.
  set (S1 := lstR n g vzero vzero 0 (J_ sc) B (dt / 2) (S_ sc)).
  set (S2 := lstR n g vzero vzero 1 (J_ sc) B dt S1).
  assert (U1 : units S1) by (apply lst_unit; assumption).
  assert (U2 : units S2) by (apply lst_unit; assumption).
  assert (A' : forall p, at3 ERNum sp' p = fin3 (ltrR n g vzero vzero (J_ sc) B dt (S_ sc) p)).
  { intro p. rewrite A. unfold ltrotF.
    assert (ST : forall bb d (X : nat -> v3 (num ERNum)) (Y : nat -> vec), (forall q, X q = fin3 (Y q)) -> units Y ->
     (forall q, (q < n)%nat -> lom n g vzero vzero Y (J_ sc) B q <> vzero) -> forall q,
     lstageF ERNum n (Some g) (Some dt) (fin3 vzero) (fin3 vzero) bb (at3 ERNum (j_couple (fin sc)))
       (fieldF ERNum (fin sc) s (fin3 (drive_field (vars sc) (t sc + dt)))) (Some d) X q =
     fin3 (lstR n g vzero vzero bb (J_ sc) B d Y q)).
    { intros bb d X Y HXY HY HN q. rewrite <- (lstage_ok g dt bb (J_ sc) B d Y Hdt HY HN). apply lstageF_ext; auto using js_fin.
      intros; apply B_fin'. }
    apply (ST 0%nat (dt / 2) _ S2); [|assumption|intros; apply strong_lom; assumption]. intro q.
    apply (ST 1%nat dt _ S1); [|assumption|intros; apply strong_lom; assumption]. intro r.
    apply (ST 0%nat (dt / 2) _ (S_ sc)); [apply spins_fin|assumption|intros; apply strong_lom; assumption]. }
  set (sp := map (ltrR n g vzero vzero (J_ sc) B dt (S_ sc)) (seq 0 n)).
  assert (Lsp : length sp = n) by (unfold sp; rewrite map_length, seq_length; reflexivity).
  assert (Asp : forall p, (p < n)%nat -> at_ sp p = ltrR n g vzero vzero (J_ sc) B dt (S_ sc) p).
  { intros p Hp. unfold at_, sp. rewrite nth_map_seq by assumption. reflexivity. }
  set (sc' := mkChain (j_couple sc) (static_h sc) sp (t sc + dt) (vars sc) (has_file sc)).
  assert (W1 : wf n s sc') by (destruct W as [w1 w2 w3 w4 w5 w6 w7]; constructor; cbn; auto).
  exists sc'. split; [|split; [exact W1|split; [|auto]]].
  - assert (Esp : sp' = map (v3map Some) sp).
    { apply (fin3_list_ext n); auto. intros p Hp. rewrite A', Asp by assumption. reflexivity. }
    etransitivity; [exact E|]. rewrite Esp. reflexivity.
  - apply (proj2 (unit_spins_iff n s sc' W1)). intros p Hp. unfold S_, sc'. cbn [spins]. rewrite Asp by assumption.
    apply ltr_unit; assumption.
Qed.

Lemma lrun_strong g zs : Forall (quiet g) zs -> forall sc, wf n s sc -> drive_ok (vars sc) -> unit_spins sc ->
  (forall i, (i < n)%nat -> Rabs (vx (J_ sc i)) <= Jm /\ Rabs (vy (J_ sc i)) <= Jm /\ Rabs (vz (J_ sc i)) <= Jm) ->
  (forall i, (i < n)%nat -> 2 * Jm + drive_amp (vars sc) < norm (h_ sc i)) ->
  c_dt (vars sc) <> 0 -> beta (vars sc) <> 0 -> 0 <= 2 * g * c_dt (vars sc) / beta (vars sc) ->
  exists sc', lrun zs (lfin sc g) = Ok (lfin sc' g) /\ unit_spins sc'.
Proof.
  unfold lrun, lruns. induction 1 as [|z zs Hz _ IH]; intros sc W Hok Hu HJ Hh Hdt Hb Hr; cbn [foldM].
  - exists sc. auto.
  - destruct (lstep_strong sc g z W Hok Hu HJ Hh Hdt Hb Hr Hz) as (sc1 & E & W1 & U1 & V1 & J1 & H1).
    rewrite E. cbn [bind]. apply IH; rewrite ?V1, ?J1, ?H1; assumption.
Qed.
End Strong.

(** The default chain with strong fields and a tiny step meets the smallness bounds *)
Lemma end_bounds J B Jm Hm v : 0 <= Jm -> Rabs (vx J) <= Jm -> Rabs (vy J) <= Jm -> Rabs (vz J) <= Jm ->
  norm B <= Hm -> unit3 v -> norm (vsub (vhad J v) B) <= Jm + Hm.
Proof.
  intros H0 H1 H2 H3 HB Hv. pose proof (norm_vhad_le J v Jm H0 H1 H2 H3) as Q.
  rewrite (unit3_norm v Hv) in Q. pose proof (norm_sub (vhad J v) B). lra.
Qed.

(** ** One end spin *)
Lemma end_rotation g dt d j so h s s' : unit3 s -> dt <> 0 ->
  rotate ERNum (fin3 s) (end_omega ERNum (Some g) (Some dt) (fin3 vzero) (fin3 j) (fin3 so) (fin3 h) (fin3 s)) (Some d) = fin3 s' ->
  let om := vsub (vhad j so) h in
  damped g s om <> vzero /\ s' = rotate RNum s (damped g s om) d.
Proof.
  intros Hs Hdt H om. rewrite end_omega_fin in H by assumption.
  replace (vsub (damped g s (vsub (vhad j so) h)) (vscale (/ dt) vzero)) with (damped g s om) in H
    by (apply v3_ext; cbn; ring).
  apply rotate_ER_fin in H. tauto.
Qed.

(** Panics of the step on chains shorter than two sites *)
Lemma lupdate_short N n s zl zr (sc : lchain (num N)) : wf n s (base sc) -> (n < 2)%nat -> hs_ok (vars (base sc)) ->
  exists p, lupdate N zl zr sc = Panic p.
Proof.
  intros W Hn Hh. destruct (nfinite N (lsigma N sc)) eqn:Hf.
  2:{ exists Unwrap. apply (lupdate_nofinite N n s); assumption. }
  unfold lupdate; cbv zeta. rewrite h_ext_ok by assumption. cbn [bind].
  fold (lsigma N sc). unfold normal_new. rewrite Hf. cbn [bind].
  set (h := mapi _ 0 (static_h (base sc))).
  destruct W as [w1 w2 w3 w4 w5 w6 w7].
  destruct n as [|[|n]]; [| |lia]; unfold ltrotter, leven_omega.
  - destruct (j_couple (base sc)) eqn:EJ; [|discriminate]. exists IndexOOB. reflexivity.
  - destruct (j_couple (base sc)) eqn:EJ; [discriminate|].
    destruct (spins (base sc)) as [|a [|b l0]] eqn:ES; try discriminate. exists IndexOOB. reflexivity.
Qed.

Lemma lupdate_negative n s zl zr sc g : wf n s sc -> drive_ok (vars sc) ->
  beta (vars sc) = 0 \/ 2 * g * c_dt (vars sc) / beta (vars sc) < 0 ->
  lupdate ERNum zl zr (lfin sc g) = Panic Unwrap.
Proof.
  intros W Hok H. apply (lupdate_nofinite ERNum n s).
  - apply wf_fin; assumption.
  - apply hs_ok_fin, drive_ok_hs, Hok.
  - destruct (nfinite ERNum (lsigma ERNum (lfin sc g))) eqn:E; [|reflexivity].
    apply lsigma_fin in E. destruct E as (A & B & _). destruct H; [contradiction|lra].
Qed.

(** A step that is too long raises the energy *)
Lemma long_step : exists g dt j so h s s', unit3 s /\ 0 < g /\ 0 < dt /\
  rotate ERNum (fin3 s) (end_omega ERNum (Some g) (Some dt) (fin3 vzero) (fin3 j) (fin3 so) (fin3 h) (fin3 s)) (Some dt) = fin3 s' /\
  - dot s (vsub (vhad j so) h) < - dot s' (vsub (vhad j so) h).
Proof.
  pose proof PI_RGT_0. pose proof (sqrt_lt_R0 2 ltac:(lra)) as S2.
  set (d := 3 * (PI / 2) / sqrt 2). assert (Hd : 0 < d).
  { unfold d. apply Rmult_lt_0_compat; [lra|apply Rinv_0_lt_compat; assumption]. }
  set (s := mk3 1 0 0). set (j := mk3 0 0 1). set (so := mk3 0 0 1).
  set (om := vsub (vhad j so) vzero).
  assert (Hs : unit3 s) by (unfold unit3, s, dot; cbn; ring).
  assert (HF : damped 1 s om <> vzero).
  { intro E. apply (f_equal vz) in E. unfold om, s, j, so in E. cbn in E. lra. }
  exists 1, d, j, so, vzero, s, (rotate RNum s (damped 1 s om) d).
  split; [assumption|]. split; [lra|]. split; [assumption|]. split.
  - rewrite end_omega_fin by lra. fold om.
    replace (vsub (damped 1 s om) (vscale (/ d) vzero)) with (damped 1 s om) by (apply v3_ext; cbn; ring).
    apply rotate_ER_R; [apply unit3_nonzero|]; assumption.
  - fold om. rewrite damped_exact by assumption.
    assert (NF : norm (damped 1 s om) = sqrt 2).
    { unfold norm. f_equal. rewrite damped_sq by assumption. unfold om, s, j, so, dot; cbn. ring. }
    rewrite NF. replace (sqrt 2 * d) with (3 * (PI / 2)) by (unfold d; field; lra).
    rewrite sin_3PI2. replace (dot s om) with 0 by (unfold om, s, j, so, dot; cbn; ring).
    replace (dot om om) with 1 by (unfold om, s, j, so, dot; cbn; ring).
    assert (0 < 1 * (1 - 0 * 0) / sqrt 2) by (apply Rmult_lt_0_compat; [lra|apply Rinv_0_lt_compat; assumption]).
    unfold Rdiv at 2. rewrite !Rmult_0_r, Rmult_0_l. lra.
Qed.

(** ** Frame, any number type *)
Lemma iter_shift {A} (f : A -> A) k x : Nat.iter k f (f x) = f (Nat.iter k f x).
Proof.
  induction k; [reflexivity|]. change (Nat.iter (S k) f (f x)) with (f (Nat.iter k f (f x))).
  rewrite IHk. reflexivity.
Qed.

Lemma lruns_frame N n s zs : forall (sc : lchain (num N)), wf n s (base sc) -> (2 <= n)%nat ->
  hs_ok (vars (base sc)) -> nfinite N (lsigma N sc) = true ->
  exists sp', lruns N zs sc = Ok (mkL (mkChain (j_couple (base sc)) (static_h (base sc)) sp'
     (Nat.iter (length zs) (fun x => nadd N x (c_dt (vars (base sc)))) (t (base sc))) (vars (base sc)) (has_file (base sc)))
     (gamma sc)) /\ length sp' = n /\
     forall p, (2 * (n / 2) <= p)%nat -> nth_error sp' p = nth_error (spins (base sc)) p.
Proof.
  unfold lruns. induction zs as [|z zs IH]; intros sc W Hn Hh Hf.
  - exists (spins (base sc)). split; [|split; [apply (wf_spins _ _ _ W)|reflexivity]].
    cbn. destruct sc as [[] g]. reflexivity.
  - cbn [foldM]. destruct (lupdate_pure N n s (fst z) (snd z) sc W Hn Hh Hf) as (sp1 & E & L & A).
    rewrite E. cbn [bind].
    match type of E with _ = Ok ?c => set (sc1 := c) in * end.
    assert (W1 : wf n s (base sc1)) by (destruct W as [w1 w2 w3 w4 w5 w6 w7]; constructor; cbn; auto).
    destruct (IH sc1 W1 Hn Hh Hf) as (sp' & E' & L' & A'). exists sp'. split; [|split; [assumption|]].
    + rewrite E'. cbn [length]. unfold sc1; cbn [base gamma j_couple static_h vars has_file t].
      rewrite (iter_shift (fun x => nadd N x (c_dt (vars (base sc)))) (length zs) (t (base sc))). reflexivity.
    + intros p Hp. rewrite A' by assumption. unfold sc1; cbn [base spins].
      destruct (Nat.lt_ge_cases p n) as [Hlt|Hge].
      * specialize (A p). rewrite (ltrotF_out N) in A by assumption. unfold at3 in A.
        rewrite !(nth_error_nth' _ (z3 N)) by (rewrite ?L, ?(wf_spins _ _ _ W); assumption).
        f_equal. exact A.
      * rewrite !(proj2 (nth_error_None _ _)); [reflexivity| |]; rewrite ?L, ?(wf_spins _ _ _ W); assumption.
Qed.

(** ** A chain with strong fields *)
Lemma strong_lruns s dr g zs : (s <= 4)%nat -> 0 <= g -> Forall (quiet g) zs ->
  exists sc', lrun zs (lfin (strong_chain (Z.of_nat s) dr) g) = Ok (lfin sc' g) /\ unit_spins sc'.
Proof.
  intros Hs Hg Hz. apply (lrun_strong 4 s 2); try lia; try lra; auto.
  - apply strong_wf; assumption.
  - apply ex_drive.
  - apply ex_unit.
  - intros [|[|[|[|i]]]] Hi; try lia; cbn; repeat split; apply Rabs_le; lra.
  - assert (A : drive_amp (vars (strong_chain (Z.of_nat s) dr)) <= 2).
    { destruct dr; cbn; try lra.
      - apply Rmax_lub; [lra|]. apply Rabs_le; lra.
      - apply norm_le_sq; [lra|]. unfold dot; cbn. lra. }
    intros i Hi. apply Rlt_le_trans with 10; [lra|]. apply norm_ge_comp.
    destruct i as [|[|[|[|i]]]]; try lia; cbn.
    + left. rewrite Rabs_right; lra.
    + right; left. rewrite Rabs_right; lra.
    + right; right. rewrite Rabs_right; lra.
    + left. rewrite Rabs_right; lra.
  - cbn. lra.
  - cbn. lra.
  - cbn. lra.
Qed.

Lemma lrun_dissipate_b n s x Jm Hm k sc sc' g g' : wf n s sc -> (2 <= n)%nat -> (n mod 2 = 0)%nat -> drive_ok (vars sc) ->
  unit_spins sc -> undriven (vars sc) -> 0 <= g -> 0 < c_dt (vars sc) -> 0 <= Jm ->
  (forall i, i = 0%nat \/ i = (n - 2)%nat ->
     Rabs (vx (J_ sc i)) <= Jm /\ Rabs (vy (J_ sc i)) <= Jm /\ Rabs (vz (J_ sc i)) <= Jm) ->
  norm (B_ sc s x 0) <= Hm -> norm (B_ sc s x (n - 1)) <= Hm ->
  sqrt (1 + g * g) * (Jm + Hm) * c_dt (vars sc) <= PI / 2 -> g * (Jm + Hm) * c_dt (vars sc) <= 1 ->
  lrun (repeat (fin3 vzero, fin3 vzero) k) (lfin sc g) = Ok (lfin sc' g') ->
  open_energy n (S_ sc') (J_ sc') (B_ sc' s x) <= open_energy n (S_ sc) (J_ sc) (B_ sc s x).
Proof.
  intros W Hn He Hok Hu Hd Hg Hdt HJ0 HJ HB0 HB1 Hs1 Hs2 H.
  apply (lrun_dissipate n s x (Jm + Hm) k sc sc' g g'); auto.
  - intros v Hv. destruct (HJ 0%nat (or_introl eq_refl)) as (A1 & A2 & A3). apply end_bounds; auto.
  - intros v Hv. destruct (HJ (n - 2)%nat (or_intror eq_refl)) as (A1 & A2 & A3). apply end_bounds; auto.
Qed.

Lemma end_exact g dt d j so h s s' : unit3 s -> dt <> 0 ->
  rotate ERNum (fin3 s) (end_omega ERNum (Some g) (Some dt) (fin3 vzero) (fin3 j) (fin3 so) (fin3 h) (fin3 s)) (Some d) = fin3 s' ->
  let om := vsub (vhad j so) h in
  let f := norm (damped g s om) in
  dot s' om - dot s om =
    g * (dot om om - dot s om * dot s om) / f * (sin (f * d) - (1 - cos (f * d)) * (g * dot s om) / f).
Proof.
  intros Hs Hdt H om f. destruct (end_rotation g dt d j so h s s' Hs Hdt H) as [HF ->]. fold om in HF.
  fold om. rewrite damped_exact by assumption. unfold f. ring.
Qed.

Lemma end_le g dt d j so h s s' : unit3 s -> dt <> 0 -> 0 <= g -> 0 <= d ->
  let om := vsub (vhad j so) h in
  norm (damped g s om) * d <= PI / 2 -> g * norm om * d <= 1 ->
  rotate ERNum (fin3 s) (end_omega ERNum (Some g) (Some dt) (fin3 vzero) (fin3 j) (fin3 so) (fin3 h) (fin3 s)) (Some d) = fin3 s' ->
  - dot s' om <= - dot s om.
Proof.
  intros Hs Hdt Hg Hd om H1 H2 H. destruct (end_rotation g dt d j so h s s' Hs Hdt H) as [HF ->].
  fold om in HF. fold om. pose proof (damp_le g d s om Hs Hg Hd HF H1 H2). lra.
Qed.

Lemma end_lt g dt d j so h s : unit3 s -> dt <> 0 -> 0 < g -> 0 < d ->
  let om := vsub (vhad j so) h in
  cross s om <> vzero -> norm (damped g s om) * d < PI / 2 -> g * norm om * d < 1 ->
  exists s', rotate ERNum (fin3 s) (end_omega ERNum (Some g) (Some dt) (fin3 vzero) (fin3 j) (fin3 so) (fin3 h) (fin3 s)) (Some d) = fin3 s' /\
  unit3 s' /\ - dot s' om < - dot s om.
Proof.
  intros Hs Hdt Hg Hd om HX H1 H2. exists (rotate RNum s (damped g s om) d).
  split; [|split].
  - rewrite end_omega_fin by assumption. fold om.
    replace (vsub (damped g s om) (vscale (/ dt) vzero)) with (damped g s om) by (apply v3_ext; cbn; ring).
    apply rotate_ER_R; [apply unit3_nonzero; assumption|].
    apply damped_nonzero; [assumption|]. intro E. apply HX. rewrite E. apply v3_ext; cbn; ring.
  - apply rotate_R_nrm_unit; assumption.
  - pose proof (damp_lt g d s om Hs Hg Hd HX H1 H2). lra.
Qed.
