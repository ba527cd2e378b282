(** Rounding-error analysis of the dynamical step in binary64. *)
From Coq Require Import ZArith Reals List Lia Lra Psatz Bool Arith.
From Coq Require Import Floats.SpecFloat.
From Flocq Require Import Core.
From Verif Require Import Num Monad NumF64 Spin Config Chain SpecVec SpecChain SpecRound ProofsFlocq ProofsRound ProofsChain ProofsDyn ProofsDynR.
Import ListNotations.
Local Open Scope R_scope.

Lemma near_comp s : near_unit (1 / 8) s -> comp_le (11 / 10) s.
Proof.
  intros [_ H]. rewrite len2_fval in H. unfold comp_le. rewrite !value_fval.
  assert (fval (vx s) * fval (vx s) + fval (vy s) * fval (vy s) + fval (vz s) * fval (vz s) <= 9 / 8).
  { unfold Rabs in H. destruct (Rcase_abs _) in H; lra. }
  repeat split; apply abs_of_sq; nra.
Qed.

Lemma om_comp jl sl jr sr h : is_number jl -> is_number sl -> is_number jr -> is_number sr -> is_number h ->
  Rabs (value jl) <= 1 -> Rabs (value jr) <= 1 -> Rabs (value sl) <= 11 / 10 -> Rabs (value sr) <= 11 / 10 -> Rabs (value h) <= 9 ->
  let w := f_sub (f_add (f_mul jl sl) (f_mul jr sr)) h in
  is_number w /\ Rabs (value w) <= 12 /\ Rabs (value h) - 3 <= Rabs (value w).
Proof.
  rewrite !value_fval. intros V1 V2 V3 V4 V5 B1 B2 B3 B4 B5. cbv zeta. pose proof ee_small as E.
  assert (P1 : app (f_mul jl sl) (fval jl * fval sl) ee) by (apply (app_mul _ _ _ _ 0 0 1 (11 / 10)); auto using app_exact; lra).
  assert (P2 : app (f_mul jr sr) (fval jr * fval sr) ee) by (apply (app_mul _ _ _ _ 0 0 1 (11 / 10)); auto using app_exact; lra).
  assert (Q1 : Rabs (fval jl * fval sl) <= 11 / 10).
  { rewrite Rabs_mult. pose proof (Rabs_pos (fval jl)). pose proof (Rabs_pos (fval sl)). nra. }
  assert (Q2 : Rabs (fval jr * fval sr) <= 11 / 10).
  { rewrite Rabs_mult. pose proof (Rabs_pos (fval jr)). pose proof (Rabs_pos (fval sr)). nra. }
  assert (A := app_add _ _ _ _ _ _ P1 P2 ltac:(lra)).
  pose proof (Rabs_triang (fval jl * fval sl) (fval jr * fval sr)) as T.
  assert (D := app_sub _ _ _ _ _ _ A (app_exact h V5) ltac:(lra)).
  split; [apply D|]. destruct D as [_ D]. rewrite value_fval.
  set (w := fval (f_sub _ h)) in *. set (q := fval jl * fval sl + fval jr * fval sr) in *.
  assert (D' : - / 10 <= w - (q - fval h) <= / 10) by (unfold Rabs in D at 1; destruct (Rcase_abs (w - (q - fval h))); lra).
  assert (Q : -22 / 10 <= q <= 22 / 10) by (unfold Rabs in T at 1; destruct (Rcase_abs q); lra).
  clearbody w q. clear - D' Q B5. unfold Rabs in *. destruct (Rcase_abs w), (Rcase_abs (fval h)); lra.
Qed.

Lemma mid_of w : is_vector w -> comp_le 12 w -> 1 <= Rabs (value (vz w)) -> mid_range w.
Proof.
  intros V (B1 & B2 & B3) B4. split; [exact V|]. unfold len2, vvalue, dot; cbn [vx vy vz].
  assert (Q : forall r, Rabs r <= 12 -> 0 <= r * r <= 144).
  { intros r Hr. split; [nra|]. unfold Rabs in Hr. destruct (Rcase_abs r); nra. }
  assert (Q1 : 1 <= value (vz w) * value (vz w)) by (unfold Rabs in B4; destruct (Rcase_abs (value (vz w))); nra).
  pose proof (Q _ B1). pose proof (Q _ B2). pose proof (Q _ B3). rewrite !pow_bpow.
  split.
  - apply Rle_trans with (bpow radix2 0); [apply bpow_le; lia|cbn; lra].
  - apply Rle_trans with (bpow radix2 9); [cbn; lra|apply bpow_le; lia].
Qed.

Section Step.
Context (L : libm) (HL : sane L) (M : nat) (J h : nat -> v3 f64).
Context (HJ : forall p, (p < M)%nat -> is_vector (J p) /\ comp_le 1 (J p)).
Context (Hh : forall p, (p < M)%nat -> is_vector (h p) /\ comp_le 9 (h p) /\ 4 <= Rabs (value (vz (h p)))).

Lemma omF_mid S p : (p < M)%nat -> (forall q, (q < M)%nat -> near_unit (1 / 8) (S q)) -> mid_range (omF (F64 L) M S J h p).
Proof.
  intros Hp HS. pose proof (lft_lt M p Hp) as Ll. pose proof (rgt_lt M p Hp) as Lr.
  destruct (HJ _ Ll) as ((Jx & Jy & Jz) & (Bx & By & Bz)). destruct (HJ _ Hp) as ((Kx & Ky & Kz) & (Cx & Cy & Cz)).
  destruct (Hh _ Hp) as ((hx & hy & hz) & (Dx & Dy & Dz) & D4).
  pose proof (HS _ Ll) as NL. pose proof (HS _ Lr) as NR.
  destruct (near_comp _ NL) as (Sx & Sy & Sz). destruct (near_comp _ NR) as (Tx & Ty & Tz).
  destruct NL as ((Vx & Vy & Vz) & _). destruct NR as ((Wx & Wy & Wz) & _).
  unfold omF, ssh_sum, j_s; cbn [vx vy vz nadd nsub nmul F64].
  destruct (om_comp (vx (J (lft M p))) (vx (S (lft M p))) (vx (J p)) (vx (S (rgt M p))) (vx (h p))) as (A1 & A2 & A3); auto.
  destruct (om_comp (vy (J (lft M p))) (vy (S (lft M p))) (vy (J p)) (vy (S (rgt M p))) (vy (h p))) as (A4 & A5 & A6); auto.
  destruct (om_comp (vz (J (lft M p))) (vz (S (lft M p))) (vz (J p)) (vz (S (rgt M p))) (vz (h p))) as (A7 & A8 & A9); auto.
  apply mid_of; [split; [exact A1|split; [exact A4|exact A7]]|split; [exact A2|split; [exact A5|exact A8]]|].
  eapply Rle_trans; [|exact A9]. lra.
Qed.

Lemma stage_near b dt S : is_number dt -> Rabs (value dt) <= powerRZ 2 500 ->
  (forall q, (q < M)%nat -> near_unit (1 / 8) (S q)) ->
  forall p, (p < M)%nat -> near_unit (1 / 8) (stageF (F64 L) M b J h dt S p) /\
    ((p mod 2)%nat = b -> near_unit (powerRZ 2 (-50)) (stageF (F64 L) M b J h dt S p)).
Proof.
  intros V B HS p Hp. unfold stageF. destruct (onsub M b p) eqn:E.
  - assert (N : near_unit (powerRZ 2 (-50)) (rotate (F64 L) (S p) (omF (F64 L) M S J h p) dt)).
    { apply rotate_near; auto. apply omF_mid; auto. }
    split; [apply (near_weak _ _ _ N eps_small)|intros _; exact N].
  - split; [now apply HS|]. intro E'. exfalso. assert (onsub M b p = true) by (apply onsub_spec; auto). congruence.
Qed.

Lemma stage_keep b dt S p : onsub M b p = false -> stageF (F64 L) M b J h dt S p = S p.
Proof. intro E. unfold stageF. now rewrite E. Qed.

Lemma trot_near dt2 dt S : is_number dt -> Rabs (value dt) <= powerRZ 2 500 -> is_number dt2 -> Rabs (value dt2) <= powerRZ 2 500 ->
  (forall q, (q < M)%nat -> near_unit (1 / 8) (S q)) ->
  forall p, (p < M)%nat -> near_unit (powerRZ 2 (-50)) (trotF (F64 L) M J h dt2 dt S p).
Proof.
  intros V B V2 B2 HS p Hp. unfold trotF.
  set (S1 := stageF (F64 L) M 0 J h dt2 S). set (S2 := stageF (F64 L) M 1 J h dt S1).
  assert (H1 : forall q, (q < M)%nat -> near_unit (1 / 8) (S1 q)) by (intros q Hq; apply stage_near; auto).
  assert (H2 : forall q, (q < M)%nat -> near_unit (1 / 8) (S2 q)) by (intros q Hq; apply stage_near; auto).
  destruct (Nat.eq_dec (p mod 2) 0) as [E|E].
  - apply (proj2 (stage_near 0 dt2 S2 V2 B2 H2 p Hp) E).
  - rewrite stage_keep.
    + assert (E1 : (p mod 2 = 1)%nat) by (pose proof (Nat.mod_upper_bound p 2 ltac:(lia)); lia).
      apply (proj2 (stage_near 1 dt S1 V B H1 p Hp) E1).
    + destruct (onsub M 0 p) eqn:O; [|reflexivity]. apply onsub_spec in O. tauto.
Qed.
End Step.

Lemma add_zero h : is_vector h -> comp_le 8 h -> 4 <= Rabs (value (vz h)) -> forall L,
  let v := sum_vec (F64 L) h (mk3 (f_ofZ 0) (f_ofZ 0) (f_ofZ 0)) in
  is_vector v /\ comp_le 9 v /\ 4 <= Rabs (value (vz v)).
Proof.
  intros (Vx & Vy & Vz) (Bx & By & Bz) B4 L. cbv zeta. unfold sum_vec; cbn [vx vy vz nadd F64].
  destruct (ofZ_val 0 ltac:(lia)) as [V0 E0].
  assert (Q : forall x, is_number x -> is_number (f_add x (f_ofZ 0)) /\ value (f_add x (f_ofZ 0)) = value x).
  { intros x V. rewrite !value_fval. assert (R : rnd (fval x + fval (f_ofZ 0)) = fval x) by (rewrite E0, Rplus_0_r; now apply rnd_fval).
    destruct (add_val x (f_ofZ 0) V V0) as [A B].
    - rewrite R. destruct (vfin_B x V) as (b & -> & _). rewrite B_fval. apply BinarySingleNaN.abs_B2R_lt_emax.
    - split; [exact A|]. now rewrite B. }
  destruct (Q _ Vx) as [X1 X2]. destruct (Q _ Vy) as [Y1 Y2]. destruct (Q _ Vz) as [Z1 Z2].
  split; [split; [exact X1|split; [exact Y1|exact Z1]]|]. 
  change ((Rabs (value (f_add (vx h) (f_ofZ 0))) <= 9 /\ Rabs (value (f_add (vy h) (f_ofZ 0))) <= 9 /\
           Rabs (value (f_add (vz h) (f_ofZ 0))) <= 9) /\ 4 <= Rabs (value (f_add (vz h) (f_ofZ 0)))).
  rewrite X2, Y2, Z2. lra.
Qed.

Lemma half_ok dt : is_number dt -> Rabs (value dt) <= powerRZ 2 500 ->
  is_number (f_div dt (f_ofZ 2)) /\ Rabs (value (f_div dt (f_ofZ 2))) <= powerRZ 2 500.
Proof.
  intros V B. rewrite !value_fval, pow_bpow in *. destruct (ofZ_val 2 ltac:(lia)) as [V2 E2].
  assert (H : Rabs (fval dt / fval (f_ofZ 2)) <= bpow radix2 500 / 2).
  { rewrite E2. unfold Rdiv. rewrite Rabs_mult, (Rabs_pos_eq (/ 2)) by lra. lra. }
  destruct (div_val dt (f_ofZ 2) V V2) as [W E].
  - rewrite E2. lra.
  - apply fmax_big. eapply Rle_trans; [exact H|]. apply Rle_trans with (bpow radix2 500); [pose proof (bpow_gt_0 radix2 500); lra|apply bpow_le; lia].
  - split; [exact W|]. rewrite E. pose proof (rnd_err (fval dt / fval (f_ofZ 2))) as Er.
    set (q := fval dt / fval (f_ofZ 2)) in *.
    pose proof (Rabs_triang (rnd q - q) q) as T. replace (rnd q - q + q) with (rnd q) in T by ring.
    assert (eta <= / 4 * bpow radix2 500).
    { change (/ 4) with (bpow radix2 (-2)). rewrite <- bpow_plus. unfold eta. apply bpow_le. lia. }
    pose proof (bpow_gt_0 radix2 500). rewrite u_val in Er. lra.
Qed.

Lemma h_extP_none L (c : config f64) tt : drive c = Dnone -> h_extP (F64 L) c tt = mk3 (f_ofZ 0) (f_ofZ 0) (f_ofZ 0).
Proof. unfold h_extP, h_ext. intro Hd. destruct c; cbn in *. subst. reflexivity. Qed.

Lemma update_near L n s sc : sane L -> wf n s sc -> (2 <= n)%nat -> drive (vars sc) = Dnone -> strong_sites sc ->
  is_number (c_dt (vars sc)) -> Rabs (value (c_dt (vars sc))) <= powerRZ 2 500 ->
  Forall (near_unit (1 / 8)) (spins sc) ->
  exists sp', update (F64 L) sc = Ok (mkChain (j_couple sc) (static_h sc) sp' (f_add (t sc) (c_dt (vars sc))) (vars sc) (has_file sc)) /\
    length sp' = n /\ Forall (near_unit (1 / 8)) sp' /\
    forall p, (p < 2 * (n / 2))%nat -> near_unit (powerRZ 2 (-50)) (at3 (F64 L) sp' p).
Proof.
  intros HL W Hn Hd [HJ Hh] Vdt Bdt HS.
  assert (Hok : hs_ok (vars sc)) by (unfold hs_ok; rewrite Hd; discriminate).
  destruct (update_pure (F64 L) n s sc W Hn Hok) as (sp' & E & Len & A). exists sp'. split; [exact E|]. split; [exact Len|].
  pose proof (Nat.div_mod n 2 ltac:(lia)) as DM.
  assert (G : forall T (P : T -> Prop) (l : list T) d i, Forall P l -> (i < length l)%nat -> P (nth i l d)).
  { intros T P l d i F Hi. rewrite Forall_forall in F. apply F, nth_In, Hi. }
  assert (N : forall p, (p < 2 * (n / 2))%nat -> near_unit (powerRZ 2 (-50)) (at3 (F64 L) sp' p)).
  { intros p Hp. rewrite A. destruct (half_ok _ Vdt Bdt) as [V2 B2].
    apply trot_near; auto.
    - intros q Hq. apply (G _ _ _ _ _ HJ). rewrite (wf_js _ _ _ W). lia.
    - intros q Hq. assert (Hq' : (q < length (static_h sc))%nat) by (rewrite (wf_hs _ _ _ W); lia).
      pose proof (G _ _ _ (z3 (F64 L)) _ Hh Hq') as (H1 & H2 & H3). unfold fieldF, at3.
      destruct (q <? s)%nat.
      + rewrite (h_extP_none L (vars sc) _ Hd). apply add_zero; assumption.
      + split; [exact H1|]. split; [|exact H3]. destruct H2 as (K1 & K2 & K3). split; [|split]; (eapply Rle_trans; [eassumption|lra]).
    - intros q Hq. apply (G _ _ _ _ _ HS). rewrite (wf_spins _ _ _ W). lia. }
  split; [|exact N].
  apply Forall_forall. intros v Hv. apply (In_nth _ _ (z3 (F64 L))) in Hv. destruct Hv as (p & Hp & <-).
  rewrite Len in Hp. destruct (Nat.lt_ge_cases p (2 * (n / 2))) as [Hlt|Hge].
  - apply (near_weak _ _ _ (N p Hlt) eps_small).
  - specialize (A p). unfold at3 at 1 in A. rewrite A. unfold trotF.
    rewrite !stage_keep by (destruct (onsub _ _ _) eqn:O; [apply onsub_spec in O; lia|reflexivity]).
    apply (G _ _ _ _ _ HS). rewrite (wf_spins _ _ _ W). lia.
Qed.

Lemma updates_near L n s k : forall sc, sane L -> wf n s sc -> (2 <= n)%nat -> drive (vars sc) = Dnone -> strong_sites sc ->
  is_number (c_dt (vars sc)) -> Rabs (value (c_dt (vars sc))) <= powerRZ 2 500 ->
  Forall (near_unit (1 / 8)) (spins sc) ->
  exists sc' : chain f64, iterM (update (F64 L)) k sc = Ok sc' /\ Forall (near_unit (1 / 8)) (spins sc') /\
    ((1 <= k)%nat -> forall p, (p < 2 * (n / 2))%nat -> near_unit (powerRZ 2 (-50)) (nth p (spins sc') (mk3 S754_nan S754_nan S754_nan))).
Proof.
  induction k as [|k IH]; intros sc HL W Hn Hd Hst Vdt Bdt HS.
  - exists sc. split; [reflexivity|]. split; [exact HS|]. lia.
  - destruct (update_near L n s sc HL W Hn Hd Hst Vdt Bdt HS) as (sp' & E & Len & F & N).
    cbn [iterM]. rewrite E. cbn [bind].
    set (sc1 := mkChain (j_couple sc) (static_h sc) sp' (f_add (t sc) (c_dt (vars sc))) (vars sc) (has_file sc)).
    assert (W1 : wf n s sc1) by (destruct W; constructor; cbn; auto).
    destruct (IH sc1 HL W1 Hn Hd Hst Vdt Bdt F) as (sc2 & E2 & F2 & N2).
    exists sc2. split; [exact E2|]. split; [exact F2|]. intros _ p Hp.
    destruct k as [|k]; [|apply N2; [lia|exact Hp]].
    cbn [iterM] in E2. injection E2 as <-. unfold sc1; cbn [spins]. rewrite (nth_indep _ _ (z3 (F64 L))).
    + apply N; exact Hp.
    + change (p < length sp')%nat. rewrite Len. pose proof (Nat.div_mod n 2 ltac:(lia)). lia.
Qed.

Lemma one_le_pow : 1 <= powerRZ 2 500.
Proof. rewrite pow_bpow. apply (bpow_le radix2 0 500). lia. Qed.
