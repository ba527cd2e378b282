(** The spins that the program makes in binary64. *)
From Coq Require Import ZArith Reals List Lia Lra Psatz Bool Arith.
From Coq Require Import Floats.SpecFloat.
From Flocq Require Import Core.
From Verif Require Import Num Monad NumR NumF64 Spin Config Chain SpecVec SpecChain SpecRound SpecClose SpecKeep SpecMC SpecMade
  ProofsFlocq ProofsRound ProofsRound2 ProofsF64 ProofsChain ProofsSpin ProofsDyn ProofsMC ProofsMCR5 ProofsMCF64 ProofsClose ProofsClose4 ProofsTiny ProofsKeep ProofsKeep2 ProofsNew ProofsMade.
Import ListNotations.
Local Open Scope R_scope.

Lemma p44 : powerRZ 2 (-44) = 512 * u. Proof. rewrite pow_bpow, u_val. cbn. lra. Qed.

(** a spin from two angles that are numbers *)
Lemma angles_near L th ph : accurate L -> is_number th -> is_number ph -> near_unit (powerRZ 2 (-44)) (new_from_angles (F64 L) th ph).
Proof.
  intros HL Vt Vp. destruct (HL _ Vt) as (V1 & V2 & B1 & B2 & E1 & E2). destruct (HL _ Vp) as (V3 & V4 & B3 & B4 & E3 & E4).
  rewrite !value_fval in *. rewrite u50 in E1, E2, E3, E4. set (a := fval th) in *. set (b := fval ph) in *. assert (U := u_val).
  assert (E32 : ee = 32 * u) by (rewrite ee_val, U; lra).
  pose proof (cos_abs1 a) as C1. pose proof (cos_abs1 b) as C2. assert (S1 : Rabs (sin a) <= 1) by (apply Rabs_le; apply SIN_bound). assert (S2 : Rabs (sin b) <= 1) by (apply Rabs_le; apply SIN_bound).
  assert (A1 : app (f_mul (l_cos L th) (l_sin L ph)) (cos a * sin b) (49 * u)).
  { apply (app_mul _ _ _ _ (8 * u) (8 * u) 1 1); auto; try (split; assumption); rewrite ?E32, U; lra. }
  assert (A2 : app (f_mul (l_sin L th) (l_sin L ph)) (sin a * sin b) (49 * u)).
  { apply (app_mul _ _ _ _ (8 * u) (8 * u) 1 1); auto; try (split; assumption); rewrite ?E32, U; lra. }
  unfold new_from_angles; cbn [num ncos nsin nmul F64]. destruct A1 as [W1 A1]. destruct A2 as [W2 A2].
  split; [split; [exact W1|split; [exact W2|exact V3]]|]. rewrite len2_fval, p44. cbn [vx vy vz].
  pose proof (sin2_cos2 a) as Pa. pose proof (sin2_cos2 b) as Pb. unfold Rsqr in Pa, Pb.
  set (x := fval (f_mul (l_cos L th) (l_sin L ph))) in *. set (y := fval (f_mul (l_sin L th) (l_sin L ph))) in *. set (z := fval (l_cos L ph)) in *.
  assert (Q : forall w r d, Rabs (w - r) <= d -> Rabs r <= 1 -> 0 <= d <= 49 * u -> Rabs (w * w - r * r) <= 2 * d + u).
  { intros w r d H1 H2 H3. replace (w * w - r * r) with ((w - r) * (w - r) + 2 * r * (w - r)) by ring.
    eapply Rle_trans; [apply Rabs_triang|]. rewrite !Rabs_mult, (Rabs_pos_eq 2) by lra. pose proof (Rabs_pos (w - r)). pose proof (Rabs_pos r).
    assert (Rabs (w - r) * Rabs (w - r) <= d * d) by (apply Rmult_le_compat; lra).
    assert (d * d <= 49 * u * (49 * u)) by (apply Rmult_le_compat; lra). rewrite U in *.
    assert (2 * Rabs r * Rabs (w - r) <= 2 * 1 * d) by (apply Rmult_le_compat; lra). lra. }
  assert (M1 : Rabs (cos a * sin b) <= 1) by (rewrite Rabs_mult; pose proof (Rabs_pos (cos a)); pose proof (Rabs_pos (sin b)); nra).
  assert (M2 : Rabs (sin a * sin b) <= 1) by (rewrite Rabs_mult; pose proof (Rabs_pos (sin a)); pose proof (Rabs_pos (sin b)); nra).
  pose proof (Q x _ _ A1 M1 ltac:(rewrite U; lra)) as Q1. pose proof (Q y _ _ A2 M2 ltac:(rewrite U; lra)) as Q2. pose proof (Q z _ _ E3 C2 ltac:(rewrite U; lra)) as Q3.
  assert (I : (cos a * sin b) * (cos a * sin b) + (sin a * sin b) * (sin a * sin b) + cos b * cos b = 1).
  { replace ((cos a * sin b) * (cos a * sin b) + (sin a * sin b) * (sin a * sin b)) with ((sin a * sin a + cos a * cos a) * (sin b * sin b)) by ring. rewrite Pa. lra. }
  rewrite <- I. apply Rabs_le_inv in Q1. apply Rabs_le_inv in Q2. apply Rabs_le_inv in Q3. apply Rabs_le. rewrite U in *. lra.
Qed.

Lemma rnd_mono a b : a <= b -> rnd a <= rnd b.
Proof. intro H. apply round_le; [apply FLT_exp_valid; reflexivity|apply valid_rnd_N|exact H]. Qed.
(** proposals of the samplers *)
Lemma propose_near L u1 u2 : proper L -> uniform u1 -> uniform u2 -> near_unit (powerRZ 2 (-44)) (propose (F64 L) u1 u2).
Proof.
  intros (HL & _ & _ & _ & _ & _ & _ & _ & HA) [V1 B1] [V2 B2]. unfold propose. rewrite value_fval in B1, B2.
  apply angles_near; [exact HL| |].
  - cbn [num nmul npi nofZ F64]. destruct two_pi_close as (Vp & Ep & _). rewrite value_fval in Ep. pose proof PI_4. pose proof PI2_1.
    assert (U := u_val). rewrite U in Ep. apply Rabs_le_inv in Ep.
    apply (mul_val _ _ Vp V1). apply fmax_big. rewrite Rabs_mult, !Rabs_pos_eq by lra.
    apply Rle_trans with 16; [nra|]. apply (bpow_le radix2 4 1000). lia.
  - cbn [num nacos nsub nmul nofZ F64]. destruct (ofZ_val 1 ltac:(lia)) as [W1 O1]. destruct (ofZ_val 2 ltac:(lia)) as [W2 O2].
    assert (Y : vfin (f_mul (f_ofZ 2) u2) /\ 0 <= fval (f_mul (f_ofZ 2) u2) <= 2).
    { destruct (mul_val (f_ofZ 2) u2 W2 V2) as [V E].
      { apply fmax_big. rewrite O2, Rabs_pos_eq by lra. apply Rle_trans with 2; [lra|]. apply (bpow_le radix2 1 1000). lia. }
      split; [exact V|]. rewrite E, O2. split; [apply rnd_ge0; lra|]. eapply Rle_trans; [apply (rnd_mono _ 2); lra|]. rewrite rnd_IZR by (cbn; lia). lra. }
    destruct Y as [VY BY]. set (y := f_mul (f_ofZ 2) u2) in *.
    destruct (sub_val (f_ofZ 1) y W1 VY) as [VZ EZ].
    { apply fmax_big. rewrite O1. apply Rle_trans with 1; [apply Rabs_le; lra|]. apply (bpow_le radix2 0 1000). lia. }
    apply HA; [exact VZ|]. rewrite value_fval, EZ, O1. apply Rabs_le.
    assert (Z1 : rnd (1 - fval y) <= rnd 1) by (apply rnd_mono; lra). assert (Z2 : rnd (-1) <= rnd (1 - fval y)) by (apply rnd_mono; lra).
    rewrite rnd_IZR in Z1, Z2 by (cbn; lia). lra.
Qed.

(** moves *)
Lemma upd_forall {A} (P : A -> Prop) l : forall i x, Forall P l -> P x -> Forall P (upd l i x).
Proof. induction l as [|a l IH]; intros [|i] x H Hx; cbn; auto; inversion H; subst; constructor; auto. Qed.
Notation none3 := (mk3 S754_nan S754_nan S754_nan).
Lemma nth_upd_other {A} (l : list A) : forall i j x d, i <> j -> nth j (upd l i x) d = nth j l d.
Proof. induction l as [|a l IH]; intros [|i] [|j] x d H; cbn; auto; try congruence. Qed.
Lemma sample_made L k d n s (sc : chain f64) e : proper L -> wf n s sc -> (2 <= n)%nat -> uniform_draw L d -> powerRZ 2 (-44) <= e ->
  Forall (made e) (spins sc) -> exists sp, sample (F64 L) k d sc = Ok (set_spins sc sp) /\ length sp = n /\ Forall (made e) sp /\
    (forall i, lost (nth i (spins sc) none3) -> nth i sp none3 = nth i (spins sc) none3) /\
    (none_lost sc -> Forall (fun v => ~ lost v) sp).
Proof.
  intros HL W Hn (D1 & D2 & _) He HM. assert (LS : length (spins sc) = n) by apply (wf_spins _ _ _ W).
  assert (Hi : (d_idx d mod n < n)%nat) by (apply Nat.mod_upper_bound; lia).
  destruct (sample_pure (F64 L) n s sc k d W Hn) as [de E]. set (i := (d_idx d mod n)%nat) in *.
  assert (NP := propose_near L _ _ HL D1 D2). set (v := propose (F64 L) (d_u1 d) (d_u2 d)) in *.
  assert (NE : near_unit e v) by exact (near_weak _ _ _ NP He).
  destruct (Classical_Prop.classic (lost (nth i (spins sc) none3))) as [K|K].
  - exists (spins sc). split.
    + rewrite (sample_nan_mod L) with (n := n) (s := s); auto; [destruct sc; reflexivity|exact (proj1 (proj2 (proj2 (proj2 (proj2 (proj2 HL))))))|]. right. left. unfold spin_at. fold i.
      rewrite (nth_indep _ _ none3) by exact (Nat.lt_le_trans _ _ _ Hi (Nat.eq_le_incl _ _ (eq_sym LS))). exact K.
    + repeat split; auto.
  - unfold acceptP in E. destruct (_ || _).
    + exists (upd (spins sc) i v). split; [exact E|]. split; [rewrite upd_length; exact LS|]. split; [apply upd_forall; [exact HM|left; exact NE]|]. split.
      * intros j Kj. apply nth_upd_other. intro Z. subst j. exact (K Kj).
      * intro NL. apply upd_forall; [exact NL|]. intro Z. exact (near_lost _ _ NE Z).
    + exists (spins sc). split; [rewrite E; destruct sc; reflexivity|]. repeat split; auto.
Qed.
Lemma samples_made L l n s e : proper L -> (2 <= n)%nat -> powerRZ 2 (-44) <= e -> forall (sc : chain f64), wf n s sc -> Forall (fun kd => uniform_draw L (snd kd)) l ->
  Forall (made e) (spins sc) -> exists sp, samples (F64 L) l sc = Ok (set_spins sc sp) /\ length sp = n /\ Forall (made e) sp /\
    (forall i, lost (nth i (spins sc) none3) -> nth i sp none3 = nth i (spins sc) none3) /\
    (none_lost sc -> Forall (fun v => ~ lost v) sp).
Proof.
  intros HL Hn He. induction l as [|[k d] l IH]; intros sc W HD HM.
  - exists (spins sc). split; [destruct sc; reflexivity|]. split; [apply (wf_spins _ _ _ W)|]. repeat split; auto.
  - inversion HD as [|? ? D1 D2]; subst. cbn [snd] in D1. destruct (sample_made L k d n s sc e HL W Hn D1 He HM) as (sp1 & E1 & L1 & M1 & K1 & N1).
    assert (W1 : wf n s (set_spins sc sp1)) by (destruct W; constructor; cbn; auto).
    destruct (IH (set_spins sc sp1) W1 D2 M1) as (sp2 & E2 & L2 & M2 & K2 & N2). cbn [spins set_spins] in K2.
    exists sp2. split; [unfold samples in *; cbn [foldM fst snd]; rewrite E1; cbn [bind]; exact E2|]. split; [exact L2|]. split; [exact M2|]. split.
    + intros i Ki. rewrite K2; [apply K1, Ki|]. rewrite K1 by exact Ki. exact Ki.
    + intro NL. apply N2. exact (N1 NL).
Qed.

(** the spins of a new chain *)
Lemma not_number_or x : is_number x \/ x = S754_nan -> ~ is_number x -> x = S754_nan. Proof. tauto. Qed.
Lemma theta_num L v : proper L -> is_number (theta (F64 L) v) \/ theta (F64 L) v = S754_nan.
Proof.
  intros (_ & _ & _ & _ & _ & _ & _ & HT & _). change (theta (F64 L) v) with (f_add (l_atan L (f_div (vy v) (vx v))) (if SFltb (f_ofZ 0) (vx v) then f_ofZ 0 else f_pi)).
  destruct (HT (f_div (vy v) (vx v))) as [[V B]|Z]; [left|right; rewrite Z; apply f_add_nan_l].
  rewrite value_fval in B. pose proof ee_small as E.
  assert (Q : forall y, vfin y -> Rabs (fval y) <= 4 -> is_number (f_add (l_atan L (f_div (vy v) (vx v))) y)).
  { intros y Vy By. apply (app_add _ _ _ _ 0 0 (app_exact _ V) (app_exact _ Vy)). lra. }
  destruct (SFltb _ _); apply Q.
  - apply ofZ_val. lia.
  - destruct (ofZ_val 0 ltac:(lia)) as [_ ->]. rewrite Rabs_R0. lra.
  - split; vm_compute; reflexivity.
  - rewrite <- value_fval. unfold f_pi, value. rewrite pow_bpow. cbn. rewrite Rabs_pos_eq; lra.
Qed.

Lemma new_step_made L be b1 b2 uu st s st' : proper L -> new_spin_step (F64 L) be b1 b2 uu st = Ok (s, st') -> made (powerRZ 2 (-50)) s.
Proof.
  intros HL. destruct uu as [[u1 u2] u3]. unfold new_spin_step. cbv zeta. set (n := rot_perp (F64 L) st _ _). intro H.
  assert (TN : is_number (fst n) \/ fst n = S754_nan) by apply theta_num, HL.
  assert (PN : is_number (snd n) \/ snd n = S754_nan) by (destruct HL as (_ & _ & _ & _ & _ & _ & HA & _); apply HA).
  clearbody n. destruct n as [th ph]. cbn [fst snd] in *.
  change (new_xyz (F64 L) _) with (new_xyz (F64 L) [vx (new_from_angles (F64 L) th ph); vy (new_from_angles (F64 L) th ph); vz (new_from_angles (F64 L) th ph)]) in H.
  destruct HL as (HL & C0 & S0 & _).
  assert (LOST : vx (new_from_angles (F64 L) th ph) = S754_nan -> lost s).
  { intro Z. unfold new_xyz in H. cbn [idx nth_error bind ndiv F64] in H. injection H as <- _.
    left. exact (eq_trans (f_equal (fun y => f_div y _) Z) (f_div_nan_l _)). }
  destruct TN as [TN|TN]; [|right; apply LOST; exact (eq_trans (f_equal (fun y => f_mul y _) (eq_trans (f_equal (l_cos L) TN) C0)) (f_mul_nan_l _))].
  destruct PN as [PN|PN]; [|right; apply LOST; exact (eq_trans (f_equal (fun y => f_mul _ y) (eq_trans (f_equal (l_sin L) PN) S0)) (f_mul_nan_r _))].
  left. destruct (angles_near L th ph HL TN PN) as [V B]. rewrite p44, u_val in B. apply Rabs_le_inv in B.
  destruct (new_xyz_near L (new_from_angles (F64 L) th ph)) as (v & E & NV).
  { split; [exact V|]. rewrite !pow_bpow. split.
    - apply Rle_trans with (bpow radix2 (-1)); [apply bpow_le; lia|cbn; lra].
    - apply Rle_trans with (bpow radix2 1); [cbn; lra|apply bpow_le; lia]. }
  assert (H2 : Ok (v, (th, ph)) = Ok (s, st')) by exact (eq_trans (eq_sym (f_equal (fun r => bind r (fun s0 => Ok (s0, (th, ph)))) E)) H).
  injection H2 as <- _. exact NV.
Qed.
Lemma new_spins_all L be b1 b2 uu (P : v3 f64 -> Prop) : (forall st k s st', new_spin_step (F64 L) be b1 b2 (uu k) st = Ok (s, st') -> P s) ->
  forall n k st l, new_spins (F64 L) be b1 b2 uu k n st = Ok l -> Forall P l.
Proof.
  intro HP. induction n as [|n IH]; intros k st l H; cbn [new_spins] in H.
  - injection H as <-. constructor.
  - destruct (new_spin_step (F64 L) be b1 b2 (uu k) st) as [[s st']| |] eqn:E; cbn [bind] in H; try discriminate.
    destruct (new_spins (F64 L) be b1 b2 uu (S k) n st') as [l'| |] eqn:E2; cbn [bind] in H; try discriminate. injection H as <-.
    constructor; [exact (HP _ _ _ _ E)|exact (IH _ _ _ E2)].
Qed.
Lemma chain_new_all L conf (d : newdraw (F64 L)) c (P : v3 f64 -> Prop) :
  (forall st k s st', new_spin_step (F64 L) (beta conf) (l_exp L (beta conf)) (f_div (f_ofZ 1) (l_exp L (beta conf))) (nd_u d k) st = Ok (s, st') -> P s) ->
  chain_new (F64 L) conf d = Ok c -> Forall P (spins c).
Proof.
  intros HP H. unfold chain_new in H. cbv zeta in H. cbn [nexp ndiv nofZ F64] in H.
  destruct (new_spins _ _ _ _ _ _ _ _) as [sp| |] eqn:E; cbn [bind] in H; try discriminate.
  repeat match type of H with bind ?x _ = _ => destruct x; cbn [bind] in H; try discriminate end.
  injection H as <-. cbn [spins]. exact (new_spins_all L _ _ _ _ P HP _ _ _ _ E).
Qed.
Lemma new_made L conf (d : newdraw (F64 L)) c : proper L -> chain_new (F64 L) conf d = Ok c -> unit_or_lost c.
Proof. intros HL H. refine (chain_new_all L conf d c _ _ H). intros st k s st' E. exact (new_step_made L _ _ _ _ _ _ _ HL E). Qed.

(** too cold *)
Lemma rotate_nan_dt L s f : l_cos L S754_nan = S754_nan -> l_sin L S754_nan = S754_nan -> rotate (F64 L) s f S754_nan = nan3f.
Proof.
  intros C0 S0. rewrite (rotate_unnorm L s f S754_nan _ _ eq_refl eq_refl). cbv zeta. rewrite f_mul_nan_r, C0, S0.
  unfold unnorm, comp_; cbn [vx vy vz]. autorewrite with nan. reflexivity.
Qed.
Lemma uniform_sign u : uniform u -> exists m e, u = S754_finite false m e \/ exists b, u = S754_zero b.
Proof.
  intros [[_ Fu] Bu]. destruct u as [b|b| |b m e]; try discriminate Fu; [exists xH, 0%Z; right; exists b; reflexivity|]. exists m, e. left.
  destruct b; [|reflexivity]. exfalso. cbn [value] in Bu. assert (0 < IZR (Z.pos m)) by (apply IZR_lt; reflexivity).
  assert (0 < powerRZ 2 e) by (apply powerRZ_lt; lra). assert (0 < IZR (Z.pos m) * powerRZ 2 e) by (apply Rmult_lt_0_compat; assumption). lra.
Qed.
Lemma value_zero x : is_number x -> value x = 0 -> exists b, x = S754_zero b.
Proof.
  intros [_ F] E. destruct x as [b|b| |b m e]; try discriminate F; [eauto|]. exfalso. cbn [value] in E.
  assert (0 < IZR (Z.pos m)) by (apply IZR_lt; reflexivity). assert (0 < powerRZ 2 e) by (apply powerRZ_lt; lra).
  assert (0 < IZR (Z.pos m) * powerRZ 2 e) by (apply Rmult_lt_0_compat; assumption). destruct b; cbn in E; lra.
Qed.
Lemma no_quotient L be u3 : proper L -> no_temperature L be -> uniform u3 ->
  f_div (l_ln L (f_sub (l_exp L be) (f_mul u3 (f_sub (l_exp L be) (f_div (f_ofZ 1) (l_exp L be)))))) be = S754_nan.
Proof.
  intros (_ & C0 & S0 & A0 & L0 & X0 & _) HT HU. destruct (uniform_sign u3 HU) as (m & e & Eu).
  destruct HT as [Ei|[(Vb & Eb & E1 & Vl & El)|En]].
  - rewrite Ei. change (f_sub (S754_infinity false) (f_div (f_ofZ 1) (S754_infinity false))) with (S754_infinity false).
    assert (K : f_sub (S754_infinity false) (f_mul u3 (S754_infinity false)) = S754_nan) by (destruct Eu as [->|[b ->]]; reflexivity).
    rewrite K, L0. apply f_div_nan_l.
  - rewrite E1. replace (f_sub (f_ofZ 1) (f_div (f_ofZ 1) (f_ofZ 1))) with (S754_zero false) by (vm_compute; reflexivity).
    assert (K : f_sub (f_ofZ 1) (f_mul u3 (S754_zero false)) = f_ofZ 1) by (destruct Eu as [->|[b ->]]; [|destruct b]; vm_compute; reflexivity).
    rewrite K. destruct (value_zero _ Vb Eb) as [b ->]. destruct (value_zero _ Vl El) as [b' ->]. reflexivity.
  - subst be. apply f_div_nan_r.
Qed.
Lemma cold_step L be uu st s st' : proper L -> no_temperature L be -> uniform (snd uu) ->
  new_spin_step (F64 L) be (l_exp L be) (f_div (f_ofZ 1) (l_exp L be)) uu st = Ok (s, st') -> lost s.
Proof.
  intros HP HT HU. destruct uu as [[u1 u2] u3]. cbn [snd] in HU. pose proof (no_quotient L be u3 HP HT HU) as Z0.
  destruct HP as (_ & C0 & S0 & A0 & _). unfold new_spin_step. cbv zeta.
  assert (Z := eq_trans (f_equal (l_acos L) Z0) A0).
  match goal with |- context [rot_perp (F64 L) st ?dir ?ang] => assert (P : rot_perp (F64 L) st dir ang = rot_perp (F64 L) st dir S754_nan) by (f_equal; exact Z); rewrite P; clear P end.
  match goal with |- context [rot_perp (F64 L) st ?dir S754_nan] => set (n := rot_perp (F64 L) st dir S754_nan); assert (Q : snd n = S754_nan) end.
  { unfold n, rot_perp. cbv zeta. change (nopp (F64 L) S754_nan) with S754_nan. rewrite rotate_nan_dt by assumption. cbn [snd]. exact A0. }
  clearbody n. destruct n as [th ph]. cbn [snd fst] in *. subst ph. unfold new_xyz. cbn [idx nth_error bind nsin ncos nmul ndiv F64]. rewrite S0, C0.
  intro H. injection H as <- _. left. cbn [vx]. rewrite f_mul_nan_r. apply f_div_nan_l.
Qed.
Lemma cold_new L conf (d : newdraw (F64 L)) c : proper L -> no_temperature L (beta conf) -> (forall k, uniform (snd (nd_u d k))) ->
  chain_new (F64 L) conf d = Ok c -> Forall lost (spins c).
Proof. intros HL Ei Hu H. refine (chain_new_all L conf d c _ _ H). intros st k s st' E. exact (cold_step L _ _ _ _ _ HL Ei (Hu k) E). Qed.
