(** Any number of time steps in binary64 beside the exact ones. *)
From Coq Require Import ZArith Reals List Lia Lra Psatz Bool Arith.
From Coq Require Import Floats.SpecFloat.
From Flocq Require Import Core Mult_error.
From Verif Require Import Num Monad NumR NumF64 Spin Config Chain SpecVec SpecChain SpecRound SpecClose
  ProofsFlocq ProofsRound ProofsRound2 ProofsChain ProofsSpin ProofsEnergy ProofsDrive ProofsOrder ProofsOrder2 ProofsDyn ProofsDynR ProofsDyn2
  ProofsTurn ProofsClose ProofsClose2.
Import ListNotations.
Local Open Scope R_scope.

Lemma half_exact x : plain_dt x -> is_number (f_div x (f_ofZ 2)) /\ value (f_div x (f_ofZ 2)) = value x / 2.
Proof.
  rewrite !value_fval. intros (V & Lo & Hi). rewrite value_fval, pow_bpow in Lo. rewrite value_fval in Hi.
  destruct (ofZ_val 2 ltac:(lia)) as [V2 E2].
  assert (Q : rnd (fval x / fval (f_ofZ 2)) = fval x / 2).
  { rewrite E2. replace (fval x / 2) with (fval x * bpow radix2 (-1)) by (cbn; lra).
    apply round_generic; [apply valid_rnd_N|]. apply (mult_bpow_exact_FLT radix2 (-1074) 53).
    - destruct (vfin_B x V) as (b & -> & F). rewrite B_fval. apply BinarySingleNaN.generic_format_B2R.
    - assert (-999 <= mag radix2 (fval x))%Z; [|lia].
      apply mag_ge_bpow. rewrite Rabs_pos_eq; [exact Lo|pose proof (bpow_gt_0 radix2 (-1000)); lra]. }
  destruct (div_val x (f_ofZ 2) V V2) as [W E]; [rewrite E2; lra| |].
  - rewrite Q. apply Rle_lt_trans with 1; [|apply (bpow_lt radix2 0 femax); reflexivity].
    pose proof (bpow_gt_0 radix2 (-1000)). rewrite Rabs_pos_eq; lra.
  - split; [exact W|]. rewrite E. exact Q.
Qed.

Lemma iterM_snoc {A} (f : A -> res A) k : forall a, iterM f (S k) a = bind (iterM f k a) f.
Proof.
  induction k as [|k IH]; intro a.
  - cbn. destruct (f a); reflexivity.
  - change (iterM f (S (S k)) a) with (bind (f a) (iterM f (S k))). change (iterM f (S k) a) with (bind (f a) (iterM f k)).
    destruct (f a); cbn [bind]; auto.
Qed.

Definition kick (dt g : R) : R := powerRZ 2 (-39) * (3 + 50 * dt) + 2 * (dt * g).

Section Run.
Context (L : libm) (HL : accurate L) (n s : nat) (cF : chain f64) (c : chain R) (g m : R).
Context (WF : wf n s cF) (W : wf n s c) (Hn : (2 <= n)%nat) (HF : hs_ok (vars cF)) (Hd : drive_ok (vars c)) (Hg : 0 <= g).
Context (Hdt : plain_dt (c_dt (vars cF))) (Edt : value (c_dt (vars cF)) = c_dt (vars c)).
Context (HJ : forall p, (p < n)%nat -> is_vector (at3 (F64 L) (j_couple cF) p) /\ comp_le 1 (at3 (F64 L) (j_couple cF) p)).
Context (EJ : forall p, (p < n)%nat -> vvalue (at3 (F64 L) (j_couple cF) p) = J_ c p).
Let dt := c_dt (vars c).
(** the clock of the binary64 run *)
Definition tick (i : nat) : f64 := Nat.iter i (fun x => f_add x (c_dt (vars cF))) (t cF).
Definition fieldsF (i : nat) : nat -> v3 f64 :=
  fieldF (F64 L) cF s (h_extP (F64 L) (vars cF) (f_add (tick i) (f_div (c_dt (vars cF)) (f_ofZ 2)))).
Definition fieldsR (i : nat) : nat -> vec := B_ c s (t c + INR i * dt + dt / 2).
Definition at_step (i : nat) (sp : list (v3 f64)) : chain f64 :=
  mkChain (j_couple cF) (static_h cF) sp (tick i) (vars cF) (has_file cF).
Let M := (2 * (n / 2))%nat.
Lemma M_le : (M <= n)%nat.
Proof. unfold M. pose proof (Nat.div_mod n 2 ltac:(lia)). lia. Qed.

Lemma dt_range : 0 < dt <= 1.
Proof. unfold dt. rewrite <- Edt. destruct Hdt as (_ & A & B). rewrite pow_bpow in A. pose proof (bpow_gt_0 radix2 (-1000)). lra. Qed.
Lemma kick_pos : 0 <= kick dt g.
Proof.
  pose proof dt_range. unfold kick. rewrite pow_bpow. pose proof (bpow_gt_0 radix2 (-39)).
  apply Rplus_le_le_0_compat; [apply Rmult_le_pos; lra|]. apply Rmult_le_pos; [lra|]. apply Rmult_le_pos; lra.
Qed.
Definition spread (d : R) (k : nat) : R := exp (4 * (INR k * dt)) * (d + INR k * kick dt g).
Lemma spread_S d k : 0 <= d -> exp (4 * dt) * (spread d k + kick dt g) <= spread d (S k).
Proof.
  intro H. pose proof kick_pos as K. unfold spread. rewrite S_INR.
  replace (4 * ((INR k + 1) * dt)) with (4 * dt + 4 * (INR k * dt)) by ring. rewrite exp_plus.
  rewrite Rmult_assoc. apply Rmult_le_compat_l; [apply Rlt_le, exp_pos|].
  assert (1 <= exp (4 * (INR k * dt))).
  { rewrite <- exp_0. pose proof (exp_ineq1_le (4 * (INR k * dt))). rewrite exp_0.
    assert (0 <= INR k * dt) by (apply Rmult_le_pos; [apply pos_INR|pose proof dt_range; lra]). lra. }
  assert (1 * kick dt g <= exp (4 * (INR k * dt)) * kick dt g) by (apply Rmult_le_compat_r; assumption).
  lra.
Qed.
Lemma spread_pos d k : 0 <= d -> 0 <= spread d k.
Proof.
  intro H. unfold spread. apply Rmult_le_pos; [apply Rlt_le, exp_pos|]. pose proof kick_pos.
  apply Rplus_le_le_0_compat; [exact H|]. apply Rmult_le_pos; [apply pos_INR|assumption].
Qed.
Lemma spread_grow d k : 0 <= d -> spread d k <= spread d (S k).
Proof.
  intro H. eapply Rle_trans; [|apply spread_S; exact H]. pose proof kick_pos. pose proof (spread_pos d k H).
  pose proof (exp_ineq1_le (4 * dt)). pose proof dt_range.
  rewrite <- (Rmult_1_l (spread d k)) at 1. apply Rmult_le_compat; lra.
Qed.
Lemma spread_mono d i k : 0 <= d -> (i <= k)%nat -> spread d i <= spread d k.
Proof. intros H. induction 1; [lra|]. eapply Rle_trans; [exact IHle|]. apply spread_grow, H. Qed.

Definition nearsL (sp : list (v3 f64)) : Prop := forall p, (p < n)%nat -> near_unit (powerRZ 2 (-50)) (at3 (F64 L) sp p).
Definition withinL (d : R) (sp : list (v3 f64)) (SR : nat -> vec) : Prop := forall p, (p < n)%nat -> off (at3 (F64 L) sp p) (SR p) <= d.

(** one update *)
Lemma update_close i sp d E :
  (forall p, (p < M)%nat -> is_vector (fieldsF i p) /\ comp_le 9 (fieldsF i p) /\ off (fieldsF i p) (fieldsR i p) <= g) ->
  length sp = n -> nearsL sp -> unit_spins (evol n s i c) -> 0 <= d -> withinL d sp (S_ (evol n s i c)) ->
  exp (4 * dt) * (d + kick dt g) <= E ->
  (forall S SR p, (forall q, (q < M)%nat -> near_unit (powerRZ 2 (-50)) (S q)) -> (forall q, (q < M)%nat -> unit3 (SR q)) ->
     (forall q, (q < M)%nat -> off (S q) (SR q) <= E) -> (p < M)%nat -> m <= norm (om M SR (J_ c) (fieldsR i) p) ->
     mid_range (omF (F64 L) M S (at3 (F64 L) (j_couple cF)) (fieldsF i) p)) ->
  far M (J_ c) (fieldsR i) m (dt / 2) dt (S_ (evol n s i c)) ->
  exists sp', update (F64 L) (at_step i sp) = Ok (at_step (S i) sp') /\ length sp' = n /\ nearsL sp' /\
    withinL E sp' (S_ (evol n s (S i) c)).
Proof.
  intros Hf Ls HN HU H0 HW HE Hmid Hm.
  assert (W1 : wf n s (at_step i sp)) by (destruct WF; constructor; cbn; auto).
  destruct (update_pure (F64 L) n s (at_step i sp) W1 Hn HF) as (sp' & Eu & Len & A). exists sp'.
  split; [exact Eu|]. split; [exact Len|].
  destruct (half_exact _ Hdt) as [V2 E2]. destruct Hdt as (Vd & Ld & Ud). pose proof dt_range as R1. pose proof M_le as ML.
  assert (UR : forall q, (q < n)%nat -> unit3 (S_ (evol n s i c) q)).
  { apply (unit_spins_iff n s _ (wf_evol n s i c W)). exact HU. }
  pose proof (trot_close L HL M (at3 (F64 L) (j_couple cF)) (fieldsF i) (J_ c) (fieldsR i) g Hg) as TC.
  specialize (TC (fun p Hp => HJ p (Nat.lt_le_trans _ _ _ Hp ML))).
  specialize (TC (fun p Hp => conj (proj1 (Hf p Hp)) (proj1 (proj2 (Hf p Hp))))).
  specialize (TC (fun p Hp => EJ p (Nat.lt_le_trans _ _ _ Hp ML))).
  specialize (TC (fun p Hp => proj2 (proj2 (Hf p Hp)))).
  specialize (TC m (f_div (c_dt (vars cF)) (f_ofZ 2)) (c_dt (vars cF)) (at3 (F64 L) sp) (S_ (evol n s i c)) d).
  rewrite Edt in TC. fold dt in TC.
  assert (HE' : exp (4 * dt) * (d + powerRZ 2 (-39) * (3 + 50 * dt) + 2 * (dt * g)) <= E).
  { replace (d + powerRZ 2 (-39) * (3 + 50 * dt) + 2 * (dt * g)) with (d + kick dt g) by (unfold kick; ring). exact HE. }
  destruct TC as [N1 W2]; auto; try lra.
  - intros b S SR p A1 A2 A3 A4 _ A5. apply (Hmid S SR p); auto. intros q Hq. eapply Rle_trans; [apply A3; exact Hq|exact HE'].
  - rewrite E2, Edt. reflexivity.
  - intros p Hp. apply HN. lia.
  - intros p Hp. apply UR. lia.
  - intros p Hp. apply HW. lia.
  - split.
    + intros p Hp. rewrite A. destruct (Nat.lt_ge_cases p M) as [Hlt|Hge]; [apply N1; exact Hlt|].
      unfold trotF. fold M. rewrite !stage_keep by (destruct (onsub _ _ _) eqn:O; [apply onsub_spec in O; lia|reflexivity]).
      apply HN, Hp.
    + intros p Hp. rewrite A. rewrite evol_S, S_step by exact Hp. rewrite J_evol, B_evol, vars_evol. unfold mid. rewrite t_evol, vars_evol.
      fold M. fold dt. destruct (Nat.lt_ge_cases p M) as [Hlt|Hge].
      * eapply Rle_trans; [apply W2; exact Hlt|exact HE'].
      * rewrite (trotF_out RNum M) by exact Hge. unfold trotF. fold M. rewrite !stage_keep by (destruct (onsub _ _ _) eqn:O; [apply onsub_spec in O; lia|reflexivity]).
        eapply Rle_trans; [apply HW; exact Hp|]. eapply Rle_trans; [|exact HE].
        pose proof kick_pos. pose proof (exp_ineq1_le (4 * dt)). rewrite <- (Rmult_1_l d) at 1. apply Rmult_le_compat; lra.
Qed.

Lemma updates_close d k sp : length sp = n -> nearsL sp -> unit_spins c -> 0 <= d -> withinL d sp (S_ c) ->
  (forall i p, (i < k)%nat -> (p < M)%nat -> is_vector (fieldsF i p) /\ comp_le 9 (fieldsF i p) /\ off (fieldsF i p) (fieldsR i p) <= g) ->
  (forall i S SR p, (i < k)%nat -> (forall q, (q < M)%nat -> near_unit (powerRZ 2 (-50)) (S q)) -> (forall q, (q < M)%nat -> unit3 (SR q)) ->
     (forall q, (q < M)%nat -> off (S q) (SR q) <= spread d k) -> (p < M)%nat -> m <= norm (om M SR (J_ c) (fieldsR i) p) ->
     mid_range (omF (F64 L) M S (at3 (F64 L) (j_couple cF)) (fieldsF i) p)) ->
  (forall i, (i < k)%nat -> far M (J_ c) (fieldsR i) m (dt / 2) dt (S_ (evol n s i c))) ->
  forall i, (i <= k)%nat -> exists sp', iterM (update (F64 L)) i (at_step 0 sp) = Ok (at_step i sp') /\ length sp' = n /\ nearsL sp' /\
    withinL (spread d i) sp' (S_ (evol n s i c)).
Proof.
  intros Ls HN HU H0 HW Hf Hmid Hm. induction i as [|i IH]; intro Hi.
  - exists sp. split; [reflexivity|]. split; [exact Ls|]. split; [exact HN|]. intros p Hp.
    eapply Rle_trans; [apply HW; exact Hp|]. unfold spread. cbn [INR]. replace (4 * (0 * dt)) with 0 by ring. rewrite exp_0. lra.
  - destruct (IH ltac:(lia)) as (sp1 & E1 & L1 & N1 & W1).
    destruct (update_close i sp1 (spread d i) (spread d (S i))) as (sp2 & E2 & L2 & N2 & W2); auto.
    + apply unit_evol; assumption.
    + apply spread_pos, H0.
    + apply spread_S, H0.
    + intros S SR p A1 A2 A3 A4 A5. apply (Hmid i S SR p); auto.
      intros q Hq. eapply Rle_trans; [apply A3; exact Hq|]. apply spread_mono; [exact H0|lia].
    + exists sp2. split; [|split; [exact L2|split; [exact N2|exact W2]]].
      rewrite iterM_snoc, E1. cbn [bind]. exact E2.
Qed.
End Run.
