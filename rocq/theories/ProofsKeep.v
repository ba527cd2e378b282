(** Binary64 steps keep the energy, or lose a spin. *)
From Coq Require Import ZArith Reals List Lia Lra Psatz Bool Arith.
From Coq Require Import Floats.SpecFloat.
From Flocq Require Import Core.
From Verif Require Import Num Monad NumR NumF64 Spin Config Chain SpecVec SpecChain SpecRound SpecClose SpecKeep
  ProofsFlocq ProofsRound ProofsRound2 ProofsF64 ProofsChain ProofsSpin ProofsEnergy ProofsDrive ProofsOrder ProofsOrder2 ProofsOrder3 ProofsDyn ProofsDynR ProofsDyn2
  ProofsTurn ProofsClose ProofsClose2 ProofsClose3 ProofsClose4 ProofsClose5 ProofsClose6 ProofsTiny.
Import ListNotations.
Local Open Scope R_scope.

Lemma near_lost e v : near_unit e v -> lost v -> False.
Proof. intros (((_ & A) & (_ & B) & (_ & C)) & _) [H|[H|H]]; rewrite H in *; discriminate. Qed.
Lemma lost_3f : lost nan3f. Proof. left. reflexivity. Qed.

Lemma rotate_lost_field L s field dt : lost field -> rotate (F64 L) s field dt = nan3f.
Proof.
  intro H. assert (E : nsqrt (F64 L) (sum_sq (F64 L) [vx field; vy field; vz field]) = S754_nan).
  { unfold sum_sq; cbn [fold_left nadd nmul nofZ nsqrt F64]. destruct H as [H|[H|H]]; rewrite H; autorewrite with nan; reflexivity. }
  rewrite (rotate_unnorm L s field dt S754_nan _ E eq_refl). cbv zeta. rewrite !f_div_nan_r.
  unfold unnorm, comp_, axp_; cbn [vx vy vz]. autorewrite with nan. reflexivity.
Qed.

Lemma omF_lost L M S J h p : lost (S (lft M p)) \/ lost (S (rgt M p)) -> lost (omF (F64 L) M S J h p).
Proof.
  intro H. unfold omF, lost. generalize dependent (S (lft M p)). generalize dependent (S (rgt M p)). generalize (J (lft M p)), (J p), (h p).
  intros j1 j2 hp r l H. unfold ssh_sum, j_s; cbn [vx vy vz nadd nsub nmul F64 num].
  change (num (F64 L)) with f64 in *. destruct H as [[H|[H|H]]|[H|[H|H]]]; rewrite H; autorewrite with nan; tauto.
Qed.

Section Step.
Context (L : libm) (HL : accurate L) (M : nat) (J h : nat -> v3 f64) (JR BR : nat -> vec) (g : R) (Hg : 0 <= g).
Context (HJ : forall p, (p < M)%nat -> is_vector (J p) /\ comp_le 1 (J p)).
Context (Hh : forall p, (p < M)%nat -> is_vector (h p) /\ comp_le 9 (h p)).
Context (EJ : forall p, (p < M)%nat -> vvalue (J p) = JR p) (Eh : forall p, (p < M)%nat -> off (h p) (BR p) <= g).
Notation near v := (near_unit (powerRZ 2 (-50)) v).
Notation good S := (forall p, (p < M)%nat -> near (S p) \/ lost (S p)).
Notation clean S := (forall p, (p < M)%nat -> ~ lost (S p)).
Notation vals S := (fun q => vvalue (S q)).

(** the field on one site, if its neighbours are not lost *)
Lemma field_local S p : (p < M)%nat -> near (S (lft M p)) -> near (S (rgt M p)) ->
  is_vector (omF (F64 L) M S J h p) /\ comp_le 12 (omF (F64 L) M S J h p) /\
  off (omF (F64 L) M S J h p) (om M (vals S) JR BR p) <= g + powerRZ 2 (-45).
Proof.
  intros Hp Nl Nr. pose (S' := fun q => if (q =? lft M p)%nat then S q else S (rgt M p)).
  assert (A : forall q, (q < M)%nat -> near (S' q)).
  { intros q _. unfold S'. destruct (Nat.eqb_spec q (lft M p)) as [->|]; assumption. }
  assert (E1 : S' (lft M p) = S (lft M p)) by (unfold S'; rewrite Nat.eqb_refl; reflexivity).
  assert (E2 : S' (rgt M p) = S (rgt M p)) by (unfold S'; destruct (Nat.eqb_spec (rgt M p) (lft M p)); reflexivity).
  pose proof (omF_close L M J h JR BR g HJ Hh EJ Eh S' p Hp A) as Q.
  assert (F1 : omF (F64 L) M S' J h p = omF (F64 L) M S J h p) by (unfold omF; rewrite E1, E2; reflexivity).
  assert (F2 : om M (vals S') JR BR p = om M (vals S) JR BR p) by (unfold om; rewrite E1, E2; reflexivity).
  rewrite F1, F2 in Q. exact Q.
Qed.

Lemma comp12 v : comp_le 12 v -> norm (vvalue v) <= 24 /\ len2 v <= powerRZ 2 900.
Proof.
  intros (A & B & C). assert (N : norm (vvalue v) <= 2 * 12) by (apply norm_comp; split; [exact A|split; [exact B|exact C]]).
  split; [lra|]. unfold len2. rewrite <- norm_sq, pow_bpow. pose proof (norm_nonneg (vvalue v)).
  apply Rle_trans with (bpow radix2 10); [change (bpow radix2 10) with 1024; nra|apply bpow_le; lia].
Qed.

Definition site_err (x : R) : R := powerRZ 2 (-34) * (1 + 24 * x) + 3 * g.

Context (Hev : (M mod 2 = 0)%nat) (H1 : (1 <= M)%nat).

(** what a stage does to one site *)
Lemma site_any b x S p : is_number x -> 0 <= value x <= 1 -> good S -> (p < M)%nat -> (p mod 2 = b)%nat ->
  let r := rotate (F64 L) (S p) (omF (F64 L) M S J h p) x in
  lost r \/ (near r /\ ~ lost (S p) /\ Rabs (dot (vvalue r) (om M (vals S) JR BR p) - dot (vvalue (S p)) (om M (vals S) JR BR p)) <= site_err (value x)).
Proof.
  intros Vx Bx HS Hp Hb. cbv zeta. pose proof (lft_lt M p Hp) as Ll. pose proof (rgt_lt M p Hp) as Lr.
  destruct (HS p Hp) as [Np|Lp]; [|left; rewrite (rotate_F64_nan_spin L _ _ _ Lp); exact lost_3f].
  destruct (HS _ Ll) as [Nl|Ls]; [|left; rewrite rotate_lost_field; [exact lost_3f|apply omF_lost; left; exact Ls]].
  destruct (HS _ Lr) as [Nr|Ls]; [|left; rewrite rotate_lost_field; [exact lost_3f|apply omF_lost; right; exact Ls]].
  destruct (field_local S p Hp Nl Nr) as (V & C & O). set (w := omF (F64 L) M S J h p) in *. set (W := om M (vals S) JR BR p) in *.
  destruct (comp12 w C) as [N24 L9].
  assert (XB : Rabs (value x) <= 1) by (rewrite Rabs_pos_eq; lra). pose proof (norm_nonneg (vvalue w)) as N0.
  destruct (rotate_any L (S p) w x HL Np V L9 Vx XB) as [[Nr' O']|Z]; [| |left; rewrite Z; exact lost_3f].
  { rewrite Rabs_pos_eq by lra. nra. }
  right. split; [exact Nr'|]. split; [intro K; exact (near_lost _ _ Np K)|].
  set (r := rotate (F64 L) (S p) w x) in *. set (T := turn (vvalue (S p)) (vvalue w) (value x)) in *.
  rewrite (Rabs_pos_eq (value x)) in O' by lra.
  assert (TW : dot T (vvalue w) = dot (vvalue (S p)) (vvalue w)).
  { unfold T. destruct (Req_dec (norm (vvalue w)) 0) as [Z|Z].
    - assert (ZW : vvalue w = vzero) by (apply dot_zero; rewrite <- norm_sq, Z; ring).
      rewrite ZW, turn_zero. reflexivity.
    - apply rodr_axis_f. intro K. rewrite K, norm_vzero in Z. apply Z. reflexivity. }
  assert (PS : norm (vvalue (S p)) <= 101 / 100).
  { destruct Np as [_ K]. unfold len2 in K. rewrite <- norm_sq, u50, u_val in K. apply Rabs_le_inv in K. pose proof (norm_nonneg (vvalue (S p))). nra. }
  assert (PR : norm (vvalue r) <= 101 / 100).
  { destruct Nr' as [_ K]. unfold len2 in K. rewrite <- norm_sq, u50, u_val in K. apply Rabs_le_inv in K. pose proof (norm_nonneg (vvalue r)). nra. }
  replace (dot (vvalue r) W - dot (vvalue (S p)) W) with
    (dot (vsub (vvalue r) T) (vvalue w) + (- dot (vvalue r) (vsub (vvalue w) W) + dot (vvalue (S p)) (vsub (vvalue w) W)) + (dot T (vvalue w) - dot (vvalue (S p)) (vvalue w)))
    by (unfold dot; cbn [vsub vx vy vz]; ring).
  rewrite TW, Rminus_diag_eq, Rplus_0_r by reflexivity.
  pose proof (dot_cs (vsub (vvalue r) T) (vvalue w)) as D1. pose proof (dot_cs (vvalue r) (vsub (vvalue w) W)) as D2. pose proof (dot_cs (vvalue (S p)) (vsub (vvalue w) W)) as D3.
  fold (off r T) in D1. fold (off w W) in D2, D3. pose proof (norm_nonneg (vvalue r)) as R0. pose proof (norm_nonneg (vvalue (S p))) as S0.
  assert (W0 : 0 <= off w W) by apply norm_nonneg. assert (O0 : 0 <= off r T) by apply norm_nonneg.
  set (e := powerRZ 2 (-45)) in *. assert (E0 : 0 < e) by (unfold e; rewrite pow_bpow; apply bpow_gt_0).
  assert (E39 : powerRZ 2 (-39) = 64 * e) by (unfold e; rewrite !pow_bpow; cbn; lra).
  assert (E34 : powerRZ 2 (-34) = 2048 * e) by (unfold e; rewrite !pow_bpow; cbn; lra).
  unfold site_err. rewrite E34. rewrite E39 in O'.
  assert (B1 : norm (vvalue w) * value x <= 24 * value x) by (apply Rmult_le_compat_r; lra).
  assert (B2 : off r T <= 64 * e * (1 + 24 * value x)) by (eapply Rle_trans; [exact O'|]; apply Rmult_le_compat_l; lra).
  assert (B3 : off r T * norm (vvalue w) <= 64 * e * (1 + 24 * value x) * 24) by (apply Rmult_le_compat; lra).
  assert (B4 : norm (vvalue r) * off w W <= 101 / 100 * (g + e)) by (apply Rmult_le_compat; lra).
  assert (B5 : norm (vvalue (S p)) * off w W <= 101 / 100 * (g + e)) by (apply Rmult_le_compat; lra).
  eapply Rle_trans; [apply rabs_add; [exact (Rle_trans _ _ _ D1 B3)|apply rabs_add; [rewrite Rabs_Ropp; exact (Rle_trans _ _ _ D2 B4)|exact (Rle_trans _ _ _ D3 B5)]]|].
  assert (0 <= e * value x) by (apply Rmult_le_pos; lra). lra.
Qed.

Lemma stage_off b x S p : (p mod 2 <> b)%nat -> stageF (F64 L) M b J h x S p = S p.
Proof.
  intro H. unfold stageF. replace (onsub M b p) with false; [reflexivity|]. symmetry. apply not_true_iff_false. rewrite onsub_spec. lia.
Qed.
Lemma stage_on b x S p : (p < M)%nat -> (p mod 2 = b)%nat -> stageF (F64 L) M b J h x S p = rotate (F64 L) (S p) (omF (F64 L) M S J h p) x.
Proof.
  intros Hp H. unfold stageF. replace (onsub M b p) with true; [reflexivity|]. symmetry. apply onsub_spec. lia.
Qed.

Lemma stage_any b x S : (b < 2)%nat -> is_number x -> 0 <= value x <= 1 -> good S ->
  good (stageF (F64 L) M b J h x S) /\
  (clean (stageF (F64 L) M b J h x S) -> clean S /\
    Rabs (ring_energy M (vals (stageF (F64 L) M b J h x S)) JR BR - ring_energy M (vals S) JR BR) <= INR M * site_err (value x)).
Proof.
  intros Hb Vx Bx HS. split.
  { intros p Hp. destruct (Nat.eq_dec (p mod 2) b) as [E|E].
    - rewrite stage_on by assumption. destruct (site_any b x S p Vx Bx HS Hp E) as [K|(K & _)]; auto.
    - rewrite stage_off by assumption. auto. }
  intro HC. assert (CS : clean S).
  { intros p Hp K. apply (HC p Hp). destruct (Nat.eq_dec (p mod 2) b) as [E|E].
    - rewrite stage_on by assumption. rewrite (rotate_F64_nan_spin L _ _ _ K). exact lost_3f.
    - rewrite stage_off by assumption. exact K. }
  split; [exact CS|].
  rewrite !(ring_by_sub M JR BR Hev b) by assumption. rewrite <- Rsum_minus. apply Rsum_abs. intros p Hp.
  assert (EP : 0 <= site_err (value x)).
  { unfold site_err. rewrite pow_bpow. pose proof (bpow_gt_0 radix2 (-34)). assert (0 <= bpow radix2 (-34) * (1 + 24 * value x)) by (apply Rmult_le_pos; lra). lra. }
  destruct (Nat.eqb_spec (p mod 2) b) as [E|E].
  - assert (OM : om M (vals (stageF (F64 L) M b J h x S)) JR BR p = om M (vals S) JR BR p).
    { unfold om. rewrite !stage_off; [reflexivity| |].
      - rewrite par_rgt by assumption. lia.
      - rewrite par_lft by assumption. lia. }
    rewrite OM. rewrite stage_on by assumption.
    destruct (site_any b x S p Vx Bx HS Hp E) as [K|(_ & _ & K)].
    + exfalso. apply (HC p Hp). rewrite stage_on by assumption. exact K.
    + replace (- _ - - _) with (- (dot (vvalue (rotate (F64 L) (S p) (omF (F64 L) M S J h p) x)) (om M (vals S) JR BR p) - dot (vvalue (S p)) (om M (vals S) JR BR p))) by ring.
      rewrite Rabs_Ropp. exact K.
  - rewrite stage_off by assumption. rewrite Rminus_diag_eq, Rabs_R0 by reflexivity. exact EP.
Qed.

Lemma trot_any x2 x S : is_number x -> is_number x2 -> value x2 = value x / 2 -> 0 <= value x <= 1 -> good S ->
  good (trotF (F64 L) M J h x2 x S) /\
  (clean (trotF (F64 L) M J h x2 x S) -> clean S /\
    Rabs (ring_energy M (vals (trotF (F64 L) M J h x2 x S)) JR BR - ring_energy M (vals S) JR BR) <=
      INR M * (powerRZ 2 (-34) * (3 + 48 * value x) + 9 * g)).
Proof.
  intros Vx V2 E2 Bx HS. unfold trotF.
  destruct (stage_any 0 x2 S ltac:(lia) V2 ltac:(lra) HS) as [G1 K1]. set (S1 := stageF (F64 L) M 0 J h x2 S) in *.
  destruct (stage_any 1 x S1 ltac:(lia) Vx ltac:(lra) G1) as [G2 K2]. set (S2 := stageF (F64 L) M 1 J h x S1) in *.
  destruct (stage_any 0 x2 S2 ltac:(lia) V2 ltac:(lra) G2) as [G3 K3]. set (S3 := stageF (F64 L) M 0 J h x2 S2) in *.
  split; [exact G3|]. intro C3. destruct (K3 C3) as [C2 D3]. destruct (K2 C2) as [C1 D2]. destruct (K1 C1) as [C0 D1]. split; [exact C0|].
  replace (ring_energy M (vals S3) JR BR - ring_energy M (vals S) JR BR) with
    ((ring_energy M (vals S3) JR BR - ring_energy M (vals S2) JR BR) + ((ring_energy M (vals S2) JR BR - ring_energy M (vals S1) JR BR) + (ring_energy M (vals S1) JR BR - ring_energy M (vals S) JR BR))) by ring.
  eapply Rle_trans; [apply rabs_add; [exact D3|apply rabs_add; [exact D2|exact D1]]|].
  unfold site_err. rewrite E2. apply Req_le. field.
Qed.
End Step.
