(** First-order convergence of a two-colour splitting of rotations about a field that may depend on the spin itself. *)
From Coq Require Import Reals Lra Lia List ZArith Arith.
From Verif Require Import Num NumR Spin SpecVec SpecChain ProofsSpin ProofsEnergy ProofsDrive ProofsJet ProofsOrder ProofsDyn ProofsDynR ProofsOrder2.
Local Open Scope R_scope.

Lemma vsub_self v : norm (vsub v v) = 0.
Proof. replace (vsub v v) with vzero by (apply v3_ext; cbn; ring). apply norm_vzero. Qed.
Lemma norm_cross_unit s f : unit3 s -> norm (cross s f) <= norm f.
Proof. intro U. eapply Rle_trans; [apply norm_cross|]. rewrite (unit3_norm s) by assumption. lra. Qed.

Lemma rotate_step s f x W : unit3 s -> norm f <= W -> 0 <= x <= 1 ->
  norm (vsub (rotate RNum s f x) s) <= x * (W + W * W + 2 * W ^ 3).
Proof.
  apply (rotate_move 0 (fun _ => vzero) 0 eq_refl (fun i Hi => False_ind _ (Nat.nlt_0_r i Hi)) 0 0 (fun _ _ => vzero) (fun _ _ => vzero)
    (fun x i _ Hi => False_ind _ (Nat.nlt_0_r i Hi)) (fun i Hi => False_ind _ (Nat.nlt_0_r i Hi))).
Qed.
Lemma jet_shift lo hi (P : nat -> Prop) m F a b c : vjet lo hi P m F a b c ->
  exists K, 0 <= K /\ forall r i h, P i -> at_time lo hi r h -> norm (vsub (F r i h) (a r i)) <= K * h.
Proof.
  apply (vjet_move 0 (fun _ => vzero) 0 eq_refl (fun i Hi => False_ind _ (Nat.nlt_0_r i Hi)) lo hi (fun _ _ => vzero) (fun _ _ => vzero)
    (fun x i _ Hi => False_ind _ (Nat.nlt_0_r i Hi)) (fun i Hi => False_ind _ (Nat.nlt_0_r i Hi))).
Qed.

(** One short rotation against one explicit step *)
Lemma turn v g s f a h A B W : unit3 v -> unit3 s -> norm g <= W -> norm f <= W ->
  norm (vsub v s) <= h * A -> norm (vsub g f) <= h * B -> 0 <= a <= h -> h <= 1 ->
  norm (vsub (rotate RNum v g a) (vadd v (vscale a (cross s f)))) <= a * h * (A * W + B + W * W + 2 * W ^ 3).
Proof.
  intros Hv Hs Hg Hf HA HB Ha Hh. assert (W0 : 0 <= W) by (pose proof (norm_nonneg f); lra).
  eapply Rle_trans; [apply (norm_tri3 _ (rot2 v g a))|].
  assert (P := rotate_rot2 v g a W Hv Hg (proj1 Ha)).
  replace (vsub (rot2 v g a) (vadd v (vscale a (cross s f)))) with
    (vadd (vscale a (vadd (cross (vsub v s) g) (cross s (vsub g f)))) (vscale (a * a * / 2) (cross (cross v g) g)))
    by (unfold rot2; apply v3_ext; cbn; ring).
  assert (N1 : norm (cross (vsub v s) g) <= h * A * W).
  { eapply Rle_trans; [apply norm_cross|]. apply Rmult_le_compat; auto using norm_nonneg. }
  assert (N2 : norm (cross s (vsub g f)) <= h * B) by (eapply Rle_trans; [apply norm_cross_unit; assumption|exact HB]).
  assert (N3 : norm (cross (cross v g) g) <= W * W).
  { eapply Rle_trans; [apply norm_cross|]. apply Rmult_le_compat; auto using norm_nonneg.
    eapply Rle_trans; [apply norm_cross_unit; assumption|exact Hg]. }
  assert (T := norm_triangle (vscale a (vadd (cross (vsub v s) g) (cross s (vsub g f)))) (vscale (a * a * / 2) (cross (cross v g) g))).
  rewrite !norm_vscale in T. assert (aa : 0 <= a * a) by apply Rle_0_sqr. rewrite !Rabs_pos_eq in T by lra.
  assert (T2 := norm_triangle (cross (vsub v s) g) (cross s (vsub g f))).
  assert (Q1 : a * norm (vadd (cross (vsub v s) g) (cross s (vsub g f))) <= a * (h * A * W + h * B)) by (apply Rmult_le_compat_l; lra).
  assert (WW : 0 <= W * W) by (apply Rmult_le_pos; exact W0). assert (W3 : 0 <= W ^ 3) by (apply pow_le; exact W0).
  assert (ah : a * a <= a * h) by (apply Rmult_le_compat_l; lra).
  assert (Q2 : a * a * / 2 * norm (cross (cross v g) g) <= a * h * (W * W)) by (apply Rmult_le_compat; auto using norm_nonneg; lra).
  assert (a3 : a ^ 3 <= a * h). { apply Rle_trans with (a * a); [|exact ah]. replace (a ^ 3) with (a * a * a) by ring. rewrite <- (Rmult_1_r (a * a)) at 2. apply Rmult_le_compat_l; lra. }
  assert (Q3 : 2 * W ^ 3 * a ^ 3 <= 2 * W ^ 3 * (a * h)) by (apply Rmult_le_compat_l; lra).
  replace (a * h * (A * W + B + W * W + 2 * W ^ 3)) with (a * (h * A * W + h * B) + a * h * (W * W) + 2 * W ^ 3 * (a * h)) by ring.
  lra.
Qed.

Section First.
Context (n : nat) (G : R -> (nat -> vec) -> nat -> vec) (W L : R).
Notation units S := (forall p, (p < n)%nat -> unit3 (S p)).
Context (W0 : 0 <= W) (L0 : 0 <= L).
Context (HGb : forall r S i, units S -> (i < n)%nat -> norm (G r S i) <= W).
Context (HGs : forall r S S' e i, units S -> units S' -> (forall p, (p < n)%nat -> norm (vsub (S p) (S' p)) <= e) -> (i < n)%nat ->
  norm (vsub (G r S i) (G r S' i)) <= L * e).
Context (HGt : forall r r' S i, units S -> (i < n)%nat -> norm (vsub (G r S i) (G r' S i)) <= L * Rabs (r - r')).

Definition stg (r : R) (b : nat) (x : R) (S : nat -> vec) (i : nat) : vec :=
  if onsub n b i then rotate RNum (S i) (G r S i) x else S i.
Definition stp (r h : R) (S : nat -> vec) : nat -> vec := stg r 0 (h / 2) (stg r 1 h (stg r 0 (h / 2) S)).

Lemma stg_unit r b x S : units S -> units (stg r b x S).
Proof. intros H p Hp. unfold stg. destruct (onsub n b p); [apply rotate_R_nrm_unit|]; auto. Qed.
Lemma stp_unit r h S : units S -> units (stp r h S).
Proof. intro H. unfold stp. do 3 apply stg_unit. exact H. Qed.

Definition rush : R := W + W * W + 2 * W ^ 3.
Lemma rush0 : 0 <= rush.
Proof. unfold rush. assert (0 <= W * W) by (apply Rmult_le_pos; assumption). assert (0 <= W ^ 3) by (apply pow_le; assumption). lra. Qed.
Lemma stg_move r b x S p : units S -> 0 <= x <= 1 -> (p < n)%nat -> norm (vsub (stg r b x S p) (S p)) <= x * rush.
Proof.
  intros HS Hx Hp. pose proof rush0. unfold stg. destruct (onsub n b p).
  - apply rotate_step; auto.
  - rewrite vsub_self. apply Rmult_le_pos; lra.
Qed.
(** the intermediate states stay near the start *)
Lemma near r h S Y e : units S -> 0 <= h <= 1 -> (forall p, (p < n)%nat -> norm (vsub (S p) (Y p)) <= e) ->
  (forall p, (p < n)%nat -> norm (vsub (stg r 0 (h / 2) S p) (Y p)) <= e + h * rush) /\
  (forall p, (p < n)%nat -> norm (vsub (stg r 1 h (stg r 0 (h / 2) S) p) (Y p)) <= e + 2 * (h * rush)).
Proof.
  intros HS Hh He. pose proof rush0 as R0. assert (hr : 0 <= h * rush) by (apply Rmult_le_pos; lra).
  assert (A : forall p, (p < n)%nat -> norm (vsub (stg r 0 (h / 2) S p) (Y p)) <= e + h * rush).
  { intros p Hp. eapply Rle_trans; [apply (norm_tri3 _ (S p))|].
    pose proof (stg_move r 0 (h / 2) S p HS ltac:(lra) Hp). pose proof (He p Hp). lra. }
  split; [exact A|]. intros p Hp. eapply Rle_trans; [apply (norm_tri3 _ (stg r 0 (h / 2) S p))|].
  pose proof (stg_move r 1 h (stg r 0 (h / 2) S) p (stg_unit _ _ _ _ HS) Hh Hp). pose proof (A p Hp). lra.
Qed.

Definition lipf : R := (1 + W) * L.
Lemma stg_diff r b S S' e x : units S -> units S' -> 0 <= x <= 1 ->
  (forall p, (p < n)%nat -> norm (vsub (S p) (S' p)) <= e) ->
  forall p, (p < n)%nat -> norm (vsub (stg r b x S p) (stg r b x S' p)) <= (1 + x * lipf) * e + 4 * W ^ 3 * x ^ 3.
Proof.
  intros HS HS' Hx He p Hp. assert (He0 : 0 <= e) by (eapply Rle_trans; [apply norm_nonneg|apply (He p Hp)]).
  assert (P : 0 <= 4 * W ^ 3 * x ^ 3) by (apply Rmult_le_pos; [apply Rmult_le_pos; [lra|]|]; apply pow_le; lra).
  assert (Ll : 0 <= lipf) by (apply Rmult_le_pos; lra).
  assert (Q : 0 <= x * lipf * e) by (apply Rmult_le_pos; [apply Rmult_le_pos; lra|exact He0]).
  pose proof (He p Hp) as H0. unfold stg. destruct (onsub n b p).
  - eapply Rle_trans; [apply (rotate_diff _ _ _ _ x W); auto|].
    pose proof (HGs r S S' e p HS HS' He Hp) as D.
    assert (x * (1 + W) * norm (vsub (G r S p) (G r S' p)) <= x * (1 + W) * (L * e)) by (apply Rmult_le_compat_l; [apply Rmult_le_pos; lra|exact D]).
    replace ((1 + x * lipf) * e) with (e + x * (1 + W) * (L * e)) by (unfold lipf; ring). lra.
  - replace ((1 + x * lipf) * e) with (e + x * lipf * e) by ring. lra.
Qed.
Lemma stp_diff r S S' e h : units S -> units S' -> 0 <= h <= 1 -> 0 <= e ->
  (forall p, (p < n)%nat -> norm (vsub (S p) (S' p)) <= e) ->
  forall p, (p < n)%nat -> norm (vsub (stp r h S p) (stp r h S' p)) <=
     (1 + h * lipf) ^ 3 * e + ((1 + lipf) ^ 2 + (1 + lipf) + 1) * (4 * W ^ 3) * h ^ 3.
Proof.
  intros HS HS' Hh He0 He.
  set (l := lipf). set (C := 4 * W ^ 3).
  assert (l0 : 0 <= l) by (unfold l, lipf; apply Rmult_le_pos; lra).
  assert (C0 : 0 <= C) by (unfold C; apply Rmult_le_pos; [lra|apply pow_le; lra]).
  assert (GG : forall b0 x S S' e, units S -> units S' -> 0 <= e -> 0 <= x <= h -> (forall p, (p < n)%nat -> norm (vsub (S p) (S' p)) <= e) ->
    forall p, (p < n)%nat -> norm (vsub (stg r b0 x S p) (stg r b0 x S' p)) <= (1 + h * l) * e + C * h ^ 3).
  { intros b0 x T T' f HT HT' Hf Hx Hd p Hp.
    eapply Rle_trans; [apply (stg_diff r b0 T T' f x); auto; lra|]. fold l C.
    apply Rplus_le_compat.
    - apply Rmult_le_compat_r; [exact Hf|]. apply Rplus_le_compat_l. apply Rmult_le_compat_r; lra.
    - apply Rmult_le_compat_l; [exact C0|]. apply pow_incr; lra. }
  intros p Hp. unfold stp.
  assert (h3 : 0 <= h ^ 3) by (apply pow_le; lra). assert (Ch : 0 <= C * h ^ 3) by (apply Rmult_le_pos; assumption).
  assert (hL : 0 <= h * l <= l).
  { split; [apply Rmult_le_pos; lra|]. rewrite <- (Rmult_1_l l) at 2. apply Rmult_le_compat_r; lra. }
  set (q := 1 + h * l) in *. assert (Hq : 0 <= q <= 1 + l) by (unfold q; lra).
  set (e1 := q * e + C * h ^ 3). assert (0 <= q * e) by (apply Rmult_le_pos; lra). assert (E1 : 0 <= e1) by (unfold e1; lra).
  set (e2 := q * e1 + C * h ^ 3). assert (0 <= q * e1) by (apply Rmult_le_pos; lra). assert (E2 : 0 <= e2) by (unfold e2; lra).
  assert (U1 : units (stg r 0 (h / 2) S)) by (apply stg_unit; assumption).
  assert (U1' : units (stg r 0 (h / 2) S')) by (apply stg_unit; assumption).
  assert (U2 : units (stg r 1 h (stg r 0 (h / 2) S))) by (apply stg_unit; assumption).
  assert (U2' : units (stg r 1 h (stg r 0 (h / 2) S'))) by (apply stg_unit; assumption).
  assert (K1 : forall p, (p < n)%nat -> norm (vsub (stg r 0 (h / 2) S p) (stg r 0 (h / 2) S' p)) <= e1).
  { apply GG; auto; lra. }
  assert (K2 : forall p, (p < n)%nat -> norm (vsub (stg r 1 h (stg r 0 (h / 2) S) p) (stg r 1 h (stg r 0 (h / 2) S') p)) <= e2).
  { apply (GG 1%nat h _ _ e1); auto; lra. }
  eapply Rle_trans; [apply (GG 0%nat (h / 2) _ _ e2); auto; lra|].
  replace (q * e2 + C * h ^ 3) with (q ^ 3 * e + (q ^ 2 + q + 1) * (C * h ^ 3)) by (unfold e2, e1; ring).
  apply Rplus_le_compat_l. rewrite Rmult_assoc. apply Rmult_le_compat_r; [exact Ch|].
  assert (q ^ 2 <= (1 + l) ^ 2) by (apply pow_incr; lra). lra.
Qed.

(** ** The exact motion *)
Context (lo hi : R) (Hlh : lo <= hi) (X : R -> nat -> vec).
Notation vjet := (vjet lo hi).
Notation at_time := (at_time lo hi).
Notation Q := (Q n).
Context (HX : forall x i, lo <= x <= hi -> (i < n)%nat -> has_velocity (fun r => X r i) x (cross (X x i) (G x (X x) i))).
Context (HX0 : forall i, (i < n)%nat -> unit3 (X lo i)).

Lemma mo_unit x i : lo <= x <= hi -> (i < n)%nat -> unit3 (X x i).
Proof.
  intros Hx Hi. destruct (Req_dec x lo) as [->|N]; [auto|].
  set (g := fun r => dot (X r i) (X r i)).
  destruct (MVT_cor2 g (fun _ => 0) lo x) as (y & E & _); [lra| |].
  - intros y Hy. destruct (HX y i) as (A & B & C); [lra|exact Hi|].
    set (w := cross (X y i) (G y (X y) i)) in *.
    replace 0 with ((vx w * vx (X y i) + vx (X y i) * vx w) + (vy w * vy (X y i) + vy (X y i) * vy w) + (vz w * vz (X y i) + vz (X y i) * vz w)).
    2:{ unfold w. generalize (G y (X y) i), (X y i). intros o s. cbn. ring. }
    unfold g, dot.
    apply derivable_pt_lim_plus; [apply derivable_pt_lim_plus|].
    + apply (derivable_pt_lim_mult (fun r => vx (X r i)) (fun r => vx (X r i))); assumption.
    + apply (derivable_pt_lim_mult (fun r => vy (X r i)) (fun r => vy (X r i))); assumption.
    + apply (derivable_pt_lim_mult (fun r => vz (X r i)) (fun r => vz (X r i))); assumption.
  - unfold unit3. fold (g x). pose proof (HX0 i Hi) as U. unfold unit3 in U. fold (g lo) in U. change (g x = 1). change (g lo = 1) in U. lra.
Qed.
Lemma at_in r h : at_time r h -> lo <= r <= hi /\ lo <= r + h <= hi /\ 0 <= h <= 1.
Proof. unfold ProofsJet.at_time. lra. Qed.
Definition Vm (x : R) (i : nat) : vec := cross (X x i) (G x (X x) i).
Lemma Vm_bound x i : lo <= x <= hi -> (i < n)%nat -> norm (Vm x i) <= W.
Proof.
  intros Hx Hi. eapply Rle_trans; [apply norm_cross_unit, mo_unit; assumption|]. apply HGb; [|exact Hi]. intros; apply mo_unit; assumption.
Qed.
Lemma mo_vel r i h : Q i -> at_time r h -> has_velocity (fun y => X (r + y) i) h (Vm (r + h) i).
Proof.
  intros Hi Ht. destruct (at_in r h Ht) as (_ & Hr & _). destruct (HX (r + h) i Hr Hi) as (A & B & C). unfold Vm.
  split; [|split]; [apply (shift_deriv (fun y => vx (X y i)))|apply (shift_deriv (fun y => vy (X y i)))|apply (shift_deriv (fun y => vz (X y i)))]; assumption.
Qed.
Lemma mo_b : exists K, forall r i, Q i -> lo <= r <= hi -> norm (X (r + 0) i) <= K.
Proof. exists 1. intros r i Hi Hr. rewrite Rplus_0_r, unit3_norm; [lra|]. apply mo_unit; assumption. Qed.
Lemma mo_move : exists K, 0 <= K /\ forall r i h, Q i -> at_time r h -> norm (vsub (X (r + h) i) (X r i)) <= K * h.
Proof.
  destruct (jet_shift lo hi Q 0 _ _ _ _ (vjet_int0 lo hi Q (fun r i h => X (r + h) i) (fun r i h => Vm (r + h) i) mo_vel
    (ex_intro _ W (fun r i h Hi Ht => Vm_bound (r + h) i (proj1 (proj2 (at_in r h Ht))) Hi)) mo_b)) as (K & K0 & H).
  exists K. split; [exact K0|]. intros r i h Hi Ht. pose proof (H r i h Hi Ht) as A. cbv beta in A. rewrite Rplus_0_r in A. exact A.
Qed.
Lemma Vm_move : exists K, 0 <= K /\ forall r i h, Q i -> at_time r h -> norm (vsub (Vm (r + h) i) (Vm r i)) <= K * h.
Proof.
  destruct mo_move as (K & K0 & H). exists (K * W + (L * K + L)). split.
  { assert (0 <= K * W) by (apply Rmult_le_pos; assumption). assert (0 <= L * K) by (apply Rmult_le_pos; assumption). lra. }
  intros r i h Hi Ht. destruct (at_in r h Ht) as (Hr & Hr' & Hh).
  set (g := G r (X r) i). set (g' := G (r + h) (X (r + h)) i).
  assert (U : units (X r)) by (intros; apply mo_unit; assumption). assert (U' : units (X (r + h))) by (intros; apply mo_unit; assumption).
  unfold Vm. fold g g'.
  replace (vsub (cross (X (r + h) i) g') (cross (X r i) g)) with (vadd (cross (vsub (X (r + h) i) (X r i)) g') (cross (X r i) (vsub g' g)))
    by (apply v3_ext; cbn; ring).
  eapply Rle_trans; [apply norm_triangle|].
  assert (A : norm (cross (vsub (X (r + h) i) (X r i)) g') <= K * h * W).
  { eapply Rle_trans; [apply norm_cross|]. apply Rmult_le_compat; auto using norm_nonneg. apply HGb; assumption. }
  assert (B : norm (cross (X r i) (vsub g' g)) <= L * (K * h) + L * h).
  { eapply Rle_trans; [apply norm_cross_unit; apply U; exact Hi|].
    eapply Rle_trans; [apply (norm_tri3 _ (G (r + h) (X r) i))|]. apply Rplus_le_compat.
    - apply HGs; auto.
    - eapply Rle_trans; [apply HGt; assumption|]. replace (r + h - r) with h by ring. rewrite Rabs_pos_eq; lra. }
  lra.
Qed.
Lemma mo_jet : vjet Q 1 (fun r i h => X (r + h) i) X Vm (fun _ _ => vzero).
Proof.
  assert (D0 : vjet Q 0 (fun r i h => Vm (r + h) i) Vm (fun _ _ => vzero) (fun _ _ => vzero)).
  { destruct Vm_move as (K & K0 & H).
    assert (J1 := vjet_const lo hi Q 0 Vm (ex_intro _ W (fun r i Hi Hr => Vm_bound r i Hr Hi))).
    assert (J2 : vjet Q 0 (fun r i h => vsub (Vm (r + h) i) (Vm r i)) (fun _ _ => vzero) (fun _ _ => vzero) (fun _ _ => vzero)).
    { apply vjet_small. exists K. intros r i h Hi Ht. replace (h ^ (0 + 1)) with h by (cbn; ring). apply H; assumption. }
    eapply vjet_eq; [exact (vjet_add _ _ _ _ _ _ _ _ _ _ _ _ J1 J2)|..]; cbv beta.
    - intros r i h _ _. generalize (Vm r i), (Vm (r + h) i). intros. apply v3_ext; cbn; ring.
    - intros r i _ _. generalize (Vm r i). intros. apply v3_ext; cbn; ring.
    - intros. apply v3_ext; cbn; ring.
    - intros. apply v3_ext; cbn; ring. }
  eapply vjet_eq; [exact (vjet_int lo hi Q 0 (fun r i h => X (r + h) i) _ _ _ _ ltac:(lia) D0 mo_vel mo_b)|..]; cbv beta.
  - reflexivity.
  - intros. rewrite Rplus_0_r. reflexivity.
  - reflexivity.
  - intros. apply v3_ext; cbn; ring.
Qed.

(** one step, whatever moment of it the field is taken at *)
Lemma first_local : exists K, 0 <= K /\ forall r r' h i, at_time r h -> Rabs (r' - r) <= h -> (i < n)%nat ->
  norm (vsub (stp r' h (X r) i) (X (r + h) i)) <= K * (h * h).
Proof.
  pose proof rush0 as R0.
  set (A := 2 * rush). set (B := L * (2 * rush) + L). set (C := A * W + B + W * W + 2 * W ^ 3).
  assert (P : forall r r' h i, at_time r h -> Rabs (r' - r) <= h -> (i < n)%nat ->
    norm (vsub (stp r' h (X r) i) (vadd (X r i) (vscale h (Vm r i)))) <= C * (h * h)).
  { intros r r' h i Ht Hr' Hi. destruct (at_in r h Ht) as (Hr & _ & Hh).
    assert (U : units (X r)) by (intros; apply mo_unit; assumption).
    assert (Z : forall p, (p < n)%nat -> norm (vsub (X r p) (X r p)) <= 0) by (intros; rewrite vsub_self; lra).
    destruct (near r' h (X r) (X r) 0 U Hh Z) as (N1 & N2).
    set (S1 := stg r' 0 (h / 2) (X r)) in *. set (S2 := stg r' 1 h S1) in *.
    assert (U1 : units S1) by (apply stg_unit; exact U). assert (U2 : units S2) by (apply stg_unit; exact U1).
    assert (hr : 0 <= h * rush) by (apply Rmult_le_pos; lra).
    assert (N0 : forall p, (p < n)%nat -> norm (vsub (X r p) (X r p)) <= h * A) by (intros; rewrite vsub_self; unfold A; lra).
    assert (N1' : forall p, (p < n)%nat -> norm (vsub (S1 p) (X r p)) <= h * A) by (intros p Hp; pose proof (N1 p Hp); unfold A; lra).
    assert (N2' : forall p, (p < n)%nat -> norm (vsub (S2 p) (X r p)) <= h * A) by (intros p Hp; pose proof (N2 p Hp); unfold A; lra).
    assert (F : forall S, units S -> (forall p, (p < n)%nat -> norm (vsub (S p) (X r p)) <= h * A) ->
      norm (vsub (G r' S i) (G r (X r) i)) <= h * B).
    { intros S HS HN. eapply Rle_trans; [apply (norm_tri3 _ (G r' (X r) i))|].
      pose proof (HGs r' S (X r) _ i HS U HN Hi) as D1. pose proof (HGt r' r (X r) i U Hi) as D2.
      assert (L * Rabs (r' - r) <= L * h) by (apply Rmult_le_compat_l; assumption).
      replace (h * B) with (L * (h * A) + L * h) by (unfold B, A; ring). lra. }
    assert (TT : forall S a, units S -> (forall p, (p < n)%nat -> norm (vsub (S p) (X r p)) <= h * A) -> 0 <= a <= h ->
      norm (vsub (rotate RNum (S i) (G r' S i) a) (vadd (S i) (vscale a (Vm r i)))) <= a * h * C).
    { intros S a HS HN Ha. unfold C, Vm. apply turn; auto; lra. }
    unfold stp. fold S1 S2. destruct (onsub n 0 i) eqn:E0.
    - assert (E1 : onsub n 1 i = false).
      { apply Bool.not_true_iff_false. rewrite onsub_spec. apply onsub_spec in E0. lia. }
      assert (ES2 : S2 i = S1 i) by (unfold S2, stg; rewrite E1; reflexivity).
      assert (T1 := TT (X r) (h / 2) U N0 ltac:(lra)). assert (T2 := TT S2 (h / 2) U2 N2' ltac:(lra)).
      assert (ES1 : S1 i = rotate RNum (X r i) (G r' (X r) i) (h / 2)) by (unfold S1, stg; rewrite E0; reflexivity).
      unfold stg at 1. rewrite E0. rewrite ES2 in T2 |- *. rewrite <- ES1 in T1.
      set (S3 := rotate RNum (S1 i) (G r' S2 i) (h / 2)) in *.
      eapply Rle_trans; [apply (norm_tri3 _ (vadd (S1 i) (vscale (h / 2) (Vm r i))))|].
      replace (vsub (vadd (S1 i) (vscale (h / 2) (Vm r i))) (vadd (X r i) (vscale h (Vm r i)))) with
        (vsub (S1 i) (vadd (X r i) (vscale (h / 2) (Vm r i)))).
      2:{ generalize (S1 i), (Vm r i), (X r i). intros. apply v3_ext; cbn; field. }
      lra.
    - assert (E1 : onsub n 1 i = true).
      { apply onsub_spec. split; [exact Hi|]. apply Bool.not_true_iff_false in E0. rewrite onsub_spec in E0.
        pose proof (Nat.mod_upper_bound i 2). lia. }
      unfold stg at 1. rewrite E0. assert (ES2 : S2 i = rotate RNum (S1 i) (G r' S1 i) h) by (unfold S2, stg; rewrite E1; reflexivity).
      rewrite ES2. assert (ES1 : S1 i = X r i) by (unfold S1, stg; rewrite E0; reflexivity).
      assert (T1 := TT S1 h U1 N1' ltac:(lra)). rewrite ES1 in T1 |- *. lra. }
  destruct (vjet_close lo hi Q 1 _ (fun r i h => vadd (X r i) (vscale h (Vm r i))) _ _ _ mo_jet) as (K & K0 & HK).
  { assert (J1 := vjet_const lo hi Q 0 Vm (ex_intro _ W (fun r i Hi Hr => Vm_bound r i Hr Hi))).
    assert (J2 := vjet_h lo hi Q 0 _ _ _ _ ltac:(lia) J1).
    assert (J3 := vjet_const lo hi Q 1 X (ex_intro (fun K => forall r i, Q i -> lo <= r <= hi -> norm (X r i) <= K) 1 (fun r i Hi Hr => Req_le _ _ (unit3_norm _ (mo_unit r i Hr Hi))))).
    eapply vjet_eq; [exact (vjet_add _ _ _ _ _ _ _ _ _ _ _ _ J3 J2)|..]; cbv beta.
    - reflexivity.
    - intros r i _ _. generalize (X r i). intros. apply v3_ext; cbn; ring.
    - intros r i _ _. generalize (Vm r i). intros. apply v3_ext; cbn; ring.
    - intros. apply v3_ext; cbn; ring. }
  assert (C0 : 0 <= C).
  { unfold C, B, A. assert (0 <= W * W) by (apply Rmult_le_pos; assumption). assert (0 <= W ^ 3) by (apply pow_le; assumption).
    assert (0 <= 2 * rush * W) by (apply Rmult_le_pos; lra). assert (0 <= L * (2 * rush)) by (apply Rmult_le_pos; lra). lra. }
  exists (C + K). split; [lra|]. intros r r' h i Ht Hr' Hi.
  eapply Rle_trans; [apply (norm_tri3 _ (vadd (X r i) (vscale h (Vm r i))))|].
  pose proof (P r r' h i Ht Hr' Hi) as P1. pose proof (HK r i h Hi Ht) as P2. cbv beta in P2.
  assert (E : norm (vsub (vadd (X r i) (vscale h (Vm r i))) (X (r + h) i)) = norm (vsub (X (r + h) i) (vadd (X r i) (vscale h (Vm r i))))).
  { unfold norm. f_equal. generalize (X r i), (Vm r i), (X (r + h) i). intros. unfold dot; cbn. ring. }
  rewrite E. replace (h ^ (1 + 1)) with (h * h) in P2 by (cbn; ring). lra.
Qed.

Lemma first_global : exists K, 0 <= K /\ forall dt (tm : nat -> R) (U : nat -> nat -> vec), 0 < dt <= 1 ->
  (forall k, Rabs (tm k - (lo + INR k * dt)) <= dt) ->
  (forall i, (i < n)%nat -> U 0%nat i = X lo i) ->
  (forall k i, (i < n)%nat -> U (S k) i = stp (tm k) dt (U k) i) ->
  (forall k i, (i < n)%nat -> unit3 (U k i)) ->
  forall k i, lo + INR k * dt <= hi -> (i < n)%nat -> norm (vsub (U k i) (X (lo + INR k * dt) i)) <= K * dt.
Proof.
  destruct first_local as (K & K0 & HK).
  set (l := lipf). assert (l0 : 0 <= l) by (unfold l, lipf; apply Rmult_le_pos; lra).
  set (D := ((1 + l) ^ 2 + (1 + l) + 1) * (4 * W ^ 3)).
  assert (D0 : 0 <= D).
  { unfold D. assert (0 <= (1 + l) ^ 2) by (apply pow_le; lra). apply Rmult_le_pos; [lra|].
    apply Rmult_le_pos; [lra|]. apply pow_le; lra. }
  set (M := D + K). assert (M0 : 0 <= M) by (unfold M; lra).
  exists ((hi - lo) * M * exp (3 * l * (hi - lo))). split.
  { apply Rmult_le_pos; [apply Rmult_le_pos; lra|]. left. apply exp_pos. }
  intros dt tm U Hdt Htm HU0 HUS HUu.
  set (E := exp (3 * l * dt)).
  assert (E1 : 1 <= E).
  { unfold E. rewrite <- exp_0. destruct (Req_dec (3 * l * dt) 0) as [Z|Z]; [rewrite Z; lra|].
    left. apply exp_increasing. assert (0 <= 3 * l * dt) by (repeat apply Rmult_le_pos; lra). lra. }
  assert (Eq : (1 + dt * l) ^ 3 <= E).
  { replace E with (exp (dt * l) ^ 3).
    - apply pow_incr. assert (0 <= dt * l) by (apply Rmult_le_pos; lra). split; [lra|].
      destruct (Req_dec (dt * l) 0) as [Z|Z]; [rewrite Z, exp_0; lra|]. left. apply exp_ineq1. lra.
    - unfold E. replace (3 * l * dt) with (dt * l + (dt * l + (dt * l + 0))) by ring.
      rewrite !exp_plus, exp_0. reflexivity. }
  assert (d2 : 0 <= dt * dt) by apply Rle_0_sqr.
  assert (d3 : dt ^ 3 <= dt * dt). { replace (dt ^ 3) with (dt * dt * dt) by ring. rewrite <- (Rmult_1_r (dt * dt)) at 2. apply Rmult_le_compat_l; lra. }
  assert (GG : forall k, lo + INR k * dt <= hi -> forall i, (i < n)%nat ->
    norm (vsub (U k i) (X (lo + INR k * dt) i)) <= INR k * M * (dt * dt) * E ^ k).
  { induction k as [|k IH]; intros Hk i Hi.
    - cbn [INR]. rewrite !Rmult_0_l, Rplus_0_r, HU0 by exact Hi. rewrite vsub_self. lra.
    - rewrite S_INR in Hk. assert (Hk' : lo + INR k * dt <= hi) by lra.
      specialize (IH Hk'). pose proof (Htm k) as Hr'.
      set (r := lo + INR k * dt) in *.
      assert (Hr0 : lo <= r). { unfold r. assert (0 <= INR k * dt) by (apply Rmult_le_pos; [apply pos_INR|lra]). lra. }
      assert (Ht : at_time r dt). { unfold ProofsJet.at_time. assert (r + dt <= hi) by (unfold r; lra). lra. }
      assert (Hd1 : 0 <= dt <= 1) by lra.
      replace (lo + INR (S k) * dt) with (r + dt) by (rewrite S_INR; unfold r; ring).
      rewrite HUS by exact Hi.
      eapply Rle_trans; [apply (norm_tri3 _ (stp (tm k) dt (X r) i))|].
      set (e := INR k * M * (dt * dt) * E ^ k) in *.
      assert (Ek : 1 <= E ^ k) by (apply pow_R1_Rle; exact E1).
      assert (P1 : 0 <= INR k * M * (dt * dt)) by (apply Rmult_le_pos; [apply Rmult_le_pos; [apply pos_INR|exact M0]|exact d2]).
      assert (He : 0 <= e) by (unfold e; apply Rmult_le_pos; lra).
      assert (A := stp_diff (tm k) (U k) (X r) e dt (HUu k) (fun p Hp => mo_unit r p (proj1 (at_in r dt Ht)) Hp) Hd1 He IH i Hi).
      fold l in A. fold D in A.
      assert (B := HK r (tm k) dt i Ht Hr' Hi).
      assert (C : (1 + dt * l) ^ 3 * e <= E * e) by (apply Rmult_le_compat_r; assumption).
      assert (D3 : D * dt ^ 3 <= D * (dt * dt)) by (apply Rmult_le_compat_l; assumption).
      apply Rle_trans with (E * e + M * (dt * dt)); [unfold M; rewrite Rmult_plus_distr_r; lra|].
      rewrite S_INR. replace ((INR k + 1) * M * (dt * dt) * E ^ S k) with (E * e + M * (dt * dt) * E ^ S k) by (unfold e; simpl; ring).
      apply Rplus_le_compat_l. rewrite <- (Rmult_1_r (M * (dt * dt))) at 1. apply Rmult_le_compat_l; [apply Rmult_le_pos; assumption|].
      apply pow_R1_Rle; exact E1. }
  intros k i Hk Hi. eapply Rle_trans; [apply GG; assumption|].
  assert (Ek : E ^ k <= exp (3 * l * (hi - lo))).
  { replace (E ^ k) with (exp (3 * l * (INR k * dt))).
    - assert (Z : 3 * l * (INR k * dt) <= 3 * l * (hi - lo)) by (apply Rmult_le_compat_l; lra).
      destruct Z as [Z|Z]; [left; apply exp_increasing; exact Z|rewrite Z; lra].
    - unfold E. clear. induction k; [cbn [INR pow]; rewrite Rmult_0_l, Rmult_0_r; apply exp_0|].
      change (exp (3 * l * dt) ^ S k) with (exp (3 * l * dt) * exp (3 * l * dt) ^ k). rewrite <- IHk, <- exp_plus, S_INR. f_equal. ring. }
  assert (0 <= INR k * dt) by (apply Rmult_le_pos; [apply pos_INR|lra]).
  replace (INR k * M * (dt * dt) * E ^ k) with ((INR k * dt) * M * E ^ k * dt) by ring.
  apply Rmult_le_compat_r; [lra|].
  apply Rmult_le_compat; [apply Rmult_le_pos; lra|apply pow_le; lra| |exact Ek].
  apply Rmult_le_compat_r; [exact M0|lra].
Qed.
End First.

(** A continuous vector that never vanishes on an interval has a least length *)
Lemma gap_of lo hi n (f : R -> nat -> vec) : lo <= hi -> (forall x i, lo <= x <= hi -> (i < n)%nat -> vcont (fun r => f r i) x) ->
  (forall x i, lo <= x <= hi -> (i < n)%nat -> f x i <> vzero) ->
  exists m, 0 < m /\ forall x i, lo <= x <= hi -> (i < n)%nat -> m <= norm (f x i).
Proof.
  intros Hlh Hc HO.
  assert (G : forall k, (k <= n)%nat -> exists m, 0 < m /\ forall x i, lo <= x <= hi -> (i < k)%nat -> m <= norm (f x i)).
  { induction k as [|k IH]; intro Hk.
    - exists 1. split; [lra|]. intros; lia.
    - destruct (IH ltac:(lia)) as (m & Hm & H).
      destruct (continuity_ab_min (fun r => dot (f r k) (f r k)) lo hi Hlh) as (y & Hmin & Hy).
      { intros c Hc'. destruct (Hc c k Hc' ltac:(lia)) as (A & B & C). unfold dot.
        apply (continuity_pt_plus _ _ c); [apply (continuity_pt_plus _ _ c)|];
          [apply (continuity_pt_mult (fun r => vx (f r k)) (fun r => vx (f r k)))
          |apply (continuity_pt_mult (fun r => vy (f r k)) (fun r => vy (f r k)))
          |apply (continuity_pt_mult (fun r => vz (f r k)) (fun r => vz (f r k)))]; assumption. }
      assert (Ny : 0 < norm (f y k)) by (apply norm_pos, HO; [exact Hy|lia]).
      exists (Rmin m (norm (f y k))). split; [apply Rmin_glb_lt; assumption|].
      intros x i Hx Hi. destruct (Nat.eq_dec i k) as [->|Ni].
      + eapply Rle_trans; [apply Rmin_r|]. apply sqrt_le_1_alt. apply Hmin. exact Hx.
      + eapply Rle_trans; [apply Rmin_l|]. apply H; [exact Hx|lia]. }
  destruct (G n ltac:(lia)) as (m & Hm & H). exists m. split; assumption.
Qed.
