(** Energy changes of the Magnus samplers in exact arithmetic. *)
From Coq Require Import Reals Lra Lia List ZArith Arith Bool.
From Verif Require Import Num Monad NumR Spin Config Chain Langevin SpecVec SpecChain SpecMC
  ProofsSpin ProofsChain ProofsEnergy ProofsDyn ProofsDynR ProofsDyn2 ProofsMC ProofsMCR.
Import ListNotations.
Local Open Scope R_scope.

Lemma omega_nz sc : tau (vars sc) <> 0 -> omega sc <> 0.
Proof.
  intro H. unfold omega, Rdiv. apply Rmult_integral_contrapositive_currified.
  - pose proof PI_RGT_0. lra.
  - apply Rinv_neq_0_compat. exact H.
Qed.
Lemma om_fin sc : tau (vars sc) <> 0 -> om_ ERNum (fin sc) = Some (omega sc).
Proof. intro H. unfold om_. change (tau (vars (fin sc))) with (Some (tau (vars sc))). exact (er_div_ok _ _ H). Qed.
Lemma om_nan sc : tau (vars sc) = 0 -> om_ ERNum (fin sc) = None.
Proof.
  intro H. unfold om_. change (tau (vars (fin sc))) with (Some (tau (vars sc))). rewrite H.
  exact (er_div_zero _).
Qed.
Lemma div2_ok x : er_div (Some x) (Some 2) = Some (x / 2).
Proof. apply er_div_ok. lra. Qed.

Lemma de_maglab_ER w a b c d e f : w <> 0 ->
  de_maglab ERNum (Some w) (fin3 a) (fin3 b) (fin3 c) (fin3 d) (fin3 e) (fin3 f) =
  Some (de_maglab RNum w a b c d e f).
Proof.
  intro H. unfold de_maglab.
  assert (D : forall x, ndiv ERNum (Some x) (nmul ERNum (nofZ ERNum 2) (Some w)) = Some (x / (2 * w))).
  { intro x. apply er_div_ok. lra. }
  change (vz (fin3 e)) with (Some (vz e)). change (vz (fin3 f)) with (Some (vz f)). rewrite !D. reflexivity.
Qed.

Lemma e_rot_ER e0 w b a1 a2 a3 a4 a5 j1 j2 j3 j4 : w <> 0 ->
  e_rot ERNum (Some e0) (Some w) b (fin3 a1) (fin3 a2) (fin3 a3) (fin3 a4) (fin3 a5) (fin3 j1) (fin3 j2) (fin3 j3) (fin3 j4) =
  Some (e_rot RNum e0 w b a1 a2 a3 a4 a5 j1 j2 j3 j4).
Proof.
  intro H. unfold e_rot.
  assert (M : mg_add ERNum (nofZ ERNum 0) (fin3 a1) (fin3 a2) (fin3 a3) (fin3 a4) (fin3 a5) (fin3 j1) (fin3 j2) (fin3 j3) (fin3 j4)
    = Some (mg_add RNum 0 a1 a2 a3 a4 a5 j1 j2 j3 j4)) by reflexivity.
  rewrite M.
  assert (D : forall x, ndiv ERNum (Some x) (nmul ERNum (nofZ ERNum 16) (Some w)) = Some (x / (16 * w))).
  { intro x. apply er_div_ok. lra. }
  rewrite D. destruct b; reflexivity.
Qed.

Lemma nlit_half : nlit RNum 5 1 = 1 / 2.
Proof. cbn. lra. Qed.

Section Changes.
Context (n s : nat) (sc : chain R) (W : wf n s sc) (i : nat) (Hi : (i < n)%nat) (v : vec).
Notation S := (S_ sc). Notation J := (J_ sc). Notation h := (h_ sc).
Notation l := (lft n). Notation r := (rgt n).
Notation S' := (S_ (moved sc i v)).

Lemma dML_value : (2 <= n)%nat -> tau (vars sc) <> 0 ->
  dML ERNum n (fin sc) i (fin3 v) =
  Some (lab_energy n (omega sc) S' (J_ (moved sc i v)) - lab_energy n (omega sc) S J).
Proof.
  intros Hn Ht. unfold dML. rewrite !spins_fin, !js_fin. rewrite (om_fin sc Ht).
  rewrite de_maglab_ER by (apply omega_nz; exact Ht). f_equal.
  change (J_ (moved sc i v)) with J. unfold lab_energy, bond.
  rewrite !(Rsum_mod n (fun a b => - dot (_ a) (vhad (_ a) (_ b)) - vz (_ a) / (2 * omega sc))).
  rewrite (change_bonds n s sc W i Hi v (fun k a b => - dot a (vhad (J k) b) - vz a / (2 * omega sc)) Hn).
  unfold de_maglab, for3, dot, vhad. cbn. lra.
Qed.

Lemma Rsum_mod3 (F : nat -> nat -> nat -> R) :
  Rsum n (fun k => F ((k + (n - 1)) mod n)%nat k ((k + 1) mod n)%nat) = Rsum n (fun k => F (l k) k (r k)).
Proof. apply Rsum_ext. intros k Hk. rewrite (rgt_mod n k Hk), (lft_mod' n k Hk). reflexivity. Qed.

Definition mgR (S : nat -> vec) (k : nat) : R :=
  mg_add RNum 0 (S (l (l k))) (S (l k)) (S k) (S (r k)) (S (r (r k))) (J (l (l k))) (J (l k)) (J k) (J (r k)).

Lemma mg_change : (3 <= n)%nat ->
  (Rsum n (fun k => bond_corr S' J k (r k)) - Rsum n (fun k => bond_corr S J k (r k)))
  + (Rsum n (fun k => trip_corr S' J (l k) k (r k)) - Rsum n (fun k => trip_corr S J (l k) k (r k)))
  = mg_add RNum 0 (S (l (l i))) (S (l i)) v (S (r i)) (S (r (r i))) (J (l (l i))) (J (l i)) (J i) (J (r i))
    - mgR S i.
Proof.
  intro Hn. assert (Hn2 : (2 <= n)%nat) by lia. unfold bond_corr, trip_corr.
  rewrite (change_bonds n s sc W i Hi v (fun k a b => aniso J k * aniso J k * (planar a a * vz b + planar b b * vz a)) Hn2).
  rewrite (change_trips n s sc W i Hi v (fun k a b c => aniso J (l k) * aniso J k * (2 * planar a c * vz b)) Hn).
  rewrite (lft_rgt n i Hi).
  unfold mgR, mg_add, zxi_trip, aniso, planar. cbn. ring.
Qed.

Lemma dR_value : (3 <= n)%nat -> tau (vars sc) <> 0 ->
  dR ERNum n s (fin sc) i (fin3 v) =
  Some (rot_energy 1 1 n s (omega sc) S' (J_ (moved sc i v)) - rot_energy 1 1 n s (omega sc) S J).
Proof.
  intros Hn Ht. assert (Hn2 : (2 <= n)%nat) by lia.
  pose proof (omega_nz sc Ht) as Hw.
  unfold dR, eR. rewrite !spins_fin, !js_fin. rewrite (om_fin sc Ht).
  change (nofZ ERNum 0) with (Some 0).
  rewrite e_rot_ER by exact Hw.
  change (nopp ERNum (Some ?x)) with (Some (- x)).
  rewrite e_rot_ER by exact Hw. f_equal.
  change (J_ (moved sc i v)) with J. unfold rot_energy.
  rewrite !(Rsum_mod n (fun a b => rot_bond_energy _ J a b - omega sc * vz (_ a))).
  rewrite !(Rsum_mod n (fun a b => bond_corr _ J a b)), !(Rsum_mod3 (fun a b c => trip_corr _ J a b c)).
  pose proof (mg_change Hn) as Q. unfold mgR in Q.
  assert (Q1 : Rsum n (fun a => rot_bond_energy S' J a (r a) - omega sc * vz (S' a))
             - Rsum n (fun a => rot_bond_energy S J a (r a) - omega sc * vz (S a)) =
    - ((vx (J i) + vy (J i)) / 2 * planar v (S (r i)) + vz (J i) * (vz v * vz (S (r i)))) - omega sc * vz v
    - (- ((vx (J i) + vy (J i)) / 2 * planar (S i) (S (r i)) + vz (J i) * (vz (S i) * vz (S (r i)))) - omega sc * vz (S i))
    + ((- ((vx (J (l i)) + vy (J (l i))) / 2 * planar (S (l i)) v + vz (J (l i)) * (vz (S (l i)) * vz v)) - omega sc * vz (S (l i)))
       - (- ((vx (J (l i)) + vy (J (l i))) / 2 * planar (S (l i)) (S i) + vz (J (l i)) * (vz (S (l i)) * vz (S i))) - omega sc * vz (S (l i)))))
    by exact (change_bonds n s sc W i Hi v (fun k a b => - ((vx (J k) + vy (J k)) / 2 * planar a b + vz (J k) * (vz a * vz b)) - omega sc * vz a) Hn2).
  assert (Q2 : Rsum s (fun k => vx (S' k)) - Rsum s (fun k => vx (S k)) = if i <? s then vx v - vx (S i) else 0).
  { rewrite <- !(Rsum_if n s) by apply (wf_sub _ _ _ W).
    rewrite (change_site n s sc W i Hi v (fun k a => if k <? s then vx a else 0)). destruct (i <? s); lra. }
  unfold e_rot.
  match type of Q with (?a - ?b) + (?c - ?d) = ?e - ?f =>
    set (C' := a) in *; set (C := b) in *; set (D' := c) in *; set (D := d) in *; idtac end.
  match type of Q1 with ?a - ?b = _ => set (A' := a) in *; set (A := b) in * end.
  match type of Q2 with ?a - ?b = _ => set (B' := a) in *; set (B := b) in * end.
  clearbody A A' B B' C C' D D'.
  match goal with |- @eq _ ?a ?b => change (@eq R a b) end.
  transitivity ((A' - A) + (B' - B) - ((C' - C) + (D' - D)) / (16 * omega sc)); [|field; exact Hw].
  rewrite Q, Q1, Q2. unfold for2, planar. rewrite nlit_half. unfold mg_add, zxi_trip.
  destruct (i <? s); cbn -[omega]; field; exact Hw.
Qed.
End Changes.
