(** Lost spins stay lost and take their neighbours along. *)
From Coq Require Import ZArith Reals List Lia Bool Arith.
From Coq Require Import Floats.SpecFloat.
From Verif Require Import Num Monad NumR NumF64 Spin Config Chain SpecVec SpecChain SpecRound SpecClose SpecKeep
  ProofsF64 ProofsChain ProofsDyn ProofsDynR ProofsClose3 ProofsKeep ProofsKeep3.
Import ListNotations.
Local Open Scope nat_scope.

Section Spread.
Context (L : libm) (M : nat) (J h : nat -> v3 f64).

Lemma stage_self b x S p : lost (S p) -> lost (stageF (F64 L) M b J h x S p).
Proof.
  intro H. unfold stageF. destruct (onsub M b p); [|exact H]. rewrite (rotate_F64_nan_spin L _ _ _ H). exact lost_3f.
Qed.
Lemma stage_nbr x S p : p < M -> lost (S (lft M p)) \/ lost (S (rgt M p)) -> lost (stageF (F64 L) M (p mod 2) J h x S p).
Proof.
  intros Hp H. unfold stageF. rewrite (proj2 (onsub_spec M (p mod 2) p) (conj Hp eq_refl)).
  rewrite rotate_lost_field by (apply omF_lost; exact H). exact lost_3f.
Qed.
Lemma trot_spread x2 x S p : p < M -> lost (S p) \/ lost (S (lft M p)) \/ lost (S (rgt M p)) -> lost (trotF (F64 L) M J h x2 x S p).
Proof.
  intros Hp [H|H]; unfold trotF.
  - do 3 apply stage_self. exact H.
  - assert (P : p mod 2 = 0 \/ p mod 2 = 1) by (pose proof (Nat.mod_upper_bound p 2); lia). destruct P as [P|P].
    + rewrite <- P at 1. apply stage_nbr; [exact Hp|]. destruct H as [H|H]; [left|right]; do 2 apply stage_self; exact H.
    + apply stage_self. rewrite <- P. apply stage_nbr; [exact Hp|]. destruct H as [H|H]; [left|right]; apply stage_self; exact H.
Qed.
End Spread.

Section Run.
Context (L : libm) (n s : nat) (Hn : 2 <= n).
Notation M := (2 * (n / 2)).

Lemma lost_at (sp : list (v3 f64)) p : p < length sp -> lost (nth p sp (mk3 S754_nan S754_nan S754_nan)) <-> lost (at3 (F64 L) sp p).
Proof. intro H. unfold at3. rewrite (nth_indep sp _ (z3 (F64 L)) H). reflexivity. Qed.

Lemma M_le : M <= n. Proof. apply Nat.mul_div_le. discriminate. Qed.
Lemma M_pos : 2 <= M.
Proof. pose proof (Nat.div_le_mono 2 n 2 ltac:(discriminate) Hn) as H. change (2 / 2) with 1 in H. lia. Qed.

Lemma update_spread (c F : chain f64) p : wf n s c -> hs_ok (vars c) -> update (F64 L) c = Ok F -> p < M ->
  lost (fspin c p) \/ lost (fspin c (lft M p)) \/ lost (fspin c (rgt M p)) -> lost (fspin F p).
Proof.
  intros W Hh E Hp H. pose proof M_le as Q. pose proof M_pos as Q2.
  destruct (update_pure (F64 L) n s c W Hn Hh) as (sp & Eu & Len & A).
  assert (E' := eq_trans (eq_sym Eu) E). injection E' as <-.
  assert (LS : length (spins c) = n) by apply (wf_spins _ _ _ W).
  assert (B1 : lft M p < n) by (pose proof (lft_lt M p Hp); lia).
  assert (B2 : rgt M p < n) by (pose proof (rgt_lt M p Hp); lia).
  unfold fspin in *. cbn [spins]. apply lost_at; [apply (Nat.lt_le_trans _ n); [lia|apply Nat.eq_le_incl; symmetry; exact Len]|].
  rewrite A. apply trot_spread; [exact Hp|].
  rewrite !lost_at in H by (rewrite LS; lia). exact H.
Qed.

(** after k steps every spin at most k places away is lost *)
Lemma run_spread (c : chain f64) k (F : chain f64) i j d : wf n s c -> hs_ok (vars c) -> iterM (update (F64 L)) k c = Ok F ->
  i < M -> j < M -> d <= k -> j = (i + d) mod M \/ i = (j + d) mod M -> lost (fspin c i) -> lost (fspin F j).
Proof.
  intros W Hh E Hi Hj Hd Hij Hl. revert F j d E Hj Hd Hij. induction k as [|k IH]; intros F j d E Hj Hd Hij.
  - cbn in E. injection E as <-. assert (d = 0) as -> by lia. rewrite !Nat.add_0_r in Hij. rewrite !Nat.mod_small in Hij by assumption.
    destruct Hij as [->| <-]; exact Hl.
  - rewrite iterM_snoc in E. destruct (iterM (update (F64 L)) k c) as [G| |] eqn:EG; try discriminate E. cbn [bind] in E.
    destruct (wf_run L n s c k G W EG Hn Hh) as (WG & _ & _ & V).
    assert (Hh' : hs_ok (vars G)) by exact (eq_ind_r (fun v => hs_ok v) Hh V).
    apply (update_spread G F j WG Hh' E Hj).
    destruct (le_lt_dec d k) as [K|K]; [left; exact (IH G j d eq_refl Hj K Hij)|]. assert (d = k + 1) as -> by lia. right.
    pose proof M_pos as Q. destruct Hij as [Hij|Hij].
    + left. assert (B : (i + k) mod M < M) by (apply Nat.mod_upper_bound; lia).
      assert (Ej : j = rgt M ((i + k) mod M)) by (rewrite (rgt_mod M _ B), Nat.add_mod_idemp_l by lia; rewrite Hij; f_equal; lia).
      rewrite Ej, (lft_rgt M _ B). apply (IH G _ k eq_refl B (Nat.le_refl k)). left. reflexivity.
    + right. assert (B := rgt_lt M j Hj). apply (IH G _ k eq_refl B (Nat.le_refl k)). right.
      rewrite (rgt_mod M j Hj), Nat.add_mod_idemp_l by lia. rewrite Hij. f_equal. lia.
Qed.

Lemma all_lost (c : chain f64) k (F : chain f64) i : wf n s c -> hs_ok (vars c) -> iterM (update (F64 L)) k c = Ok F ->
  i < M -> n / 2 <= k -> lost (fspin c i) -> forall j, j < M -> lost (fspin F j).
Proof.
  intros W Hh E Hi Hk Hl j Hj. pose proof M_pos as Q.
  assert (A : forall a b, a <= b -> b < M -> b - a <= n / 2 \/ (M + a - b) <= n / 2) by (intros; lia).
  destruct (le_lt_dec i j) as [K|K].
  - destruct (A i j K Hj) as [B|B].
    + apply (run_spread c k F i j (j - i) W Hh E Hi Hj); [lia| |exact Hl]. left. replace (i + (j - i)) with j by lia. symmetry. apply Nat.mod_small, Hj.
    + apply (run_spread c k F i j (M + i - j) W Hh E Hi Hj); [lia| |exact Hl]. right. replace (j + (M + i - j)) with (i + 1 * M) by lia.
      rewrite Nat.mod_add by lia. symmetry. apply Nat.mod_small, Hi.
  - destruct (A j i ltac:(lia) Hi) as [B|B].
    + apply (run_spread c k F i j (i - j) W Hh E Hi Hj); [lia| |exact Hl]. right. replace (j + (i - j)) with i by lia. symmetry. apply Nat.mod_small, Hi.
    + apply (run_spread c k F i j (M + j - i) W Hh E Hi Hj); [lia| |exact Hl]. left. replace (i + (M + j - i)) with (j + 1 * M) by lia.
      rewrite Nat.mod_add by lia. symmetry. apply Nat.mod_small, Hj.
Qed.
End Run.
