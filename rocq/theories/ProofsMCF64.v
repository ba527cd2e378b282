(** NaN spins and the samplers in binary64. *)
From Coq Require Import ZArith List Bool Lia Arith.
From Coq Require Import Floats.SpecFloat.
From Verif Require Import Num Monad NumR NumF64 Spin Config Chain SpecVec SpecChain SpecMC ProofsF64 ProofsChain ProofsDyn ProofsDynR ProofsDyn4 ProofsMC ProofsMCR5.
Import ListNotations.

Lemma f_opp_nan : SFopp NaN = NaN. Proof. reflexivity. Qed.
Lemma f_ltb_nan_l x : SFltb NaN x = false. Proof. destruct x; reflexivity. Qed.
Lemma f_ltb_nan_r x : SFltb x NaN = false. Proof. destruct x as [[]|[]| |[] ? ?]; reflexivity. Qed.
#[export] Hint Rewrite f_opp_nan f_ltb_nan_l f_ltb_nan_r : nan.

Section NanSpins.
Context (L : libm).
Notation N := (F64 L).
Ltac start := cbv zeta; cbn [nadd nsub nmul ndiv nopp nofZ nlit npi F64]; change (num N) with f64 in *.
Ltac nan_by H := destruct H as [[H|[H|H]]|[[H|[H|H]]|[H|[H|H]]]]; rewrite ?H; autorewrite with nan; reflexivity.
Definition nan_near (l c r : v3 f64) : Prop := some_nan l \/ some_nan c \/ some_nan r.

Lemma de_plain_nan sl sr jl jr h c v : nan_near sl c sr -> de_plain N sl sr jl jr h c v = NaN.
Proof. intro H. unfold de_plain, for3. start. nan_by H. Qed.
Lemma de_maglab_nan om sl sr jl jr c v : nan_near sl c sr -> de_maglab N om sl sr jl jr c v = NaN.
Proof. intro H. unfold de_maglab, for3. start. nan_by H. Qed.
Lemma e_rot_nan e0 om b sll sl c sr srr jll jl jr jrr : nan_near sl c sr -> e_rot N e0 om b sll sl c sr srr jll jl jr jrr = NaN.
Proof.
  intro H. unfold e_rot, for2. cbv zeta. set (m := mg_add _ _ _ _ _ _ _ _ _ _ _). clearbody m. start. nan_by H.
Qed.
Lemma e_rot_nan0 om b sll sl c sr srr jll jl jr jrr : e_rot N NaN om b sll sl c sr srr jll jl jr jrr = NaN.
Proof.
  unfold e_rot, for2. cbv zeta. set (m := mg_add _ _ _ _ _ _ _ _ _ _ _). clearbody m. start. autorewrite with nan. reflexivity.
Qed.
Lemma de_mag_full_nan om b s1 sl c sr s5 j1 j2 j3 j4 v : nan_near sl c sr -> de_mag_full N om b s1 sl c sr s5 j1 j2 j3 j4 v = NaN.
Proof.
  intro H. unfold de_mag_full, for3. cbv zeta.
  generalize (mf_e1 N b sl c sr j2 j3) (mf_e1 N b sl v sr j2 j3) (mf_e2 N b s1 sl c sr s5 j1 j2 j3 j4) (mf_e2 N b s1 sl v sr s5 j1 j2 j3 j4).
  intros. start. nan_by H.
Qed.
Lemma de_magnus_nan tau b f la s1 sl c sr s5 j1 j2 j3 j4 v : nan_near sl c sr -> de_magnus N tau b f la s1 sl c sr s5 j1 j2 j3 j4 v = NaN.
Proof.
  intro H. unfold de_magnus, for3. cbv zeta.
  generalize (magnus_bracket N f la (vz c) s1 sl c sr s5 j1 j2 j3 j4) (magnus_bracket N f la (vz c) s1 sl v sr s5 j1 j2 j3 j4).
  intros. destruct b; start; nan_by H.
Qed.

Context (Lexp : l_exp L NaN = NaN).
Lemma acceptP_rejects (sc : chain f64) i v u : acceptP N sc i v NaN u = sc.
Proof.
  unfold acceptP. cbn [nltb nexp nmul nopp F64]. rewrite f_ltb_nan_l, f_mul_nan_r, Lexp, f_ltb_nan_r. reflexivity.
Qed.

Definition spin_at (sc : chain f64) (i : nat) : v3 f64 := nth i (spins sc) (mk3 (S754_zero false) (S754_zero false) (S754_zero false)).

Lemma sample_nan n s (sc : chain f64) k d : wf n s sc -> 2 <= n ->
  (let i := d_idx d mod n in
   some_nan (spin_at sc (lft n i)) \/ some_nan (spin_at sc i) \/ some_nan (spin_at sc (rgt n i))) ->
  sample N k d sc = Ok sc.
Proof.
  intros W Hn H. cbv zeta in H.
  assert (W' : @wf (num N) n s sc) by exact W.
  assert (Hi : d_idx d mod n < n) by (apply Nat.mod_upper_bound; lia).
  assert (Q : forall i, i < n -> spin_at sc i = nth i (spins sc) (mk3 (nofZ N 0) (nofZ N 0) (nofZ N 0))) by reflexivity.
  unfold spin_at in H.
  destruct k; cbn [sample].
  - etransitivity; [apply (plain_pure N n s); [exact W'|lia]|]. unfold dP.
    erewrite de_plain_nan; [rewrite acceptP_rejects; reflexivity|exact H].
  - etransitivity; [apply (maglab_pure N n s); [exact W'|lia]|]. unfold dML.
    erewrite de_maglab_nan; [rewrite acceptP_rejects; reflexivity|exact H].
  - etransitivity; [apply (rot_pure N n s); [exact W'|lia]|]. unfold dR, eR.
    erewrite (e_rot_nan (nofZ N 0)); [|exact H]. change (nopp N NaN) with NaN.
    erewrite e_rot_nan0. rewrite acceptP_rejects. reflexivity.
  - etransitivity; [apply (magnus_pure N n s); [exact W'|lia]|]. unfold dMG.
    erewrite de_magnus_nan; [rewrite acceptP_rejects; reflexivity|exact H].
  - etransitivity; [apply (magfull_pure N n s); [exact W'|lia]|]. unfold dMF.
    erewrite de_mag_full_nan; [rewrite acceptP_rejects; reflexivity|exact H].
Qed.

(** a NaN spin and its two neighbours are frozen for ever *)
Lemma samples_nan n s i l : forall (sc : chain f64), wf n s sc -> 2 <= n -> i < n -> some_nan (spin_at sc i) ->
  exists sc', samples N l sc = Ok sc' /\ wf n s sc' /\
    spin_at sc' i = spin_at sc i /\ spin_at sc' (lft n i) = spin_at sc (lft n i) /\ spin_at sc' (rgt n i) = spin_at sc (rgt n i).
Proof.
  induction l as [|[k d] l IH]; intros sc W Hn Hi H.
  - exists sc. auto.
  - unfold samples. cbn [foldM fst snd].
    assert (W' : @wf (num N) n s sc) by exact W.
    assert (S : exists sc1, sample N k d sc = Ok sc1 /\ wf n s sc1 /\
      spin_at sc1 i = spin_at sc i /\ spin_at sc1 (lft n i) = spin_at sc (lft n i) /\ spin_at sc1 (rgt n i) = spin_at sc (rgt n i)).
    { set (p := d_idx d mod n).
      assert (Hp : p < n) by (apply Nat.mod_upper_bound; lia).
      destruct (Nat.eq_dec p i) as [E0|N1]; [|destruct (Nat.eq_dec p (lft n i)) as [E|N2]; [|destruct (Nat.eq_dec p (rgt n i)) as [E|N3]]].
      - exists sc. split; [|auto]. apply (sample_nan n s); auto. fold p. cbv zeta. right. left. rewrite E0. exact H.
      - exists sc. split; [|auto]. apply (sample_nan n s); auto. fold p. cbv zeta. right. right.
        replace (rgt n p) with i; [exact H|]. rewrite E. unfold rgt, lft. destruct (Nat.eqb_spec i 0);
        repeat match goal with |- context [?a =? ?b] => destruct (Nat.eqb_spec a b) end; lia.
      - exists sc. split; [|auto]. apply (sample_nan n s); auto. fold p. cbv zeta. left.
        replace (lft n p) with i; [exact H|]. rewrite E. unfold rgt, lft. destruct (Nat.eqb_spec (i + 1) n);
        repeat match goal with |- context [?a =? ?b] => destruct (Nat.eqb_spec a b) end; lia.
      - destruct (sample_frame N n s sc k d W' Hn) as [sp' [E [Ln F]]].
        eexists. split; [exact E|]. split; [apply (wf_spins_change n s sc sp' W Ln)|].
        assert (G : forall q, q < n -> q <> p -> spin_at (mkChain (j_couple sc) (static_h sc) sp' (t sc) (vars sc) (has_file sc)) q = spin_at sc q).
        { intros q Hq Nq. unfold spin_at. cbn [spins]. specialize (F q Nq).
          apply nth_error_nth. etransitivity; [exact F|]. apply nth_error_nth'. rewrite (wf_spins _ _ _ W). exact Hq. }
        repeat split; apply G; auto using lft_lt, rgt_lt. }
    destruct S as [sc1 [E [W1 [A [B C]]]]]. rewrite E. cbn [bind].
    destruct (IH sc1 W1 Hn Hi) as [sc' [E' [W2 [A' [B' C']]]]]; [rewrite A; exact H|].
    exists sc'. split; [exact E'|]. split; [exact W2|]. rewrite A', B', C', A, B, C. auto.
Qed.
End NanSpins.
Lemma sample_nan_mod L : l_exp L NaN = NaN ->
  forall n s (sc : chain f64) k d, wf n s sc -> 2 <= n ->
  (let i := d_idx d mod n in
   some_nan (spin_at sc ((i + (n - 1)) mod n)) \/ some_nan (spin_at sc i) \/ some_nan (spin_at sc ((i + 1) mod n))) ->
  sample (F64 L) k d sc = Ok sc.
Proof.
  intros He n s sc k d W Hn H. apply (sample_nan L He n s); auto. cbv zeta in *.
  assert (Hi : d_idx d mod n < n) by (apply Nat.mod_upper_bound; lia).
  rewrite <- (lft_mod n _ Hi), <- (rgt_mod n _ Hi) in H. exact H.
Qed.
Lemma samples_nan_mod L : l_exp L NaN = NaN ->
  forall n s i l (sc : chain f64), wf n s sc -> 2 <= n -> i < n -> some_nan (spin_at sc i) ->
  exists sc', samples (F64 L) l sc = Ok sc' /\ wf n s sc' /\
    spin_at sc' i = spin_at sc i /\ spin_at sc' ((i + (n - 1)) mod n) = spin_at sc ((i + (n - 1)) mod n) /\
    spin_at sc' ((i + 1) mod n) = spin_at sc ((i + 1) mod n).
Proof.
  intros He n s i l sc W Hn Hi H. rewrite <- (lft_mod n _ Hi), <- (rgt_mod n _ Hi).
  apply (samples_nan L He n s); auto.
Qed.
