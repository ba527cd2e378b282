(** The energy changes used by the first- and second-order samplers. *)
From Coq Require Import Reals Lra Lia List ZArith Arith Bool.
From Verif Require Import Num Monad NumR Spin Config Chain Langevin SpecVec SpecChain SpecMC SpecMagnus Samples
  ProofsSpin ProofsChain ProofsEnergy ProofsDyn ProofsDynR ProofsDyn2 ProofsMC ProofsMCR ProofsMCR2 ProofsMCR3 ProofsMCR4
  ProofsMCR6 ProofsMCR7 ProofsMCR8 ProofsMCR9.
Import ListNotations.
Local Open Scope R_scope.

Section Change.
Context (n s : nat) (sc : chain R) (W : wf n s sc) (i : nat) (Hi : (i < n)%nat) (v : vec) (Hn : (3 <= n)%nat).
Notation S := (S_ sc). Notation J := (J_ sc).
Notation l := (lft n). Notation r := (rgt n).
Notation S' := (S_ (moved sc i v)).

Lemma bf k : (k < n)%nat -> before_of n k = l k.
Proof. intro H. apply lft_mod'. exact H. Qed.
Lemma af k : (k < n)%nat -> after_of n k = r k.
Proof. intro H. symmetry. apply rgt_mod. exact H. Qed.

Definition fexch (k : nat) (a b : vec) : R := - dot a (vhad (J k) b).
Lemma exch_change : change (fun S => exchange_energy n S J) sc i v =
  (fexch i v (S (r i)) - fexch i (S i) (S (r i))) + (fexch (l i) (S (l i)) v - fexch (l i) (S (l i)) (S i)).
Proof.
  unfold change, exchange_energy, bond.
  rewrite !(Rsum_mod n (fun a b => - dot (_ a) (vhad (J a) (_ b)))).
  exact (change_bonds n s sc W i Hi v fexch ltac:(lia)).
Qed.

Definition fone (k : nat) (a b : vec) : R :=
  - vz a / 2 - (vz (J k) - vx (J k)) * (vx a * vz b + vz a * vx b).
Lemma one_change : change (fun S => order_one n S J) sc i v =
  (fone i v (S (r i)) - fone i (S i) (S (r i))) + (fone (l i) (S (l i)) v - fone (l i) (S (l i)) (S i)).
Proof.
  unfold change, order_one, magnus_bond. rewrite <- (change_bonds n s sc W i Hi v fone ltac:(lia)).
  f_equal; apply Rsum_ext; intros k Hk; rewrite (af k Hk); reflexivity.
Qed.

Definition pl (k : nat) (a c : vec) : vec := vadd (vhad (J (l k)) a) (vhad (J k) c).
Definition ftwo (k : nat) (a b c : vec) : R :=
  vx b / 2
  - (1 / 2 * (vy (J k) * (vz b * vz c) + vz (J k) * (vy b * vy c))
     + 3 / 2 * (vx (J k) * (vz b * vz c) + vz (J k) * (vx b * vx c)))
  + vx (cross (pl k a c) (cross (pl k a c) b))
  + (vy (cross (pl k a c) b) * (vy (J (l k)) * vz a + vy (J k) * vz c)
     - vz (cross (pl k a c) b) * (vz (J (l k)) * vy a + vz (J k) * vy c)).
Lemma two_change : change (fun S => order_two n S J) sc i v =
  (ftwo i (S (l i)) v (S (r i)) - ftwo i (S (l i)) (S i) (S (r i)))
  + (ftwo (l i) (S (l (l i))) (S (l i)) v - ftwo (l i) (S (l (l i))) (S (l i)) (S i))
  + (ftwo (r i) v (S (r i)) (S (r (r i))) - ftwo (r i) (S i) (S (r i)) (S (r (r i)))).
Proof.
  rewrite <- (change_trips n s sc W i Hi v ftwo Hn). unfold change, order_two, second_bond, double_cross, twist, pull_on.
  f_equal; apply Rsum_ext; intros k Hk; rewrite (af k Hk), (bf k Hk); reflexivity.
Qed.

Lemma nb k : (k < n)%nat -> k <> i -> S' k = S k.
Proof. intros. apply (mS_ne n s); assumption. Qed.
Lemma ll_ne : l (l i) <> i.
Proof. unfold lft. destruct (Nat.eqb_spec i 0); destruct (Nat.eqb_spec (n - 1) 0); try destruct (Nat.eqb_spec (i - 1) 0); lia. Qed.
Lemma rr_ne : r (r i) <> i.
Proof. unfold rgt. destruct (Nat.eqb_spec (i + 1) n); [destruct (Nat.eqb_spec (0 + 1) n)|destruct (Nat.eqb_spec (i + 1 + 1) n)]; lia. Qed.

Definition fslip (c : vec) : R :=
  vx (S (r i)) * ((vx (J i) * vx c + vx (J (r i)) * vx (S (r (r i))))
     * (vx (J i) * vx c - vx (J (l (l i))) * vx (S (l (l i))))).
Lemma slip_change : change (fun S => slip n S J i) sc i v = fslip v - fslip (S i).
Proof.
  pose proof (lft_lt n i Hi) as Hl. pose proof (rgt_lt n i Hi) as Hr.
  pose proof (lft_lt n _ Hl) as Hll. pose proof (rgt_lt n _ Hr) as Hrr.
  unfold change, slip, pull_on. rewrite (af i Hi), (bf i Hi), (bf _ Hl), (af _ Hr), (bf _ Hr), (lft_rgt n i Hi).
  rewrite (mS_i n s sc W i Hi v), (nb (r i)), (nb (r (r i))), (nb (l (l i)));
    auto using rr_ne, ll_ne; apply (rgt_ne n i Hi); lia.
Qed.

Lemma DMF_change : tau (vars sc) <> 0 -> DMF n s sc i v = second_order_change n s sc i v.
Proof.
  intro Ht. pose proof (omega_nz sc Ht) as Hw. unfold second_order_change.
  rewrite exch_change, one_change, two_change, slip_change.
  unfold DMF, de_mag_full, mf_e1, mf_e2, fexch, fone, ftwo, fslip, pl. rewrite (lft_rgt n i Hi).
  destruct (i <? s); unfold for3, dot, cross, vadd, vhad, nlit; cbn -[omega];
    match goal with |- @eq _ ?a ?b => change (@eq R a b) end; field; auto.
Qed.

Definition fends (c : vec) : R :=
  (vz (J (l i)) * vz (S (l i)) * vx c - vx (J (l i)) * vx (S (l i)) * vz c)
  + (vz (J i) * vz (S (r i)) * vx c - vx (J i) * vx (S (r i)) * vz c)
  + (if (i =? 0)%nat then 0 else vz (J (l i)) * vz c * vx (S (l i)) - vx (J (l i)) * vx c * vz (S (l i)))
  + (if (i =? s - 1)%nat then 0 else vz (J i) * vz c * vx (S (r i)) - vx (J i) * vx c * vz (S (r i))).
Lemma ends_change : change (fun S => ends_first n s S J i) sc i v = fends v - fends (S i).
Proof.
  unfold change, ends_first, one_way. rewrite (af i Hi), (bf i Hi).
  rewrite (mS_i n s sc W i Hi v), (nb (r i)), (nb (l i)); auto using lft_lt, rgt_lt.
  - apply (lft_ne n i Hi). lia.
  - apply (rgt_ne n i Hi). lia.
Qed.
Lemma DMG_change : tau (vars sc) <> 0 -> DMG n s sc i v = first_order_change n s sc i v.
Proof.
  intro Ht. unfold first_order_change. rewrite exch_change, ends_change, DMG_linear by exact Ht.
  unfold gM, fexch, fends. fold (omega sc). destruct (Nat.ltb_spec i s).
  - assert (Q : flagL s i = (i =? s - 1)%nat).
    { assert (I32 : (Z.of_nat s < 2 ^ 31)%Z) by (pose proof (wf_i32 _ _ _ W); pose proof (wf_sub _ _ _ W); lia).
      destruct (Nat.eqb_spec i (s - 1)) as [E|E]; [rewrite E; apply flagL_last; lia|apply flagL_not; auto; lia]. }
    rewrite Q. unfold dot, vsub, vhad. destruct (i =? 0)%nat, (i =? s - 1)%nat; cbn -[omega]; ring.
  - unfold dot, vsub, vhad. cbn -[omega]. ring.
Qed.
End Change.

Lemma uses_of n s sc D f : wf n s sc -> (1 <= n)%nat ->
  (forall d u1 u2 u, unit_draw u2 ->
     f (draw d u1 u2 u) (fin sc) = Ok (acceptP ERNum (fin sc) (d mod n) (fin3 (uniform_dir u1 u2))
        (Some (D sc (d mod n)%nat (uniform_dir u1 u2))) (Some u))) -> uses_change n D f sc.
Proof.
  intros W Hn F d u1 u2 u D1 D2 D3 i v. assert (Hi : (i < n)%nat) by (apply Nat.mod_upper_bound; lia).
  rewrite (F d u1 u2 u D2). split; intro A; f_equal.
  - apply acceptP_yes; [rewrite (wf_spins _ _ _ W); exact Hi|exact A].
  - apply acceptP_no. exact A.
Qed.
Lemma magfull_uses n s sc : wf n s sc -> (3 <= n)%nat -> tau (vars sc) <> 0 ->
  uses_change n (second_order_change n s) (metropolis_update_mag_full ERNum) sc.
Proof.
  intros W Hn Ht. apply (uses_of n s); [exact W|lia|]. intros d u1 u2 u D2.
  etransitivity; [apply (magfull_ER n s); [exact W|exact D2|lia]|]. f_equal. f_equal.
  rewrite dMF_value by exact Ht. f_equal. apply DMF_change; auto. apply Nat.mod_upper_bound; lia.
Qed.
Lemma magnus_uses n s sc : wf n s sc -> (3 <= n)%nat -> tau (vars sc) <> 0 ->
  uses_change n (first_order_change n s) (metropolis_update_magnus ERNum) sc.
Proof.
  intros W Hn Ht. apply (uses_of n s); [exact W|lia|]. intros d u1 u2 u D2.
  etransitivity; [apply (magnus_ER n s); [exact W|exact D2|lia]|]. f_equal. f_equal.
  rewrite (dMG_value n s) by assumption. f_equal. apply DMG_change; auto. apply Nat.mod_upper_bound; lia.
Qed.
