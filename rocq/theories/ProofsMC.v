(** The samplers without their failure cases; any number type. *)
From Coq Require Import List ZArith Arith Lia Bool.
From Verif Require Import Num Monad Spin Config Chain Langevin SpecChain ProofsChain ProofsDyn.
Import ListNotations.
Local Open Scope nat_scope.
Ltac Zify.zify_post_hook ::= Z.div_mod_to_equations.

Lemma i_l_ok n i : i < n -> i_l n i = Ok (lft n i).
Proof.
  intro H. unfold i_l, lft. destruct (i =? 0); [apply usub_ok; lia|reflexivity].
Qed.
Lemma i_r_ok n i : i < n -> i_r n i = Ok (rgt n i).
Proof.
  intro H. unfold i_r, rgt. rewrite usub_ok by lia. cbn [bind].
  destruct (Nat.eqb_spec i (n - 1)), (Nat.eqb_spec (i + 1) n); try lia; reflexivity.
Qed.
Lemma i_ll_ok n i : i < n -> 2 <= n -> i_ll n i = Ok (lft n (lft n i)).
Proof.
  intros H Hn. unfold i_ll, lft.
  destruct (Nat.eqb_spec i 0).
  - rewrite usub_ok by lia. destruct (Nat.eqb_spec (n - 1) 0); [lia|]. f_equal; lia.
  - destruct (Nat.eqb_spec i 1).
    + rewrite usub_ok by lia. subst. cbn. reflexivity.
    + destruct (Nat.eqb_spec (i - 1) 0); [lia|]. f_equal; lia.
Qed.
Lemma i_rr_ok n i : i < n -> 2 <= n -> i_rr n i = Ok (rgt n (rgt n i)).
Proof.
  intros H Hn. unfold i_rr, rgt. rewrite !usub_ok by lia. cbn [bind].
  destruct (Nat.eqb_spec i (n - 2)).
  - destruct (Nat.eqb_spec (i + 1) n); [lia|]. destruct (Nat.eqb_spec (i + 1 + 1) n); [reflexivity|lia].
  - destruct (Nat.eqb_spec i (n - 1)).
    + destruct (Nat.eqb_spec (i + 1) n); [|lia]. destruct (Nat.eqb_spec (0 + 1) n); [lia|reflexivity].
    + destruct (Nat.eqb_spec (i + 1) n); [lia|]. destruct (Nat.eqb_spec (i + 1 + 1) n); [lia|].
      f_equal; lia.
Qed.
Lemma gen_range_ok n d : 1 <= n -> gen_range n d = Ok (d mod n).
Proof. intro H. unfold gen_range. destruct (Nat.eqb_spec n 0); [lia|reflexivity]. Qed.
Lemma lft_lt' n i : i < n -> lft n i < n.
Proof. unfold lft. destruct (Nat.eqb_spec i 0); lia. Qed.
Lemma rgt_lt' n i : i < n -> rgt n i < n.
Proof. unfold rgt. destruct (Nat.eqb_spec (i + 1) n); lia. Qed.

Section Gen.
Context (N : NumOps) (n s : nat) (sc : chain (num N)) (W : wf n s sc).
Notation sp := (at3 N (spins sc)).
Notation js := (at3 N (j_couple sc)).
Notation hs := (at3 N (static_h sc)).

Definition acceptP (i : nat) (v : v3 (num N)) (de u : num N) : chain (num N) :=
  if nltb N de (nofZ N 0) || nltb N u (nexp N (nmul N (nopp N (beta (vars sc))) de))
  then set_spins sc (upd (spins sc) i v) else sc.

Lemma accept_ok i v de u : i < n -> accept N sc i v de u = Ok (acceptP i v de u).
Proof.
  intro H. unfold accept, acceptP. destruct (_ || _); [|reflexivity].
  rewrite set_idx_ok by (rewrite (wf_spins _ _ _ W); exact H). reflexivity.
Qed.

Definition om_ : num N := ndiv N (nmul N (nofZ N 2) (npi N)) (tau (vars sc)).
Notation l := (lft n). Notation r := (rgt n).

(** Energy changes of the samplers for turning spin i into v *)
Definition dP (i : nat) (v : v3 (num N)) : num N :=
  de_plain N (sp (l i)) (sp (r i)) (js (l i)) (js i) (hs i) (sp i) v.
Definition dML (i : nat) (v : v3 (num N)) : num N :=
  de_maglab N om_ (sp (l i)) (sp (r i)) (js (l i)) (js i) (sp i) v.
Definition eR (e0 : num N) (i : nat) (v : v3 (num N)) : num N :=
  e_rot N e0 om_ (i <? s) (sp (l (l i))) (sp (l i)) v (sp (r i)) (sp (r (r i)))
    (js (l (l i))) (js (l i)) (js i) (js (r i)).
Definition dR (i : nat) (v : v3 (num N)) : num N := eR (nopp N (eR (nofZ N 0) i (sp i))) i v.
Definition dMF (i : nat) (v : v3 (num N)) : num N :=
  de_mag_full N om_ (i <? s) (sp (l (l i))) (sp (l i)) (sp i) (sp (r i)) (sp (r (r i)))
    (js (l (l i))) (js (l i)) (js i) (js (r i)) v.
Definition dMG (i : nat) (v : v3 (num N)) : num N :=
  de_magnus N (tau (vars sc)) (i <? s) (i =? 0) (i =? as_usize (ssize (vars sc) - 1)%Z)
    (sp (l (l i))) (sp (l i)) (sp i) (sp (r i)) (sp (r (r i)))
    (js (l (l i))) (js (l i)) (js i) (js (r i)) v.
Definition dL (i : nat) (v : v3 (num N)) : num N :=
  de_plain N (sp (l i)) (sp (r i)) (js (l i)) (js i) (mk3 (nofZ N 0) (nofZ N 0) (nofZ N 0)) (sp i) v.

Context (d : mcdraw N).
Notation i := (d_idx d mod n).
Notation v := (propose N (d_u1 d) (d_u2 d)).

Ltac pure Hi := rewrite (wf_n W); rewrite gen_range_ok by lia; cbn [bind];
  rewrite ?(i_l_ok n i Hi), ?(i_r_ok n i Hi), ?(i_ll_ok n i Hi) by lia;
  rewrite ?(i_rr_ok n i Hi) by lia; cbn [bind];
  repeat first [rewrite (spin_idx N n s sc W) by auto using lft_lt', rgt_lt'
               |rewrite (j_idx N n s sc W) by auto using lft_lt', rgt_lt'
               |rewrite (h_idx N n s sc W) by auto using lft_lt', rgt_lt'
               |progress cbn [bind]];
  rewrite ?(wf_s W).

Lemma mod_lt' : 1 <= n -> i < n.
Proof. intro. apply Nat.mod_upper_bound. lia. Qed.

Lemma plain_pure : 1 <= n -> metropolis_update N d sc = Ok (acceptP i v (dP i v) (d_u3 d)).
Proof.
  intro Hn. pose proof (mod_lt' Hn) as Hi. unfold metropolis_update. pure Hi.
  rewrite accept_ok by exact Hi. reflexivity.
Qed.
Lemma maglab_pure : 1 <= n -> metropolis_update_maglab N d sc = Ok (acceptP i v (dML i v) (d_u3 d)).
Proof.
  intro Hn. pose proof (mod_lt' Hn) as Hi. unfold metropolis_update_maglab. pure Hi.
  rewrite accept_ok by exact Hi. reflexivity.
Qed.
Lemma rot_pure : 2 <= n -> metropolis_update_rot_magnus N d sc = Ok (acceptP i v (dR i v) (d_u3 d)).
Proof.
  intro Hn. assert (Hn1 : 1 <= n) by lia. pose proof (mod_lt' Hn1) as Hi.
  unfold metropolis_update_rot_magnus. pure Hi.
  rewrite accept_ok by exact Hi. reflexivity.
Qed.
Lemma magfull_pure : 2 <= n -> metropolis_update_mag_full N d sc = Ok (acceptP i v (dMF i v) (d_u3 d)).
Proof.
  intro Hn. assert (Hn1 : 1 <= n) by lia. pose proof (mod_lt' Hn1) as Hi.
  unfold metropolis_update_mag_full. pure Hi.
  rewrite accept_ok by exact Hi. reflexivity.
Qed.
Lemma magnus_pure : 2 <= n -> metropolis_update_magnus N d sc = Ok (acceptP i v (dMG i v) (d_u3 d)).
Proof.
  intro Hn. assert (Hn1 : 1 <= n) by lia. pose proof (mod_lt' Hn1) as Hi.
  unfold metropolis_update_magnus. pure Hi.
  rewrite accept_ok by exact Hi. reflexivity.
Qed.
End Gen.

Lemma lplain_pure (N : NumOps) n s (lc : lchain (num N)) (d : mcdraw N) : wf n s (base lc) -> 1 <= n ->
  lmetropolis_update N d lc =
  Ok (mkL (acceptP N (base lc) (d_idx d mod n) (propose N (d_u1 d) (d_u2 d))
       (dL N n (base lc) (d_idx d mod n) (propose N (d_u1 d) (d_u2 d))) (d_u3 d)) (gamma lc)).
Proof.
  intros W Hn. pose proof (mod_lt' N n d Hn) as Hi. unfold lmetropolis_update.
  rewrite (wf_n W). rewrite gen_range_ok by lia. cbn [bind].
  rewrite (i_l_ok n _ Hi), (i_r_ok n _ Hi). cbn [bind].
  repeat first [rewrite (spin_idx N n s _ W) by auto using lft_lt', rgt_lt'
               |rewrite (j_idx N n s _ W) by auto using lft_lt', rgt_lt'
               |progress cbn [bind]].
  rewrite (accept_ok N n s _ W) by exact Hi. reflexivity.
Qed.
Lemma lmagnus_pure (N : NumOps) n s (lc : lchain (num N)) (d : mcdraw N) : wf n s (base lc) -> 2 <= n ->
  lmetropolis_update_magnus N d lc =
  Ok (mkL (acceptP N (base lc) (d_idx d mod n) (propose N (d_u1 d) (d_u2 d))
       (dMG N n s (base lc) (d_idx d mod n) (propose N (d_u1 d) (d_u2 d))) (d_u3 d)) (gamma lc)).
Proof.
  intros W Hn. unfold lmetropolis_update_magnus. rewrite (magnus_pure N n s _ W) by exact Hn. reflexivity.
Qed.

(** Failure cases *)
Lemma sampler_empty (N : NumOps) (sc : chain (num N)) (d : mcdraw N) : as_usize (hsize (vars sc)) = 0 ->
  metropolis_update N d sc = Panic EmptyRange /\ metropolis_update_maglab N d sc = Panic EmptyRange /\
  metropolis_update_rot_magnus N d sc = Panic EmptyRange /\ metropolis_update_magnus N d sc = Panic EmptyRange /\
  metropolis_update_mag_full N d sc = Panic EmptyRange.
Proof.
  intro H. unfold metropolis_update, metropolis_update_maglab, metropolis_update_rot_magnus,
    metropolis_update_magnus, metropolis_update_mag_full. rewrite H. repeat split.
Qed.
Lemma sampler_one (N : NumOps) s (sc : chain (num N)) (d : mcdraw N) : wf 1 s sc ->
  metropolis_update_rot_magnus N d sc = Panic Overflow /\ metropolis_update_magnus N d sc = Panic Overflow /\
  metropolis_update_mag_full N d sc = Panic Overflow.
Proof.
  intro W. unfold metropolis_update_rot_magnus, metropolis_update_magnus, metropolis_update_mag_full.
  assert (Hi : d_idx d mod 1 = 0) by apply Nat.mod_1_r.
  rewrite (wf_n W). rewrite gen_range_ok by lia. cbn [bind]. rewrite Hi.
  rewrite (h_idx N 1 s _ W), (spin_idx N 1 s _ W) by lia. cbn [bind].
  rewrite (i_l_ok 1 0), (i_r_ok 1 0) by lia. cbn [bind]. change (lft 1 0) with 0. change (rgt 1 0) with 0.
  rewrite (spin_idx N 1 s _ W) by lia. cbn [bind i_ll i_rr usub Nat.eqb Nat.ltb Nat.leb]. repeat split.
Qed.
