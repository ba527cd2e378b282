(** Panic-free ("pure") forms of the chain functions on well-formed chains, for every number
    type, and their values in exact arithmetic. *)
From Coq Require Import Reals Lra Lia List ZArith Arith Bool.
From Coq Require Import ZifyBool ZifyNat.
From Verif Require Import Num Monad NumR Spin Config Chain SpecVec SpecChain ProofsSpin.
Import ListNotations.
Ltac Zify.zify_post_hook ::= Z.div_mod_to_equations.

(** ** Monad and lists *)
Lemma idx_ok {A} (l : list A) i d : i < length l -> idx l i = Ok (nth i l d).
Proof. intro H. unfold idx. rewrite (nth_error_nth' l d H). reflexivity. Qed.

Lemma idx_panic {A} (l : list A) i : length l <= i -> idx l i = Panic IndexOOB.
Proof. intro H. unfold idx. apply nth_error_None in H. rewrite H. reflexivity. Qed.

Lemma usub_ok a b : b <= a -> usub a b = Ok (a - b).
Proof. intro H. unfold usub. destruct (Nat.ltb_spec a b); [lia|reflexivity]. Qed.

Lemma as_usize_nat n : (Z.of_nat n < 2 ^ 64)%Z -> as_usize (Z.of_nat n) = n.
Proof. intro H. unfold as_usize. rewrite Z.mod_small by lia. apply Nat2Z.id. Qed.

Lemma as_usize_i32 n : (Z.of_nat n < 2 ^ 31)%Z -> as_usize (Z.of_nat n) = n.
Proof. intro. apply as_usize_nat. lia. Qed.

Lemma range0 n : range 0 n = seq 0 n.
Proof. unfold range. rewrite Nat.sub_0_r. reflexivity. Qed.

Lemma foldM_ok {A B} (f : B -> A -> res A) (g : B -> A -> A) l : forall a,
  (forall b a, In b l -> f b a = Ok (g b a)) ->
  foldM f l a = Ok (fold_left (fun a b => g b a) l a).
Proof.
  induction l as [|b l IH]; intros a H; [reflexivity|]. cbn.
  rewrite (H b a) by (left; reflexivity). cbn. apply IH. intros; apply H; right; assumption.
Qed.

Lemma mapM_ok {A B} (f : A -> res B) (g : A -> B) l :
  (forall a, In a l -> f a = Ok (g a)) -> mapM f l = Ok (map g l).
Proof.
  induction l as [|b l IH]; intro H; [reflexivity|]. cbn.
  rewrite (H b) by (left; reflexivity). cbn. rewrite IH; [reflexivity|].
  intros; apply H; right; assumption.
Qed.

Lemma nth_map_seq {B} (g : nat -> B) n i d : i < n -> nth i (map g (seq 0 n)) d = g i.
Proof.
  intro H. rewrite (nth_indep _ d (g 0)) by (rewrite map_length, seq_length; lia).
  rewrite map_nth, seq_nth by lia. reflexivity.
Qed.

Lemma upd_length {A} (l : list A) : forall i x, length (upd l i x) = length l.
Proof. induction l; intros [|i] x; cbn; auto. Qed.

Lemma nth_upd {A} (l : list A) : forall i k x d,
  i < length l -> nth k (upd l i x) d = if k =? i then x else nth k l d.
Proof.
  induction l as [|a l IH]; intros [|i] [|k] x d H; cbn in *; try lia; auto.
  apply IH. lia.
Qed.

Lemma set_idx_ok {A} (l : list A) i x : i < length l -> set_idx l i x = Ok (upd l i x).
Proof. intro H. unfold set_idx. destruct (Nat.ltb_spec i (length l)); [reflexivity|lia]. Qed.

Lemma slice_ok {A} s (l : list A) : s <= length l -> slice_to s l = Ok (firstn s l).
Proof. intro H. unfold slice_to. destruct (Nat.ltb_spec (length l) s); [lia|reflexivity]. Qed.

Lemma mapi_length {A B} (f : nat -> A -> B) l : forall k, length (mapi f k l) = length l.
Proof. induction l; intro k; cbn; auto. Qed.

Lemma nth_mapi {A B} (f : nat -> A -> B) l : forall k i d d',
  i < length l -> nth i (mapi f k l) d = f (k + i) (nth i l d').
Proof.
  induction l as [|a l IH]; intros k [|i] d d' H; cbn in *; try lia.
  - rewrite Nat.add_0_r; reflexivity.
  - rewrite (IH (S k) i d d') by lia. f_equal. lia.
Qed.

Lemma list_ext_nth {A} (d : A) l1 l2 :
  length l1 = length l2 -> (forall i, i < length l1 -> nth i l1 d = nth i l2 d) -> l1 = l2.
Proof. intros. eapply nth_ext; eauto. Qed.

(** ** wf bookkeeping *)
Section Wf.
Context {T : Type} {n s : nat} {sc : chain T} (W : wf n s sc).
Lemma wf_n : as_usize (hsize (vars sc)) = n.
Proof. rewrite (wf_hsize _ _ _ W). apply as_usize_i32, (wf_i32 _ _ _ W). Qed.
Lemma wf_s : as_usize (ssize (vars sc)) = s.
Proof.
  rewrite (wf_ssize _ _ _ W). apply as_usize_i32.
  pose proof (wf_i32 _ _ _ W); pose proof (wf_sub _ _ _ W); lia.
Qed.
End Wf.

Definition z3 (N : NumOps) : v3 (num N) := mk3 (nofZ N 0) (nofZ N 0) (nofZ N 0).
Definition at3 (N : NumOps) (l : list (v3 (num N))) (i : nat) : v3 (num N) := nth i l (z3 N).

(** total versions *)
Definition h_extP (N : NumOps) (c : config (num N)) (tm : num N) : v3 (num N) :=
  match h_ext N c tm with Ok v => v | _ => z3 N end.

Lemma h_ext_ok N c tm : hs_ok c -> h_ext N c tm = Ok (h_extP N c tm).
Proof.
  unfold hs_ok, h_extP, h_ext. destruct (drive c); intro H; try reflexivity.
  specialize (H eq_refl).
  rewrite !(idx_ok _ _ (nofZ N 0)) by lia. reflexivity.
Qed.

(** Total field on site [i] *)
Definition fieldP N (sc : chain (num N)) (s : nat) (he : v3 (num N)) (i : nat) : v3 (num N) :=
  if i <? s then sum_vec N (at3 N (static_h sc) i) he else at3 N (static_h sc) i.

Definition loop_bf N (sc : chain (num N)) (h : nat -> v3 (num N)) (k : nat) : num N :=
  fold_left (fun e j => bond_field N e (at3 N (spins sc) j) (at3 N (j_couple sc) j)
                          (at3 N (spins sc) (j + 1)) (h j)) (seq 0 k) (nofZ N 0).

Definition ring_bf N (sc : chain (num N)) (h : nat -> v3 (num N)) (n : nat) : num N :=
  bond_field N (loop_bf N sc h (n - 1)) (at3 N (spins sc) (n - 1)) (at3 N (j_couple sc) (n - 1))
    (at3 N (spins sc) 0) (h (n - 1)).

Section Pure.
Context (N : NumOps) (n s : nat) (sc : chain (num N)) (W : wf n s sc).

Let Wspins := wf_spins _ _ _ W.
Let Wjs := wf_js _ _ _ W.
Let Whs := wf_hs _ _ _ W.
Let Wsub := wf_sub _ _ _ W.

Lemma spin_idx i : i < n -> idx (spins sc) i = Ok (at3 N (spins sc) i).
Proof. intro; apply idx_ok; lia. Qed.
Lemma j_idx i : i < n -> idx (j_couple sc) i = Ok (at3 N (j_couple sc) i).
Proof. intro; apply idx_ok; lia. Qed.
Lemma h_idx i : i < n -> idx (static_h sc) i = Ok (at3 N (static_h sc) i).
Proof. intro; apply idx_ok; lia. Qed.

Lemma total_energy2_pure :
  1 <= n -> hs_ok (vars sc) ->
  total_energy2 N sc =
  Ok (ndiv N (ring_bf N sc (fieldP N sc s (h_extP N (vars sc) (t sc))) n) (nofZ N (hsize (vars sc)))).
Proof.
  intros Hn Hh. unfold total_energy2. rewrite (wf_n W), (wf_s W), h_ext_ok by assumption. cbn [bind].
  rewrite range0.
  set (he := h_extP N (vars sc) (t sc)).
  rewrite (mapM_ok _ (fieldP N sc s he)).
  2:{ intros x Hx. apply in_seq in Hx. rewrite h_idx by lia. reflexivity. }
  cbn [bind]. rewrite usub_ok by lia. cbn [bind]. rewrite range0.
  rewrite (foldM_ok _ (fun j e => bond_field N e (at3 N (spins sc) j) (at3 N (j_couple sc) j)
                          (at3 N (spins sc) (j + 1)) (fieldP N sc s he j))).
  2:{ intros j e Hj. apply in_seq in Hj. rewrite !spin_idx, j_idx by lia. cbn [bind].
      rewrite (idx_ok _ _ (z3 N)) by (rewrite map_length, seq_length; lia). cbn [bind].
      rewrite nth_map_seq by lia. reflexivity. }
  cbn [bind]. rewrite !spin_idx, j_idx by lia. cbn [bind].
  rewrite (idx_ok _ _ (z3 N)) by (rewrite map_length, seq_length; lia). cbn [bind].
  rewrite nth_map_seq by lia. reflexivity.
Qed.

Definition total_energyP : num N :=
  let sp := at3 N (spins sc) in
  let sjs := fold_left (fun a i => nsub N a (sjs_energy N (sp i) (sp (i + 1)) (at3 N (j_couple sc) i)))
               (seq 0 (n - 1)) (nofZ N 0) in
  let sjs := nsub N sjs (sjs_energy N (sp (n - 1)) (sp 0) (at3 N (j_couple sc) (n - 1))) in
  let sh := fold_left (fun a i => nadd N a (sh_energy N (sp i) (at3 N (static_h sc) i))) (seq 0 n) (nofZ N 0) in
  let sh := fold_left (fun a i => nadd N a (sh_energy N (sp i) (h_extP N (vars sc) (t sc)))) (seq 0 s) sh in
  ndiv N (nadd N sjs sh) (nofZ N (Z.of_nat n)).

Lemma total_energy_pure : 1 <= n -> hs_ok (vars sc) -> total_energy N sc = Ok total_energyP.
Proof.
  intros Hn Hh. unfold total_energy. rewrite (wf_n W), (wf_s W). rewrite usub_ok by lia. cbn [bind].
  rewrite !range0.
  rewrite (foldM_ok _ (fun i a => nsub N a (sjs_energy N (at3 N (spins sc) i) (at3 N (spins sc) (i + 1)) (at3 N (j_couple sc) i)))).
  2:{ intros j e Hj. apply in_seq in Hj. rewrite !spin_idx, j_idx by lia. reflexivity. }
  cbn [bind]. rewrite !spin_idx, j_idx by lia. cbn [bind].
  rewrite (foldM_ok _ (fun i a => nadd N a (sh_energy N (at3 N (spins sc) i) (at3 N (static_h sc) i)))).
  2:{ intros j e Hj. apply in_seq in Hj. rewrite !spin_idx, h_idx by lia. reflexivity. }
  cbn [bind]. rewrite h_ext_ok by assumption. cbn [bind].
  rewrite (foldM_ok _ (fun i a => nadd N a (sh_energy N (at3 N (spins sc) i) (h_extP N (vars sc) (t sc))))).
  2:{ intros j e Hj. apply in_seq in Hj. rewrite !spin_idx by lia. reflexivity. }
  reflexivity.
Qed.

Lemma mc_ring_pure k : 1 <= k <= n ->
  mc_ring_energy N sc k = Ok (ndiv N (ring_bf N sc (at3 N (static_h sc)) k) (nofZ N (Z.of_nat k))).
Proof.
  intros Hk. unfold mc_ring_energy. rewrite usub_ok by lia. cbn [bind]. rewrite range0.
  rewrite (foldM_ok _ (fun j e => bond_field N e (at3 N (spins sc) j) (at3 N (j_couple sc) j)
                          (at3 N (spins sc) (j + 1)) (at3 N (static_h sc) j))).
  2:{ intros j e Hj. apply in_seq in Hj. rewrite !spin_idx, j_idx, h_idx by lia. reflexivity. }
  cbn [bind]. rewrite !spin_idx, j_idx, h_idx by lia. reflexivity.
Qed.

Lemma system_energy_pure : 1 <= s -> hs_ok (vars sc) ->
  system_energy N sc =
  Ok (ndiv N (loop_bf N sc (fun i => sum_vec N (at3 N (static_h sc) i) (h_extP N (vars sc) (t sc))) (s - 1))
             (nofZ N (Z.of_nat (s - 1)))).
Proof.
  intros Hs Hh. unfold system_energy. rewrite (wf_s W), h_ext_ok by assumption. cbn [bind].
  rewrite range0.
  rewrite (mapM_ok _ (fun x => sum_vec N (at3 N (static_h sc) x) (h_extP N (vars sc) (t sc)))).
  2:{ intros x Hx. apply in_seq in Hx. rewrite h_idx by lia. reflexivity. }
  cbn [bind]. rewrite usub_ok by lia. cbn [bind]. rewrite range0.
  rewrite (foldM_ok _ (fun j e => bond_field N e (at3 N (spins sc) j) (at3 N (j_couple sc) j)
     (at3 N (spins sc) (j + 1)) (sum_vec N (at3 N (static_h sc) j) (h_extP N (vars sc) (t sc))))).
  2:{ intros j e Hj. apply in_seq in Hj. rewrite !spin_idx, j_idx by lia. cbn [bind].
      rewrite (idx_ok _ _ (z3 N)) by (rewrite map_length, seq_length; lia). cbn [bind].
      rewrite nth_map_seq by lia. reflexivity. }
  reflexivity.
Qed.

Lemma m_pure : m N sc = Ok (sum_spins N (firstn s (spins sc))).
Proof. unfold m. rewrite (wf_s W), slice_ok by lia. reflexivity. Qed.
Lemma m_tot_pure : m_tot N sc = Ok (sum_spins N (firstn n (spins sc))).
Proof. unfold m_tot. rewrite (wf_n W), slice_ok by lia. reflexivity. Qed.

End Pure.
