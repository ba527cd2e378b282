From Coq Require Import Reals ZArith List Arith Lia Lra Permutation Bool ZifyBool.
From Verif Require Import Num Monad NumR Files Writers SpecWriters.
Import ListNotations.
Local Open Scope nat_scope.
Ltac Zify.zify_post_hook ::= Z.div_mod_to_equations.

(** * mc_split *)
Lemma mapM_ok {A B} (f : A -> res B) (g : A -> B) l :
  (forall a, In a l -> f a = Ok (g a)) -> mapM f l = Ok (map g l).
Proof.
  induction l as [|a l IH]; intros H; [reflexivity|]. cbn. rewrite (H a) by (left; reflexivity). cbn.
  rewrite IH by (intros; apply H; right; assumption). reflexivity.
Qed.

Lemma zsum_app a b : zsum (a ++ b) = (zsum a + zsum b)%Z.
Proof. unfold zsum. induction a as [|x a IH]; cbn [app fold_right]; [lia|]. rewrite IH. lia. Qed.
Lemma zsum_repeat z n : zsum (repeat z n) = (Z.of_nat n * z)%Z.
Proof. unfold zsum. induction n as [|n IH]; cbn [repeat fold_right]; [lia|]. rewrite IH. lia. Qed.

Lemma mc_split_ok th p : (1 <= th)%Z -> (1 <= p < 2 ^ 31)%Z ->
  exists l, mc_split th p = Ok l /\ Z.of_nat (length l) = Z.min th p /\ Forall (fun n => (1 <= n)%Z) l /\ zsum l = p.
Proof.
  intros Ht Hp. unfold mc_split.
  set (k := mc_threads th p).
  assert (Hk : (1 <= k <= p)%Z /\ k = Z.min th p) by (unfold k, mc_threads; destruct (Z.leb_spec p th); lia).
  destruct Hk as [Hk Hm]. clearbody k.
  destruct (Z.eqb_spec k 0) as [E|_]; [lia|].
  assert (Hq : (1 <= p / k <= p)%Z).
  { split; [apply Z.div_le_lower_bound; lia|]. apply Z.div_le_upper_bound; nia. }
  assert (Hu : u32 (p / k) = (p / k)%Z) by (apply Z.mod_small; lia).
  assert (Hup : u32 p = p) by (apply Z.mod_small; lia).
  assert (Huk : u32 k = k) by (apply Z.mod_small; lia).
  rewrite Hu, Hup, Huk.
  assert (Hmul : (k * (p / k) <= p)%Z) by (apply Z.mul_div_le; lia).
  set (q := (p / k)%Z) in *. clearbody q.
  exists (map (fun i => if (Z.of_nat i =? k - 1)%Z then (q + p - k * q)%Z else q) (range 0 (Z.to_nat k))).
  split; [|split; [|split]].
  - apply mapM_ok. intros i _. destruct (Z.of_nat i =? k - 1)%Z; [|reflexivity].
    assert (0 <= k * q)%Z by nia.
    unfold ck32. destruct ((0 <=? q + p) && (q + p <? 2 ^ 32))%Z eqn:E1; [|lia]. cbn [bind].
    destruct ((0 <=? k * q) && (k * q <? 2 ^ 32))%Z eqn:E2; [|lia]. cbn [bind].
    destruct ((0 <=? q + p - k * q) && (q + p - k * q <? 2 ^ 32))%Z eqn:E3; [reflexivity|lia].
  - rewrite map_length. unfold range. rewrite seq_length. lia.
  - apply Forall_forall. intros x Hx. apply in_map_iff in Hx. destruct Hx as (i & <- & _).
    destruct (Z.of_nat i =? k - 1)%Z; lia.
  - unfold range. rewrite Nat.sub_0_r. destruct (Z.to_nat k) as [|n] eqn:En; [lia|].
    rewrite seq_S, map_app, zsum_app. cbn [map]. unfold zsum at 2. cbn [fold_right].
    destruct (Z.eqb_spec (Z.of_nat (0 + n)) (k - 1)) as [_|H]; [|lia].
    replace (map _ (seq 0 n)) with (repeat q n).
    + rewrite zsum_repeat. nia.
    + clear -En. assert (Hn : (Z.of_nat n <= k - 1)%Z) by lia. clear En.
      rewrite <- (map_id (repeat q n)). 
      transitivity (map (fun _ : nat => q) (seq 0 n)).
      * rewrite map_id. generalize 0. induction n as [|n IH]; intros a; cbn; [reflexivity|]. f_equal. apply IH. lia.
      * apply map_ext_in. intros i Hi. apply in_seq in Hi.
        destruct (Z.eqb_spec (Z.of_nat i) (k - 1)); [lia|reflexivity].
Qed.

Lemma mc_split_zero th p : (0 <= th)%Z -> (0 <= p)%Z -> (th = 0 \/ p = 0)%Z -> mc_split th p = Panic Explicit.
Proof.
  intros H1 H2 H. unfold mc_split, mc_threads.
  destruct (Z.leb_spec p th); [destruct (Z.eqb_spec p 0)|destruct (Z.eqb_spec th 0)]; try reflexivity; lia.
Qed.

(** * profile_in_bg *)
Lemma upd_map {A B} (f : A -> B) l i x : upd (map f l) i (f x) = map f (upd l i x).
Proof. revert i. induction l as [|a l IH]; intros [|i]; cbn; try reflexivity. f_equal. apply IH. Qed.

Lemma upd_seq {B} (g : nat -> B) (y : B) i : forall n a,
  upd (map g (seq a n)) i y = map (fun j => if j =? a + i then y else g j) (seq a n).
Proof.
  revert i. induction i as [|i IH]; intros [|n] a; cbn [seq map upd]; try reflexivity.
  - rewrite Nat.add_0_r, Nat.eqb_refl. f_equal. apply map_ext_in. intros j Hj. apply in_seq in Hj.
    destruct (Nat.eqb_spec j a); [lia|reflexivity].
  - destruct (Nat.eqb_spec a (a + S i)); [lia|]. f_equal. rewrite IH. apply map_ext. intros j.
    replace (S a + i) with (a + S i) by lia. reflexivity.
Qed.

Lemma add_at_seq (g : nat -> R) i n (x : R) : i < n ->
  add_at ERNum (map (fun j => Some (g j)) (seq 0 n)) i (Some x)
  = Ok (map (fun j => Some (if j =? i then g j + x else g j)%R) (seq 0 n)).
Proof.
  intros Hi. unfold add_at, idx. rewrite nth_error_map.
  rewrite (nth_error_nth' _ 0) by (rewrite seq_length; exact Hi). rewrite seq_nth by exact Hi. cbn [option_map bind].
  unfold set_idx. rewrite map_length, seq_length. destruct (Nat.ltb_spec i n); [|lia].
  f_equal. etransitivity; [exact (upd_seq (fun j => Some (g j)) (Some (g (Nat.add 0 i) + x)%R) i n 0)|].
  apply map_ext. intros j. cbn. destruct (Nat.eqb_spec j i); subst; reflexivity.
Qed.

Lemma add_at_oob (l : list ER) i x : length l <= i -> add_at ERNum l i x = Panic IndexOOB.
Proof. intros H. unfold add_at, idx. change (num ERNum) with ER. rewrite (proj2 (nth_error_None l i)) by exact H. reflexivity. Qed.

(** what a finite message adds to site [j] *)
Definition part (f : site -> R) (j : nat) (ms : list (nat * site)) : R :=
  rsum (map (fun m => f (snd m)) (filter (fun m => j =? fst m) ms)).
Definition msg_of (m : nat * site) : pmsg ERNum := message (fst m) (snd m).
Definition acc_of (n : nat) (e x y z : nat -> R) : pacc ERNum :=
  mkAcc (N := ERNum) (map (fun j => Some (e j)) (seq 0 n)) (map (fun j => Some (x j)) (seq 0 n))
        (map (fun j => Some (y j)) (seq 0 n)) (map (fun j => Some (z j)) (seq 0 n)).

Lemma acc_of_ext n e x y z e' x' y' z' :
  (forall j, e j = e' j) -> (forall j, x j = x' j) -> (forall j, y j = y' j) -> (forall j, z j = z' j) ->
  acc_of n e x y z = acc_of n e' x' y' z'.
Proof. intros H1 H2 H3 H4. unfold acc_of. f_equal; apply map_ext; intros j; f_equal; auto. Qed.

Lemma part_cons f j i s ms : part f j ((i, s) :: ms) = ((if j =? i then f s else 0) + part f j ms)%R.
Proof.
  unfold part. cbn [filter fst]. destruct (j =? i); [reflexivity|]. rewrite Rplus_0_l. reflexivity.
Qed.

Lemma recv_ok n e x y z i s : i < n ->
  profile_recv ERNum (message i s) (acc_of n e x y z)
  = Ok (acc_of n (fun j => if j =? i then e j + s_e s else e j)%R (fun j => if j =? i then x j + s_x s else x j)%R
                 (fun j => if j =? i then y j + s_y s else y j)%R (fun j => if j =? i then z j + s_z s else z j)%R).
Proof.
  intros Hi. unfold profile_recv, acc_of, message. cbn [a_e a_x a_y a_z p_i p_e p_x p_y p_z].
  rewrite !add_at_seq by exact Hi. reflexivity.
Qed.

Lemma recv_all n ms : Forall (fun m => fst m < n) ms -> forall e x y z,
  foldM (profile_recv ERNum) (map msg_of ms) (acc_of n e x y z)
  = Ok (acc_of n (fun j => e j + part s_e j ms)%R (fun j => x j + part s_x j ms)%R
                 (fun j => y j + part s_y j ms)%R (fun j => z j + part s_z j ms)%R).
Proof.
  induction 1 as [|[i s] ms Hi H IH]; intros e x y z.
  - cbn [map foldM]. f_equal. apply acc_of_ext; intros j; unfold part; cbn; lra.
  - cbn [map foldM msg_of fst snd]. change (msg_of (i, s)) with (message i s).
    rewrite recv_ok by exact Hi. cbn [bind]. rewrite IH. f_equal.
    apply acc_of_ext; intros j; rewrite part_cons; destruct (j =? i); lra.
Qed.

Lemma zero_acc n : (let zero := repeat (nofZ ERNum 0) n in mkAcc (N := ERNum) zero zero zero zero)
  = acc_of n (fun _ => 0%R) (fun _ => 0%R) (fun _ => 0%R) (fun _ => 0%R).
Proof.
  assert (H : repeat (nofZ ERNum 0) n = map (fun j : nat => Some 0%R) (seq 0 n)).
  { assert (G : forall a, repeat (nofZ ERNum 0) n = map (fun j : nat => Some 0%R) (seq a n)); [|exact (G 0)].
    induction n as [|n IH]; intros a; cbn; [reflexivity|]. f_equal. exact (IH (S a)). }
  cbn zeta. rewrite H. reflexivity.
Qed.

Lemma idx_seq (g : nat -> R) n i : i < n -> idx (map (fun j => Some (g j)) (seq 0 n)) i = Ok (Some (g i)).
Proof.
  intros Hi. unfold idx. rewrite nth_error_map, (nth_error_nth' _ 0) by (rewrite seq_length; exact Hi).
  rewrite seq_nth by exact Hi. reflexivity.
Qed.

(** The profile in terms of the finite messages received *)
Lemma profile_ok size pts alive ms :
  (Z.of_nat size * Z.of_nat pts < 2 ^ 64)%Z -> 0 < pts -> length ms = size * pts ->
  Forall (fun m => fst m < size) ms ->
  profile_in_bg ERNum size pts alive (map msg_of ms)
  = Ok (map (fun i => numbers (map Some [INR i; part s_e i ms / INR pts; part s_x i ms / INR pts;
                                         part s_y i ms / INR pts; part s_z i ms / INR pts]%R)) (seq 0 size)).
Proof.
  intros Hb Hp Hl Hi. unfold profile_in_bg.
  destruct (Z.leb_spec (2 ^ 64) (Z.of_nat size * Z.of_nat pts)); [lia|].
  rewrite firstn_all2 by (rewrite map_length; lia).
  pose proof (zero_acc size) as Hz. cbn zeta in Hz. cbn zeta. rewrite Hz, recv_all by exact Hi. cbn [bind].
  rewrite map_length, Hl. destruct (Nat.ltb_spec (size * pts) (size * pts)); [lia|].
  unfold range. rewrite Nat.sub_0_r. apply mapM_ok. intros i Hin. apply in_seq in Hin.
  unfold acc_of. cbn [a_e a_x a_y a_z]. rewrite !idx_seq by lia. cbn [bind].
  rewrite !Rplus_0_l. unfold numbers. cbn [map ndiv nofZ ERNum er_div].
  assert (Hn : INR pts <> 0%R) by (apply not_0_INR; lia).
  rewrite <- !INR_IZR_INZ. unfold er_div. destruct (Req_EM_T (INR pts) 0); [contradiction|]. reflexivity.
Qed.

Lemma profile_oob size pts alive i s pre post :
  (Z.of_nat size * Z.of_nat pts < 2 ^ 64)%Z -> size <= i -> length pre < size * pts ->
  Forall (fun m => fst m < size) pre ->
  profile_in_bg ERNum size pts alive (map msg_of pre ++ message i s :: post) = Panic IndexOOB.
Proof.
  intros Hb Hi Hl Hpre. unfold profile_in_bg.
  destruct (Z.leb_spec (2 ^ 64) (Z.of_nat size * Z.of_nat pts)); [lia|].
  pose proof (zero_acc size) as Hz. cbn zeta in Hz. cbn zeta. rewrite Hz.
  rewrite firstn_app, map_length. rewrite firstn_all2 by (rewrite map_length; lia).
  destruct (size * pts - length pre) as [|k] eqn:Ek; [lia|]. cbn [firstn].
  assert (HA : forall l1 l2 a, foldM (profile_recv ERNum) (l1 ++ l2) a
     = (let* b := foldM (profile_recv ERNum) l1 a in foldM (profile_recv ERNum) l2 b)).
  { induction l1 as [|m l1 IH]; intros l2 a; [reflexivity|]. cbn [app foldM].
    destruct (profile_recv ERNum m a); cbn [bind]; [apply IH|reflexivity|reflexivity]. }
  rewrite HA, recv_all by exact Hpre. cbn [bind foldM]. unfold profile_recv at 1, message.
  cbn [p_i p_e a_e acc_of]. rewrite add_at_oob by (rewrite map_length, seq_length; exact Hi). reflexivity.
Qed.

(** Any messages with good indices; too few of them *)
Lemma add_at_len (l : list (num ERNum)) i x : i < length l -> exists l', add_at ERNum l i x = Ok l' /\ length l' = length l.
Proof.
  intros H. unfold add_at, idx. destruct (nth_error l i) as [y|] eqn:E.
  - cbn [bind]. unfold set_idx. destruct (Nat.ltb_spec i (length l)); [|lia].
    eexists. split; [reflexivity|]. clear. revert i. induction l as [|a l IH]; intros [|i]; cbn; try reflexivity.
    f_equal. apply IH.
  - apply nth_error_None in E. lia.
Qed.
Lemma recv_len n ms : Forall (fun m => p_i m < n) ms -> forall a,
  length (a_e a) = n -> length (a_x a) = n -> length (a_y a) = n -> length (a_z a) = n ->
  exists a', foldM (profile_recv ERNum) ms a = Ok a'.
Proof.
  induction 1 as [|m ms Hm H IH]; intros a H1 H2 H3 H4; [eexists; reflexivity|].
  cbn [foldM]. unfold profile_recv at 1.
  destruct (add_at_len (a_e a) (p_i m) (p_e m)) as (e & -> & L1); [lia|]. cbn [bind].
  destruct (add_at_len (a_x a) (p_i m) (p_x m)) as (x & -> & L2); [lia|]. cbn [bind].
  destruct (add_at_len (a_y a) (p_i m) (p_y m)) as (y & -> & L3); [lia|]. cbn [bind].
  destruct (add_at_len (a_z a) (p_i m) (p_z m)) as (z & -> & L4); [lia|]. cbn [bind].
  apply IH; cbn [a_e a_x a_y a_z]; congruence.
Qed.
Lemma profile_blocks size pts alive ms :
  (Z.of_nat size * Z.of_nat pts < 2 ^ 64)%Z -> Forall (fun m => p_i m < size) ms -> length ms < size * pts ->
  profile_in_bg ERNum size pts alive ms = (if alive then OutOfFuel else Panic Unwrap).
Proof.
  intros Hb Hi Hl. unfold profile_in_bg.
  destruct (Z.leb_spec (2 ^ 64) (Z.of_nat size * Z.of_nat pts)); [lia|].
  rewrite firstn_all2 by lia. cbn zeta.
  match goal with |- context [foldM _ _ ?a0] => destruct (recv_len size ms Hi a0) as (a & ->); cbn [a_e a_x a_y a_z]; try apply repeat_length end.
  cbn [bind]. destruct (Nat.ltb_spec (length ms) (size * pts)); [reflexivity|lia].
Qed.

(** * Interleavings *)
Lemma il_perm {A} (ws : list (list A)) l : interleaving ws l -> Permutation (concat ws) l.
Proof.
  induction 1 as [ws H|ws1 x w ws2 l H IH].
  - replace (concat ws) with (@nil A); [constructor|]. induction H as [|w ws -> H IH]; [reflexivity|exact IH].
  - rewrite concat_app in *. cbn [concat] in *.
    transitivity (x :: concat ws1 ++ w ++ concat ws2).
    + symmetry. apply Permutation_middle.
    + constructor. exact IH.
Qed.

Lemma part_perm f j ms ms' : Permutation ms ms' -> part f j ms = part f j ms'.
Proof.
  unfold part. induction 1 as [|[i s] l l' H IH|[i s] [k t] l|l l' l'' H1 IH1 H2 IH2]; cbn [filter fst].
  - reflexivity.
  - destruct (j =? i); cbn [map rsum fold_right]; unfold rsum in *; rewrite IH; reflexivity.
  - destruct (j =? i), (j =? k); cbn [map rsum fold_right]; lra.
  - congruence.
Qed.

Lemma perm_map_inv {A B} (f : A -> B) l1 l2 : Permutation (map f l1) l2 ->
  exists l3, l2 = map f l3 /\ Permutation l1 l3.
Proof. intros H. apply Permutation_map_inv, Permutation_sym, H. Qed.

(** messages of one sample, as pairs *)
Definition pairs (size : nat) (s : sample) : list (nat * site) := map (fun i => (i, s i)) (seq 0 size).
Lemma messages_pairs size s : messages size s = map msg_of (pairs size s).
Proof. unfold messages, pairs. rewrite map_map. reflexivity. Qed.

Lemma part_app f j a b : part f j (a ++ b) = (part f j a + part f j b)%R.
Proof.
  unfold part. rewrite filter_app, map_app. unfold rsum. generalize (map (fun m => f (snd m)) (filter (fun m => j =? fst m) a)).
  intros l. induction l as [|x l IH]; cbn [app fold_right]; [lra|]. rewrite IH. lra.
Qed.
Lemma part_pairs f j size s : j < size -> part f j (pairs size s) = f (s j).
Proof.
  intros Hj. unfold pairs.
  assert (H : forall n a, part f j (map (fun i => (i, s i)) (seq a n)) = (if (a <=? j) && (j <? a + n) then f (s j) else 0)%R).
  { induction n as [|n IH]; intros a; cbn [seq map].
    - destruct ((a <=? j) && (j <? a + 0)) eqn:E; [lia|reflexivity].
    - rewrite part_cons, IH. destruct (Nat.eqb_spec j a) as [->|Hn].
      + destruct ((S a <=? a) && (a <? S a + n)) eqn:E1; [lia|]. destruct ((a <=? a) && (a <? a + S n)) eqn:E2; [lra|lia].
      + destruct ((S a <=? j) && (j <? S a + n)) eqn:E1; destruct ((a <=? j) && (j <? a + S n)) eqn:E2; try lra; lia. }
  rewrite H. destruct ((0 <=? j) && (j <? 0 + size)) eqn:E; [reflexivity|lia].
Qed.
Lemma part_flat f j size ss : j < size -> part f j (flat_map (pairs size) ss) = rsum (map (fun s => f (s j)) ss).
Proof.
  intros Hj. induction ss as [|s ss IH]; [reflexivity|]. cbn [flat_map map]. rewrite part_app, part_pairs, IH by exact Hj.
  reflexivity.
Qed.

Lemma flat_messages size ss : flat_map (messages size) ss = map msg_of (flat_map (pairs size) ss).
Proof. induction ss as [|s ss IH]; [reflexivity|]. cbn [flat_map]. rewrite IH, messages_pairs, map_app. reflexivity. Qed.
Lemma flat_pairs_len size ss : length (flat_map (pairs size) ss) = size * length ss.
Proof.
  induction ss as [|s ss IH]; cbn [flat_map length]; [lia|]. rewrite app_length, IH. unfold pairs. rewrite map_length, seq_length. lia.
Qed.
Lemma flat_pairs_idx size ss : Forall (fun m => fst m < size) (flat_map (pairs size) ss).
Proof.
  apply Forall_forall. intros m Hm. apply in_flat_map in Hm. destruct Hm as (s & _ & Hm).
  apply in_map_iff in Hm. destruct Hm as (i & <- & Hi). apply in_seq in Hi. cbn. lia.
Qed.

Lemma concat_flat size (work : list (list sample)) :
  concat (map (flat_map (messages size)) work) = flat_map (messages size) (concat work).
Proof. induction work as [|w ws IH]; [reflexivity|]. cbn [map concat]. rewrite IH, flat_map_app. reflexivity. Qed.

Lemma profile_schedule size work alive msgs :
  concat work <> [] -> (Z.of_nat size * Z.of_nat (length (concat work)) < 2 ^ 64)%Z ->
  interleaving (map (flat_map (messages size)) work) msgs ->
  profile_in_bg ERNum size (length (concat work)) alive msgs = Ok (map (profile_line (concat work)) (seq 0 size)).
Proof.
  intros Hne Hb H. apply il_perm in H. rewrite concat_flat, flat_messages in H.
  apply perm_map_inv in H. destruct H as (ms & -> & Hp).
  rewrite profile_ok; try assumption.
  - f_equal. apply map_ext_in. intros i Hi. apply in_seq in Hi.
    rewrite <- !(part_perm _ _ _ _ Hp), !part_flat by lia. unfold profile_line, avg. rewrite !map_length. reflexivity.
  - destruct (concat work); [contradiction|cbn; lia].
  - rewrite <- (Permutation_length Hp). apply flat_pairs_len.
  - eapply Permutation_Forall; [exact Hp|]. apply flat_pairs_idx.
Qed.

(** * write_in_bg *)
Lemma il_empty_head {A} (l : list A) : interleaving [] l -> l = [].
Proof. inversion 1; subst; [reflexivity|]. destruct ws1; discriminate. Qed.

Definition unsent {L} (s : wstate L) := w_workers s.

(** The workers' remaining lines, merged after what was already sent, is a merge of everything *)
Lemma il_all {A} (ws : list (list A)) : exists l, interleaving ws l.
Proof.
  assert (H : forall n ws, length (concat ws) = n -> exists l : list A, interleaving ws l).
  { induction n as [|n IH]; intros vs Hn.
    - exists []. constructor. apply length_zero_iff_nil in Hn. induction vs as [|v vs IHv]; constructor.
      + cbn in Hn. destruct v; [reflexivity|discriminate].
      + apply IHv. cbn in Hn. destruct v; [exact Hn|discriminate].
    - assert (Hs : exists vs1 x w vs2, vs = vs1 ++ (x :: w) :: vs2).
      { clear IH. induction vs as [|v vs IHv]; [discriminate|]. destruct v as [|x w].
        - destruct (IHv Hn) as (vs1 & x & w & vs2 & ->). exists ([] :: vs1), x, w, vs2. reflexivity.
        - exists [], x, w, vs. reflexivity. }
      destruct Hs as (vs1 & x & w & vs2 & ->). destruct (IH (vs1 ++ w :: vs2)) as (l & Hl).
      + rewrite concat_app in *. cbn [concat] in *. rewrite !app_length in *. cbn [length] in Hn. lia.
      + exists (x :: l). constructor. exact Hl. }
  exact (H _ ws eq_refl).
Qed.

Lemma wsteps_trans {L} (a b c : wstate L) : wsteps a b -> wsteps b c -> wsteps a c.
Proof. induction 1 as [|a b d H1 H2 IH]; intros H; [exact H|]. econstructor; [exact H1|]. apply IH, H. Qed.

(** whatever the workers still send, appended to file and queue, merges the initial lines *)
Lemma wstep_inv {L} (s s' : wstate L) : wstep s s' -> forall rest,
  interleaving (w_workers s') rest ->
  exists rest', interleaving (w_workers s) rest' /\ w_file s ++ w_queue s ++ rest' = w_file s' ++ w_queue s' ++ rest.
Proof.
  intros H rest Hr. destruct H as [ws1 x w ws2 q f|ws x q f|ws q f Hf]; cbn in *.
  - exists (x :: rest). split; [constructor; exact Hr|]. rewrite <- !app_assoc. reflexivity.
  - exists rest. split; [exact Hr|]. rewrite <- !app_assoc. reflexivity.
  - exists rest. split; [exact Hr|reflexivity].
Qed.
Lemma wsteps_inv {L} (s s' : wstate L) : wsteps s s' -> forall rest,
  interleaving (w_workers s') rest ->
  exists rest', interleaving (w_workers s) rest' /\ w_file s ++ w_queue s ++ rest' = w_file s' ++ w_queue s' ++ rest.
Proof.
  induction 1 as [s|a b c H1 H2 IH]; intros rest Hr; [exists rest; split; [exact Hr|reflexivity]|].
  destruct (IH rest Hr) as (r1 & Hr1 & E1). destruct (wstep_inv _ _ H1 r1 Hr1) as (r2 & Hr2 & E2).
  exists r2. split; [exact Hr2|congruence].
Qed.

Lemma write_prefix {L} (ws : list (list L)) s :
  wsteps (mkW ws [] [] false) s -> exists sent rest, interleaving ws (sent ++ rest) /\ interleaving (w_workers s) rest /\
    sent = w_file s ++ w_queue s.
Proof.
  intros H. destruct (il_all (w_workers s)) as (rest & Hr).
  destruct (wsteps_inv _ _ H rest Hr) as (r & Hi & E). cbn in E.
  exists (w_file s ++ w_queue s), rest. rewrite <- app_assoc, <- E. auto.
Qed.

Lemma w_done_empty {L} (s s' : wstate L) : wsteps s s' -> w_done s = false -> w_done s' = true ->
  Forall (fun w => w = []) (w_workers s').
Proof.
  induction 1 as [s|a b c H1 H2 IH]; intros Hd Hd'; [congruence|].
  destruct H1; cbn in *; try (apply IH; [reflexivity|exact Hd']).
  inversion H2; subst; [exact H|]. inversion H0.
Qed.

Lemma send_all {L} (ws : list (list L)) l : interleaving ws l -> forall q f,
  exists ws', Forall (fun w => w = []) ws' /\ wsteps (mkW ws q f false) (mkW ws' (q ++ l) f false).
Proof.
  induction 1 as [ws H|ws1 x w ws2 l H IH]; intros q f.
  - exists ws. split; [exact H|]. rewrite app_nil_r. constructor.
  - destruct (IH (q ++ [x]) f) as (ws' & Hw & Hs). exists ws'. split; [exact Hw|].
    econstructor; [apply w_send|]. rewrite <- app_assoc in Hs. exact Hs.
Qed.
Lemma write_some {L} (ws : list (list L)) l1 : forall l2 f,
  wsteps (mkW ws (l1 ++ l2) f false) (mkW ws l2 (f ++ l1) false).
Proof.
  induction l1 as [|x l1 IH]; intros l2 f; [rewrite app_nil_r; constructor|].
  econstructor; [apply w_write|]. specialize (IH l2 (f ++ [x])). rewrite <- app_assoc in IH. exact IH.
Qed.
Lemma write_any_prefix {L} (ws : list (list L)) l1 l2 : interleaving ws (l1 ++ l2) ->
  exists s, wsteps (mkW ws [] [] false) s /\ w_done s = true /\ Forall (fun w => w = []) (w_workers s) /\ w_file s = l1.
Proof.
  intros H. destruct (send_all ws _ H [] []) as (ws' & Hw & Hs).
  exists (mkW ws' l2 l1 true). split; [|cbn; auto].
  eapply wsteps_trans; [exact Hs|]. eapply wsteps_trans; [apply (write_some ws' l1 l2 [])|].
  econstructor; [apply w_exit; exact Hw|]. constructor.
Qed.
