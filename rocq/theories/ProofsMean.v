(** The Boltzmann average is stationary under the samplers. *)
From Coq Require Import Reals Lra Lia List ZArith Arith FunctionalExtensionality.
From Verif Require Import Num Monad NumR Spin Config Chain SpecVec SpecChain SpecMC SpecSampling SpecMean
  ProofsSpin ProofsChain ProofsMC ProofsMCR ProofsMCR2 ProofsMCR3 ProofsMCR4 ProofsSampling.
Import ListNotations.
Local Open Scope R_scope.

(** ** Means over lists *)
Section L.
Context {A : Type}.
Implicit Types (l : list A) (f g : A -> R).
Lemma lmean_ext l f g : (forall a, In a l -> f a = g a) -> lmean l f = lmean l g.
Proof.
  intros H. unfold lmean. f_equal. induction l as [|a l IH]; [reflexivity|]. cbn [fold_right]. rewrite (H a (or_introl eq_refl)). f_equal. apply IH. intros b Hb. apply H. right. exact Hb.
Qed.
Lemma lmean_plus l f g : lmean l (fun a => f a + g a) = lmean l f + lmean l g.
Proof. unfold lmean. rewrite <- Rdiv_plus_distr. f_equal. induction l as [|a l IH]; cbn [fold_right]; [ring|]. rewrite IH. ring. Qed.
Lemma lmean_scale l k f : lmean l (fun a => k * f a) = k * lmean l f.
Proof. unfold lmean, Rdiv. rewrite <- Rmult_assoc. f_equal. induction l as [|a l IH]; cbn [fold_right]; [ring|]. rewrite IH. ring. Qed.
Lemma lmean_zero l : lmean l (fun _ => 0) = 0.
Proof. unfold lmean. replace (fold_right _ 0 l) with 0; [unfold Rdiv; ring|]. induction l as [|a l IH]; cbn [fold_right]; [ring|]. rewrite <- IH. ring. Qed.
Lemma len_pos l : l <> [] -> 0 < INR (length l).
Proof. intros H. destruct l; [contradiction|]. apply lt_0_INR. cbn. lia. Qed.
Lemma lmean_const l k : l <> [] -> lmean l (fun _ => k) = k.
Proof.
  intros H. unfold lmean. assert (E : fold_right (fun (_ : A) s => k + s) 0 l = k * INR (length l)).
  { clear H. induction l as [|a l IH]; [cbn; ring|]. cbn [fold_right]. rewrite IH. change (length (a :: l)) with (S (length l)). rewrite S_INR. ring. }
  rewrite E. pose proof (len_pos l H). field. lra.
Qed.
Lemma lmean_le l f g : (forall a, In a l -> f a <= g a) -> lmean l f <= lmean l g.
Proof.
  intros H. unfold lmean, Rdiv. destruct l as [|x l0] eqn:E; [cbn; lra|]. rewrite <- E in *. assert (l <> []) by (rewrite E; discriminate).
  apply Rmult_le_compat_r; [left; apply Rinv_0_lt_compat, len_pos; assumption|]. clear E H0. induction l as [|a l IH]; cbn [fold_right]; [lra|].
  pose proof (H a (or_introl eq_refl)). assert (fold_right (fun a s => f a + s) 0 l <= fold_right (fun a s => g a + s) 0 l); [|lra]. apply IH. intros b Hb. apply H. right. exact Hb.
Qed.
Lemma lmean_abs l f : Rabs (lmean l f) <= lmean l (fun a => Rabs (f a)).
Proof.
  apply Rabs_le. split.
  - replace (- lmean l (fun a => Rabs (f a))) with (lmean l (fun a => (-1) * Rabs (f a))) by (rewrite lmean_scale; ring).
    apply lmean_le. intros a _. pose proof (Rle_abs (- f a)) as H. rewrite Rabs_Ropp in H. lra.
  - apply lmean_le. intros a _. apply Rle_abs.
Qed.
Lemma lmean_pos l f : l <> [] -> (forall a, In a l -> 0 < f a) -> 0 < lmean l f.
Proof.
  intros Hl P. unfold lmean. apply Rdiv_lt_0_compat; [|apply len_pos, Hl]. destruct l as [|a l]; [contradiction|]. cbn [fold_right]. pose proof (P a (or_introl eq_refl)).
  assert (Q : 0 <= fold_right (fun a s => f a + s) 0 l); [|lra]. assert (P' : forall b, In b l -> 0 < f b) by (intros b Hb; apply P; right; exact Hb). clear - P'.
  induction l as [|b l IH]; cbn [fold_right]; [lra|]. pose proof (P' b (or_introl eq_refl)). assert (0 <= fold_right (fun a s => f a + s) 0 l); [|lra]. apply IH. intros x Hx. apply P'. right. exact Hx.
Qed.
End L.
Lemma lmean_swap {A B} (l : list A) (m : list B) f : lmean l (fun a => lmean m (fun b => f a b)) = lmean m (fun b => lmean l (fun a => f a b)).
Proof.
  assert (H : forall l0, fold_right (fun a s => lmean m (fun b => f a b) + s) 0 l0 = lmean m (fun b => fold_right (fun a s => f a b + s) 0 l0)).
  { induction l0 as [|a l0 IH]; cbn [fold_right]; [rewrite lmean_zero; reflexivity|]. rewrite IH, <- lmean_plus. reflexivity. }
  unfold lmean at 1. rewrite H. unfold Rdiv. rewrite Rmult_comm, <- lmean_scale. apply lmean_ext. intros b _. unfold lmean, Rdiv. ring.
Qed.

(** ** Means over sequences *)
Section G.
Context {A : Type} (z : A) (l : list A).
Implicit Types (F G : (nat -> A) -> R).
Lemma gmean_ext n : forall F G, (forall x, (forall i, (i < n)%nat -> In (x i) l) -> F x = G x) -> gmean z l n F = gmean z l n G.
Proof.
  induction n as [|n IH]; intros F G H; cbn [gmean]; [apply H; intros i Hi; lia|]. apply lmean_ext. intros a Ha. apply IH. intros x Hx. apply H.
  intros [|i] Hi; cbn [scons]; [exact Ha|apply Hx; lia].
Qed.
Lemma gmean_plus n : forall F G, gmean z l n (fun x => F x + G x) = gmean z l n F + gmean z l n G.
Proof. induction n as [|n IH]; intros F G; cbn [gmean]; [reflexivity|]. rewrite <- lmean_plus. apply lmean_ext. intros a _. apply (IH (fun x => F (scons a x)) (fun x => G (scons a x))). Qed.
Lemma gmean_scale n k : forall F, gmean z l n (fun x => k * F x) = k * gmean z l n F.
Proof. induction n as [|n IH]; intros F; cbn [gmean]; [reflexivity|]. rewrite <- lmean_scale. apply lmean_ext. intros a _. apply (IH (fun x => F (scons a x))). Qed.
Lemma gmean_le n : forall F G, (forall x, (forall i, (i < n)%nat -> In (x i) l) -> F x <= G x) -> gmean z l n F <= gmean z l n G.
Proof.
  induction n as [|n IH]; intros F G H; cbn [gmean]; [apply H; intros i Hi; lia|]. apply lmean_le. intros a Ha. apply IH. intros x Hx. apply H.
  intros [|i] Hi; cbn [scons]; [exact Ha|apply Hx; lia].
Qed.
Lemma gmean_const n k : l <> [] -> gmean z l n (fun _ => k) = k.
Proof. intros H. induction n as [|n IH]; cbn [gmean]; [reflexivity|]. rewrite (lmean_ext l _ (fun _ => k)) by (intros; exact IH). apply lmean_const, H. Qed.
Lemma gmean_pos n : l <> [] -> forall F, (forall x, (forall i, (i < n)%nat -> In (x i) l) -> 0 < F x) -> 0 < gmean z l n F.
Proof.
  intros Hl. induction n as [|n IH]; intros F H; cbn [gmean]; [apply H; intros i Hi; lia|].
  assert (P : forall a, In a l -> 0 < gmean z l n (fun x => F (scons a x))).
  { intros a Ha. apply IH. intros x Hx. apply H. intros [|i] Hi; cbn [scons]; [exact Ha|apply Hx; lia]. }
  apply lmean_pos; assumption.
Qed.
Lemma gmean_abs n : forall F, Rabs (gmean z l n F) <= gmean z l n (fun x => Rabs (F x)).
Proof. induction n as [|n IH]; intros F; cbn [gmean]; [apply Rle_refl|]. eapply Rle_trans; [apply lmean_abs|]. apply lmean_le. intros a _. apply (IH (fun x => F (scons a x))). Qed.
Lemma gmean_swap {B} (m : list B) n : forall (F : (nat -> A) -> B -> R),
  gmean z l n (fun x => lmean m (fun b => F x b)) = lmean m (fun b => gmean z l n (fun x => F x b)).
Proof.
  induction n as [|n IH]; intros F; cbn [gmean]; [reflexivity|]. rewrite <- lmean_swap. apply lmean_ext. intros a _. apply (IH (fun x b => F (scons a x) b)).
Qed.
Definition put (x : nat -> A) (j : nat) (a : A) : nat -> A := fun i => if (i =? j)%nat then a else x i.
Lemma put_0 a b x : put (scons b x) 0 a = scons a x.
Proof. apply functional_extensionality. intros [|i]; reflexivity. Qed.
Lemma put_S a b x j : put (scons b x) (S j) a = scons b (put x j a).
Proof. apply functional_extensionality. intros [|i]; reflexivity. Qed.
Lemma put_put x j a b : put (put x j a) j b = put x j b.
Proof. apply functional_extensionality. intros i. unfold put. destruct (i =? j)%nat; reflexivity. Qed.
Lemma put_same x j : put x j (x j) = x.
Proof. apply functional_extensionality. intros i. unfold put. destruct (Nat.eqb_spec i j) as [->|]; reflexivity. Qed.
Lemma put_at x j a : put x j a j = a.
Proof. unfold put. rewrite Nat.eqb_refl. reflexivity. Qed.
(** taking member j and one more draw in the other order *)
Lemma exchange j : forall n (Phi : (nat -> A) -> A -> R), (j < n)%nat ->
  gmean z l n (fun x => lmean l (fun a => Phi (put x j a) (x j))) = gmean z l n (fun x => lmean l (fun a => Phi x a)).
Proof.
  induction j as [|j IH]; intros n Phi Hj; (destruct n as [|n]; [lia|]); cbn [gmean].
  - rewrite (lmean_ext l _ (fun a => lmean l (fun b => gmean z l n (fun x => Phi (scons b x) a)))).
    + rewrite lmean_swap. apply lmean_ext. intros b _. rewrite gmean_swap. reflexivity.
    + intros a _. rewrite <- gmean_swap. apply gmean_ext. intros x _. apply lmean_ext. intros b _. rewrite put_0. reflexivity.
  - apply lmean_ext. intros b _. rewrite <- (IH n (fun x a => Phi (scons b x) a)) by lia. apply gmean_ext. intros x _. apply lmean_ext. intros a _. rewrite put_S. reflexivity.
Qed.
End G.

(** ** The grid *)
Lemma grid_length N : length (grid N) = N.
Proof. unfold grid. rewrite map_length, seq_length. reflexivity. Qed.
Lemma grid_not_nil N : (1 <= N)%nat -> grid N <> [].
Proof. intros H E. pose proof (grid_length N) as L. rewrite E in L. cbn in L. lia. Qed.
Lemma grid2_not_nil N : (1 <= N)%nat -> grid2 N <> [].
Proof. intros H. unfold grid2. pose proof (grid_not_nil N H). destruct (grid N); [contradiction|discriminate]. Qed.
Lemma grid_unit N u : In u (grid N) -> 0 < u < 1.
Proof.
  unfold grid. rewrite in_map_iff. intros (k & <- & Hk). apply in_seq in Hk. assert (K : INR k + 1 <= INR N) by (rewrite <- S_INR; apply le_INR; lia).
  pose proof (pos_INR k). split.
  - apply Rdiv_lt_0_compat; lra.
  - apply Rmult_lt_reg_r with (INR N); [lra|]. unfold Rdiv. rewrite Rmult_assoc, Rinv_l by lra. lra.
Qed.
Lemma grid2_unit N a : In a (grid2 N) -> unit_draw (fst a) /\ unit_draw (snd a).
Proof. destruct a as [u v]. unfold grid2. rewrite in_prod_iff. intros [H1 H2]. apply grid_unit in H1. apply grid_unit in H2. unfold unit_draw. cbn. lra. Qed.

(** the part of the grid below p *)
Definition below (p u : R) : R := if Rlt_dec u p then 1 else 0.
Lemma count_all y : forall N k, INR (k + N) <= y -> fold_right (fun j s => below y (INR j + 1 / 2) + s) 0 (seq k N) = INR N.
Proof.
  induction N as [|N IH]; intros k H; [reflexivity|]. cbn [seq fold_right]. rewrite IH by (replace (S k + N)%nat with (k + S N)%nat by lia; exact H).
  unfold below. destruct (Rlt_dec _ _) as [L|L]; [rewrite S_INR; ring|]. exfalso. apply L. rewrite plus_INR, S_INR in H. pose proof (pos_INR N). lra.
Qed.
Lemma count_near y : forall N, 0 <= y <= INR N -> Rabs (fold_right (fun j s => below y (INR j + 1 / 2) + s) 0 (seq 0 N) - y) <= 1 / 2.
Proof.
  induction N as [|N IH]; intros H; [cbn in *; replace y with 0 by lra; rewrite Rminus_0_r, Rabs_R0; lra|].
  rewrite seq_S, fold_right_app. cbn [fold_right plus].
  assert (Sh : forall l x, fold_right (fun j s => below y (INR j + 1 / 2) + s) x l = fold_right (fun j s => below y (INR j + 1 / 2) + s) 0 l + x).
  { clear. induction l as [|a l IH]; intros x; cbn [fold_right]; [ring|]. rewrite IH. ring. }
  rewrite Sh, Rplus_0_r. rewrite S_INR in H. destruct (Rle_dec y (INR N)) as [L|L].
  - specialize (IH ltac:(lra)). unfold below at 2. destruct (Rlt_dec _ _) as [M|M]; [lra|]. rewrite Rplus_0_r. exact IH.
  - rewrite count_all by (cbn [plus]; lra). unfold below. destruct (Rlt_dec _ _) as [M|M]; apply Rabs_le; lra.
Qed.
Lemma grid_below N p : (1 <= N)%nat -> 0 <= p <= 1 -> Rabs (lmean (grid N) (below p) - p) <= 1 / (2 * INR N).
Proof.
  intros HN Hp. assert (P : 1 <= INR N) by (change 1 with (INR 1); apply le_INR; exact HN).
  assert (E : lmean (grid N) (below p) = fold_right (fun j s => below (p * INR N) (INR j + 1 / 2) + s) 0 (seq 0 N) / INR N).
  { unfold lmean. rewrite grid_length. f_equal. unfold grid. generalize (seq 0 N) as l. induction l as [|k l IH]; [reflexivity|]. cbn [map fold_right]. rewrite IH. f_equal.
    unfold below. set (q := INR k + 1 / 2). destruct (Rlt_dec (q / INR N) p) as [L|L], (Rlt_dec q (p * INR N)) as [M|M]; try reflexivity; exfalso.
    - apply M. apply Rmult_lt_compat_r with (r := INR N) in L; [|lra]. unfold Rdiv in L. rewrite Rmult_assoc, Rinv_l in L by lra. lra.
    - apply L. apply Rmult_lt_reg_r with (INR N); [lra|]. unfold Rdiv. rewrite Rmult_assoc, Rinv_l by lra. lra. }
  rewrite E. pose proof (count_near (p * INR N) N ltac:(split; nra)) as C. set (s := fold_right _ 0 _) in *.
  replace (s / INR N - p) with ((s - p * INR N) * / INR N) by (field; lra).
  rewrite Rabs_mult, (Rabs_pos_eq (/ INR N)) by (left; apply Rinv_0_lt_compat; lra).
  replace (1 / (2 * INR N)) with (1 / 2 * / INR N) by (field; lra). apply Rmult_le_compat_r; [left; apply Rinv_0_lt_compat; lra|exact C].
Qed.

(** ** The Boltzmann weights *)
Section B.
Variables (n s : nat) (c : chain R) (H : chain R -> R) (f : mcdraw ERNum -> chain (num ERNum) -> res (chain (num ERNum))).
Let b := beta (vars c).
Hypothesis W : wf n s c.
Hypothesis Hb : 0 <= b.
Hypothesis M : forall x, metropolis_for n H f (at_dirs c n x).
Hypothesis n1 : (1 <= n)%nat.
Let at_ := at_dirs c n.
Let w (x : nat -> R * R) : R := exp (- (b * H (at_ x))).
Let prob (j : nat) x a : R := accept_prob b (H (at_ (put x j a)) - H (at_ x)).

Lemma at_moved x j a : (j < n)%nat -> moved (at_ x) j (uniform_dir (fst a) (snd a)) = at_ (put x j a).
Proof.
  intros Hj. unfold at_, at_dirs, moved. cbn [set_spins spins]. rewrite map_length, seq_length. 
  unfold set_spins. cbn [j_couple static_h t vars has_file]. f_equal. apply map_ext_in. intros k Hk. apply in_seq in Hk.
  unfold put. destruct (k =? j)%nat; [reflexivity|]. unfold S_, SpecChain.at_. cbn [spins]. 
  erewrite nth_error_nth; [reflexivity|]. rewrite nth_error_map. rewrite (nth_error_nth' _ 0%nat) by (rewrite seq_length; lia). rewrite seq_nth by lia. reflexivity.
Qed.
Lemma balance j x a : w x * prob j x a = w (put x j a) * prob j (put x j a) (x j).
Proof.
  unfold prob, w, accept_prob. rewrite put_put, put_same. set (p := H (at_ x)). set (q := H (at_ (put x j a))).
  assert (K : forall u v, exp (- (b * u)) * Rmin 1 (exp (- (b * (v - u)))) = Rmin (exp (- (b * u))) (exp (- (b * v)))).
  { intros u v. rewrite <- Rmult_1_r at 1. replace (exp (- (b * v))) with (exp (- (b * u)) * exp (- (b * (v - u)))) by (rewrite <- exp_plus; f_equal; ring).
    pose proof (exp_pos (- (b * u))). unfold Rmin. destruct (Rle_dec 1 _) as [A|A], (Rle_dec (exp (- (b * u))) _) as [B|B]; try lra; nra. }
  rewrite (K p q), (K q p). apply Rmin_comm.
Qed.
Lemma prob_unit j x a : 0 <= prob j x a <= 1.
Proof. unfold prob, accept_prob. split; [apply Rmin_glb; [lra|left; apply exp_pos]|apply Rmin_l]. Qed.
Lemma exact_stationary j g : (j < n)%nat -> forall l z,
  gmean z l n (fun x => w x * lmean l (fun a => prob j x a * g (put x j a) + (1 - prob j x a) * g x)) =
  gmean z l n (fun x => w x * lmean l (fun _ => g x)).
Proof.
  intros Hj l z. set (Phi := fun x a => w x * prob j x a * g x).
  rewrite (gmean_ext z l n _ (fun x => lmean l (fun a => Phi (put x j a) (x j)) + (w x * lmean l (fun _ => g x) + (-1) * lmean l (fun a => Phi x a)))).
  - rewrite gmean_plus, (gmean_plus z l n (fun x => w x * _)), gmean_scale. rewrite (exchange z l j n Phi Hj). ring.
  - intros x _. rewrite <- !lmean_scale, <- !lmean_plus. apply lmean_ext. intros a _. unfold Phi. rewrite <- balance. ring.
Qed.

(** one site, the deciding number from the grid *)
Lemma decide N j x a (g : chain (num ERNum) -> R) B : (1 <= N)%nat -> (j < n)%nat -> In a (grid2 N) ->
  Rabs (g (fin (at_ (put x j a)))) <= B -> Rabs (g (fin (at_ x))) <= B ->
  Rabs (lmean (grid N) (fun u => on g (f (draw j (fst a) (snd a) u) (fin (at_ x))))
        - (prob j x a * g (fin (at_ (put x j a))) + (1 - prob j x a) * g (fin (at_ x)))) <= B / INR N.
Proof.
  intros HN Hj Ha B1 B2. set (g1 := g (fin (at_ (put x j a)))) in *. set (g0 := g (fin (at_ x))) in *. set (p := prob j x a).
  destruct (grid2_unit N a Ha) as [U1 U2].
  rewrite (lmean_ext (grid N) _ (fun u => g0 + (g1 - g0) * below p u)).
  - rewrite lmean_plus, lmean_const, lmean_scale by (apply grid_not_nil, HN).
    pose proof (grid_below N p HN (prob_unit j x a)) as G. set (q := lmean (grid N) (below p)) in *.
    replace (g0 + (g1 - g0) * q - (p * g1 + (1 - p) * g0)) with ((g1 - g0) * (q - p)) by ring. rewrite Rabs_mult.
    assert (P : 1 <= INR N) by (change 1 with (INR 1); apply le_INR; exact HN).
    replace (B / INR N) with (2 * B * (1 / (2 * INR N))) by (field; lra).
    apply Rmult_le_compat; try apply Rabs_pos; [|exact G]. unfold Rminus. eapply Rle_trans; [apply Rabs_triang|]. rewrite Rabs_Ropp. lra.
  - intros u Hu. apply grid_unit in Hu. destruct (M x j (fst a) (snd a) u U1 U2 ltac:(unfold unit_draw; lra)) as [Yes No].
    rewrite Nat.mod_small in Yes, No by exact Hj. fold at_ in Yes, No. rewrite (at_moved x j a Hj) in Yes, No. change (beta (vars (at_ x))) with b in Yes, No.
    unfold below. set (D := H (at_ (put x j a)) - H (at_ x)) in *.
    assert (Ap : accepts b D u <-> u < p).
    { unfold p, prob, accept_prob, accepts. fold D. unfold Rmin. destruct (Rle_dec 1 (exp (- (b * D)))) as [L|L]; split; intros X; try lra.
      destruct X as [X|X]; [|lra]. exfalso. apply L. rewrite <- exp_0. destruct (Rle_lt_or_eq_dec 0 (- (b * D))) as [Q|Q]; [nra|left; apply exp_increasing, Q|rewrite <- Q; lra]. }
    destruct (Rlt_dec u p) as [L|L].
    + rewrite (Yes (proj2 Ap L)). cbn [on]. fold g1. ring.
    + rewrite (No (fun X => L (proj1 Ap X))). cbn [on]. fold g0. ring.
Qed.

Definition inside (x : nat -> R * R) : Prop := forall i, (i < n)%nat -> 0 <= fst (x i) <= 1 /\ 0 <= snd (x i) <= 1.
Lemma inside_grid N x : (forall i, (i < n)%nat -> In (x i) (grid2 N)) -> inside x.
Proof. intros Hx i Hi. destruct (grid2_unit N _ (Hx i Hi)) as [A B]. unfold unit_draw in *. lra. Qed.
Lemma inside_put N x j a : In a (grid2 N) -> inside x -> inside (put x j a).
Proof. intros Ha Hx i Hi. unfold put. destruct (i =? j)%nat; [|apply Hx, Hi]. destruct (grid2_unit N _ Ha) as [A B]. unfold unit_draw in *. lra. Qed.
Let Z N := gmean (0, 0) (grid2 N) n w.
Lemma site_near N j (g : chain (num ERNum) -> R) B : (1 <= N)%nat -> (j < n)%nat -> (forall x, inside x -> Rabs (g (fin (at_ x))) <= B) ->
  Rabs (gmean (0, 0) (grid2 N) n (fun x => w x * lmean (grid2 N) (fun a => lmean (grid N) (fun u => on g (f (draw j (fst a) (snd a) u) (fin (at_ x))))))
        - gmean (0, 0) (grid2 N) n (fun x => w x * g (fin (at_ x)))) <= B / INR N * Z N.
Proof.
  intros HN Hj HB.
  assert (Q : gmean (0, 0) (grid2 N) n (fun x => w x * g (fin (at_ x))) =
    gmean (0, 0) (grid2 N) n (fun x => w x * lmean (grid2 N) (fun a => prob j x a * g (fin (at_ (put x j a))) + (1 - prob j x a) * g (fin (at_ x))))).
  { rewrite (exact_stationary j (fun x => g (fin (at_ x))) Hj (grid2 N) (0, 0)). apply gmean_ext. intros x _. rewrite lmean_const by (apply grid2_not_nil, HN). reflexivity. }
  rewrite Q. unfold Rminus. rewrite <- (Rmult_1_l (gmean _ _ _ (fun x => _ * lmean _ (fun a => prob j x a * _ + _)))), Ropp_mult_distr_l, <- gmean_scale, <- gmean_plus.
  eapply Rle_trans; [apply gmean_abs|]. unfold Z. rewrite <- gmean_scale. apply gmean_le. intros x Hx. apply inside_grid in Hx.
  match goal with |- Rabs (_ * ?p + _ * (_ * ?q)) <= _ => replace (w x * p + - (1) * (w x * q)) with (w x * (p + (-1) * q)) by ring end.
  assert (0 < w x) by apply exp_pos. rewrite Rabs_mult, (Rabs_pos_eq (w x)), Rmult_comm by lra. apply Rmult_le_compat_r; [lra|].
  rewrite <- lmean_scale, <- lmean_plus. eapply Rle_trans; [apply lmean_abs|]. rewrite <- (lmean_const (grid2 N) (B / INR N)) by (apply grid2_not_nil, HN).
  apply lmean_le. intros a Ha. eapply Rle_trans; [|apply (decide N j x a g B HN Hj Ha); apply HB; [apply (inside_put N); assumption|exact Hx]]. apply Req_le. f_equal. ring.
Qed.

Lemma step_where N j x a u : (j < n)%nat -> In a (grid2 N) -> In u (grid N) -> inside x ->
  exists y, inside y /\ f (draw j (fst a) (snd a) u) (fin (at_ x)) = Ok (fin (at_ y)).
Proof.
  intros Hj Ha Hu Hx. destruct (grid2_unit N a Ha) as [U1 U2]. apply grid_unit in Hu.
  destruct (M x j (fst a) (snd a) u U1 U2 ltac:(unfold unit_draw; lra)) as [Yes No].
  rewrite Nat.mod_small in Yes, No by exact Hj. fold at_ in Yes, No. rewrite (at_moved x j a Hj) in Yes, No.
  match type of Yes with ?P -> _ => destruct (accepts_dec (beta (vars (at_ x))) (H (at_ (put x j a)) - H (at_ x)) u) as [X|X] end; [exists (put x j a); split; [apply (inside_put N); assumption|exact (Yes X)]|exists x; split; [exact Hx|exact (No X)]].
Qed.
Lemma expected_bound N (g : chain (num ERNum) -> R) B : (1 <= N)%nat -> (forall x, inside x -> Rabs (g (fin (at_ x))) <= B) -> forall k x, inside x -> Rabs (expected N n f k g (fin (at_ x))) <= B.
Proof.
  intros HN HB.
  induction k as [|k IH]; intros x Hx; cbn [expected]; [apply HB, Hx|].
  assert (K : forall (T : Type) (l : list T) h, l <> [] -> (forall a, In a l -> Rabs (h a) <= B) -> Rabs (lmean l h) <= B).
  { intros T l h Hl Hh. eapply Rle_trans; [apply lmean_abs|]. rewrite <- (lmean_const l B Hl). apply lmean_le. auto. }
  apply K; [destruct n; [lia|discriminate]|]. intros d Hd. apply in_seq in Hd. apply K; [apply grid2_not_nil, HN|]. intros a Ha. apply K; [apply grid_not_nil, HN|]. intros u Hu.
  destruct (step_where N d x a u ltac:(lia) Ha Hu Hx) as (y & Hy & E). rewrite E. cbn [on]. apply IH, Hy.
Qed.
Lemma step_near N (g : chain (num ERNum) -> R) B : (1 <= N)%nat -> (forall x, inside x -> Rabs (g (fin (at_ x))) <= B) ->
  Rabs (gmean (0, 0) (grid2 N) n (fun x => w x * expected N n f 1 g (fin (at_ x)))
        - gmean (0, 0) (grid2 N) n (fun x => w x * g (fin (at_ x)))) <= B / INR N * Z N.
Proof.
  intros HN HB. cbn [expected]. assert (Hs : seq 0 n <> []) by (destruct n; [lia|discriminate]).
  set (G := fun j => gmean (0, 0) (grid2 N) n (fun x => w x * lmean (grid2 N) (fun a => lmean (grid N) (fun u => on g (f (draw j (fst a) (snd a) u) (fin (at_ x))))))).
  set (T := gmean (0, 0) (grid2 N) n (fun x => w x * g (fin (at_ x)))).
  assert (E : gmean (0, 0) (grid2 N) n (fun x => w x * lmean (seq 0 n) (fun d => lmean (grid2 N) (fun a => lmean (grid N) (fun u => on g (f (draw d (fst a) (snd a) u) (fin (at_ x))))))) = lmean (seq 0 n) G).
  { unfold G. rewrite <- gmean_swap. apply gmean_ext. intros x _. rewrite <- lmean_scale. reflexivity. }
  eapply Rle_trans; [apply Req_le; apply (f_equal (fun q => Rabs (q - T))); exact E|].
  replace (lmean (seq 0 n) G - T) with (lmean (seq 0 n) (fun j => G j + (-1) * T)) by (rewrite lmean_plus, lmean_const by exact Hs; ring).
  eapply Rle_trans; [apply lmean_abs|]. rewrite <- (lmean_const (seq 0 n) (B / INR N * Z N) Hs). apply lmean_le. intros j Hj. apply in_seq in Hj.
  replace (G j + -1 * T) with (G j - T) by ring. apply (site_near N j g B HN); [lia|exact HB].
Qed.
Lemma expected_last N g : forall k x, expected N n f (S k) g x = expected N n f 1 (expected N n f k g) x.
Proof. reflexivity. Qed.
Lemma steps_near N (g : chain (num ERNum) -> R) B : (1 <= N)%nat -> (forall x, inside x -> Rabs (g (fin (at_ x))) <= B) -> forall k,
  Rabs (gmean (0, 0) (grid2 N) n (fun x => w x * expected N n f k g (fin (at_ x)))
        - gmean (0, 0) (grid2 N) n (fun x => w x * g (fin (at_ x)))) <= INR k * (B / INR N * Z N).
Proof.
  intros HN HB. induction k as [|k IH].
  - cbn [expected]. rewrite Rminus_diag_eq, Rabs_R0 by reflexivity. cbn. lra.
  - pose proof (step_near N (expected N n f k g) B HN (expected_bound N g B HN HB k)) as S1. rewrite S_INR.
    set (X := gmean _ _ _ (fun x => w x * expected N n f 1 (expected N n f k g) (fin (at_ x)))) in S1. set (Y := gmean _ _ _ (fun x => w x * expected N n f k g (fin (at_ x)))) in *.
    set (T := gmean _ _ _ (fun x => w x * g (fin (at_ x)))) in *. change (gmean _ _ _ (fun x => w x * expected N n f (S k) g (fin (at_ x)))) with X.
    replace (X - T) with ((X - Y) + (Y - T)) by ring. eapply Rle_trans; [apply Rabs_triang|]. lra.
Qed.
Theorem boltzmann_near N (g : chain (num ERNum) -> R) B k : (1 <= N)%nat -> (forall x, inside x -> Rabs (g (fin (at_ x))) <= B) ->
  Rabs (boltzmann_avg N n b H c (fun x => expected N n f k g (fin x)) - boltzmann_avg N n b H c (fun x => g (fin x))) <= INR k * B / INR N.
Proof.
  intros HN HB. pose proof (steps_near N g B HN HB k) as S. unfold boltzmann_avg. fold at_. change (fun x => exp (- (b * H (at_ x)))) with w. fold (Z N).
  assert (Zp : 0 < Z N) by (apply gmean_pos; [apply grid2_not_nil, HN|intros; apply exp_pos]).
  change (gmean _ _ _ (fun x => exp (- (b * H (at_ x))) * expected N n f k g (fin (at_ x)))) with (gmean (0, 0) (grid2 N) n (fun x => w x * expected N n f k g (fin (at_ x)))).
  change (gmean _ _ _ (fun x => exp (- (b * H (at_ x))) * g (fin (at_ x)))) with (gmean (0, 0) (grid2 N) n (fun x => w x * g (fin (at_ x)))).
  set (X := gmean _ _ _ (fun x => w x * expected N n f k g (fin (at_ x)))) in *. set (Y := gmean _ _ _ (fun x => w x * g (fin (at_ x)))) in *.
  replace (X / Z N - Y / Z N) with ((X - Y) * / Z N) by (field; lra). rewrite Rabs_mult, (Rabs_pos_eq (/ Z N)) by (left; apply Rinv_0_lt_compat, Zp).
  replace (INR k * B / INR N) with (INR k * (B / INR N * Z N) * / Z N) by (field; split; [|lra]; apply not_0_INR; lia).
  apply Rmult_le_compat_r; [left; apply Rinv_0_lt_compat, Zp|exact S].
Qed.
End B.
