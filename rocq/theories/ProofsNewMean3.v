(** Means over the draws of SpinChain::new: moments of the walk, and the program as that walk. *)
From Coq Require Import Reals Lra Lia List ZArith Arith FunctionalExtensionality.
From Verif Require Import Num Monad NumR Spin Config Chain SpecVec SpecChain SpecMC SpecMean SpecNewMean ProofsSpin ProofsNew ProofsEnergy ProofsMean ProofsMean2 ProofsMean3 ProofsMean4 ProofsMean5 ProofsNewMean ProofsNewMean2.
Import ListNotations.
Local Open Scope R_scope.

Fixpoint wl (b : R) (n : nat) (s : vec) (x : nat -> R * R * R) : list vec :=
  match n with
  | O => []
  | S n' => if good b s (x 0%nat) then walk b s (x 0%nat) :: wl b n' (walk b s (x 0%nat)) (fun i => x (S i)) else repeat vzero n
  end.
Fixpoint dead (b : R) (n : nat) (s : vec) (x : nat -> R * R * R) : bool :=
  match n with
  | O => false
  | S n' => if good b s (x 0%nat) then dead b n' (walk b s (x 0%nat)) (fun i => x (S i)) else true
  end.
Definition fine (s : vec) : Prop := unit3 s /\ vx s <> 0.
Lemma grid3_unit N a : In a (grid3 N) -> unit_draw (fst (fst a)) /\ unit_draw (snd (fst a)) /\ unit_draw (snd a).
Proof. destruct a as [a u]. intros I. apply in_prod_iff in I. destruct I as [I2 I1]. destruct (grid2_unit N a I2). apply grid_unit in I1. unfold unit_draw in *. cbn. lra. Qed.
Lemma nth_zero n i : nth i (repeat vzero n) vzero = vzero.
Proof. revert i. induction n as [|n IH]; intros [|i]; cbn; auto. Qed.

Section W.
Variables (b : R) (m : nat).
Hypothesis Hb : b <> 0.
Hypothesis Hm : (1 <= m)%nat.
Let N := (2 * m)%nat.
Let l := grid3 N.
Let c := lmean (grid N) (cz b).
Let z := (0, 0, 0).
Lemma l_nil : l <> [].
Proof.
  destruct (not_nil_in (grid2 N) (grid2_not_nil N ltac:(unfold N; lia))) as [a Ha]. destruct (not_nil_in (grid N) (grid_not_nil N ltac:(unfold N; lia))) as [u Hu].
  intros E. pose proof (in_prod _ _ a u Ha Hu) as I. change (list_prod (grid2 N) (grid N)) with l in I. rewrite E in I. destruct I.
Qed.
Lemma N_pos : 0 < INR N. Proof. apply lt_0_INR. unfold N. lia. Qed.
Lemma c_unit : Rabs c <= 1.
Proof.
  unfold c. eapply Rle_trans; [apply lmean_abs|]. rewrite <- (lmean_const (grid N) 1) by (apply grid_not_nil; unfold N; lia). apply lmean_le. intros u Iu. apply grid_unit in Iu.
  apply Rabs_le. apply cz_range; [exact Hb|lra].
Qed.
Lemma c_pow k : Rabs (c ^ k) <= 1.
Proof.
  rewrite <- RPow_abs. pose proof c_unit. pose proof (Rabs_pos c). induction k as [|k IH]; cbn; [lra|]. apply Rle_trans with (1 * 1); [|lra]. apply Rmult_le_compat; auto. apply pow_le. exact H0.
Qed.
Lemma walk_fine s a : fine s -> In a l -> good b s a = true -> fine (walk b s a).
Proof.
  intros [Us Hx] Ia G. apply andb_prop in G. destruct G as [G1 G2]. apply Bool.negb_true_iff in G1, G2. split.
  - apply walk_unit; [exact Us|exact G1| |exact Hb]. destruct (grid3_unit N a Ia) as (_ & _ & Hu). unfold unit_draw in Hu. lra.
  - intros E. apply flat_true in E. congruence.
Qed.
Lemma one_step s w K e k (h : vec -> R) : fine s -> 0 <= K -> 0 <= e -> (forall v, unit3 v -> Rabs (dot v w) <= K) -> Rabs k <= 1 ->
  (forall v, fine v -> Rabs (h v - k * dot v w) <= e) ->
  Rabs (lmean l (fun a => if good b s a then h (walk b s a) else 0) - k * c * dot s w) <= e + 3 / INR N * K.
Proof.
  intros [Us Hx] HK He Hw Hk Hh. replace (k * c * dot s w) with (k * lmean l (fun a => dot (walk b s a) w)) by (unfold l, N; rewrite walk_mean by exact Hm; unfold c, N; ring).
  rewrite <- lmean_scale. replace (lmean l (fun a => if good b s a then h (walk b s a) else 0) - lmean l (fun a => k * dot (walk b s a) w))
    with (lmean l (fun a => (if good b s a then h (walk b s a) else 0) + -1 * (k * dot (walk b s a) w))) by (rewrite lmean_plus, (lmean_scale l (-1)); ring).
  eapply Rle_trans; [apply lmean_abs|]. apply Rle_trans with (lmean l (fun a => e + K * ind (negb (good b s a)))).
  - apply lmean_le. intros a Ia. destruct (good b s a) eqn:G; cbn [negb ind].
    + pose proof (Hh _ (walk_fine s a (conj Us Hx) Ia G)) as Q. replace (h (walk b s a) + -1 * (k * dot (walk b s a) w)) with (h (walk b s a) - k * dot (walk b s a) w) by ring. lra.
    + assert (Q : Rabs (dot (walk b s a) w) <= K).
      { destruct (grid3_unit N a Ia) as (_ & _ & Hu). unfold unit_draw in Hu. destruct (deg s (rd (fst a))) eqn:D; [|apply Hw, walk_unit; auto; lra].
        unfold walk, side. rewrite D. replace (dot _ w) with (cz b (snd a) * dot s w) by (unfold dot; cbn; ring). rewrite Rabs_mult. pose proof (cz_range b (snd a) Hb ltac:(lra)).
        assert (Rabs (cz b (snd a)) <= 1) by (apply Rabs_le; lra). apply Rle_trans with (1 * K); [|lra]. apply Rmult_le_compat; auto using Rabs_pos. }
      replace (0 + -1 * (k * dot (walk b s a) w)) with (- (k * dot (walk b s a) w)) by ring. rewrite Rabs_Ropp, Rabs_mult, Rmult_1_r.
      apply Rle_trans with (1 * K); [apply Rmult_le_compat; auto using Rabs_pos|lra].
  - rewrite lmean_plus, lmean_scale, lmean_const by exact l_nil. pose proof (bad_few b N s ltac:(unfold N; lia) Hb Us Hx) as Q. fold l in Q.
    rewrite (Rmult_comm (3 / INR N)). apply Rplus_le_compat_l. apply Rmult_le_compat_l; [exact HK|exact Q].
Qed.
Lemma one_step0 s e k (h : vec -> R) : fine s -> 0 <= e -> Rabs k <= 1 -> (forall v, fine v -> Rabs (h v - k) <= e) ->
  Rabs (lmean l (fun a => if good b s a then h (walk b s a) else 0) - k) <= e + 3 / INR N.
Proof.
  intros [Us Hx] He Hk Hh. rewrite <- (lmean_const l k l_nil) at 1. 
  replace (lmean l (fun a => if good b s a then h (walk b s a) else 0) - lmean l (fun _ => k)) with (lmean l (fun a => (if good b s a then h (walk b s a) else 0) + -1 * k)) by (rewrite lmean_plus, (lmean_scale l (-1)); ring).
  eapply Rle_trans; [apply lmean_abs|]. apply Rle_trans with (lmean l (fun a => e + ind (negb (good b s a)))).
  - apply lmean_le. intros a Ia. destruct (good b s a) eqn:G; cbn [negb ind].
    + pose proof (Hh _ (walk_fine s a (conj Us Hx) Ia G)) as Q. replace (h (walk b s a) + -1 * k) with (h (walk b s a) - k) by ring. lra.
    + replace (0 + -1 * k) with (- k) by ring. rewrite Rabs_Ropp. lra.
  - rewrite lmean_plus, lmean_const by exact l_nil. pose proof (bad_few b N s ltac:(unfold N; lia) Hb Us Hx) as Q. fold l in Q. lra.
Qed.
(** the first spin and the others *)
Lemma first_step n s F : gmean z l (S n) (fun x => F (wl b (S n) s x)) =
  lmean l (fun a => if good b s a then gmean z l n (fun x => F (walk b s a :: wl b n (walk b s a) x)) else F (repeat vzero (S n))).
Proof.
  cbn [gmean]. apply lmean_ext. intros a _. destruct (good b s a) eqn:G.
  - apply gmean_ext. intros x _. cbn [wl scons]. rewrite G. reflexivity.
  - rewrite <- (gmean_const z l n (F (repeat vzero (S n))) l_nil). apply gmean_ext. intros x _. cbn [wl scons]. rewrite G. reflexivity.
Qed.
Lemma e_pos i : 0 <= 3 * INR i / INR N.
Proof. pose proof N_pos. pose proof (pos_INR i). unfold Rdiv. apply Rmult_le_pos; [lra|left; apply Rinv_0_lt_compat; lra]. Qed.
Lemma spin_mean w K : 0 <= K -> (forall v, unit3 v -> Rabs (dot v w) <= K) -> forall n i s, fine s -> (i < n)%nat ->
  Rabs (gmean z l n (fun x => dot (nth i (wl b n s x) vzero) w) - c ^ S i * dot s w) <= 3 * INR (S i) / INR N * K.
Proof.
  intros HK Hw. induction n as [|n IH]; intros i s Fs Hi; [lia|]. rewrite (first_step n s (fun q => dot (nth i q vzero) w)).
  assert (Z : dot vzero w = 0) by (unfold dot; cbn; ring).
  destruct i as [|i].
  - pose proof (one_step s w K 0 1 (fun v => dot v w) Fs HK (Rle_refl 0) Hw ltac:(rewrite Rabs_R1; lra) ltac:(intros v _; rewrite Rmult_1_l; unfold Rminus; rewrite Rplus_opp_r, Rabs_R0; lra)) as Q.
    eapply Rle_trans; [|eapply Rle_trans; [exact Q|cbn [INR]; unfold Rdiv; lra]]. right. f_equal. f_equal; [|cbn; ring].
    apply lmean_ext. intros a _. destruct (good b s a); [|cbn; exact Z]. cbn [nth]. apply gmean_const. exact l_nil.
  - pose proof (one_step s w K (3 * INR (S i) / INR N * K) (c ^ S i) (fun v => gmean z l n (fun x => dot (nth i (wl b n v x) vzero) w)) Fs HK
      ltac:(apply Rmult_le_pos; [apply e_pos|exact HK]) Hw (c_pow _) (fun v Fv => IH i v Fv ltac:(lia))) as Q.
    eapply Rle_trans; [|eapply Rle_trans; [exact Q|rewrite (S_INR (S i)); unfold Rdiv; lra]]. right. f_equal. f_equal; [|cbn; ring].
    apply lmean_ext. intros a _. destruct (good b s a); [reflexivity|]. rewrite nth_zero. exact Z.
Qed.
Lemma dot_unit u v : unit3 u -> unit3 v -> Rabs (dot u v) <= 1.
Proof.
  unfold unit3, dot. destruct u as [a d e], v as [x y w]; cbn. intros A B. apply Rabs_le. split.
  - pose proof (Rle_0_sqr (a + x)). pose proof (Rle_0_sqr (d + y)). pose proof (Rle_0_sqr (e + w)). unfold Rsqr in *. nra.
  - pose proof (Rle_0_sqr (a - x)). pose proof (Rle_0_sqr (d - y)). pose proof (Rle_0_sqr (e - w)). unfold Rsqr in *. nra.
Qed.
Lemma pair_mean : forall n i j s, fine s -> (i <= j < n)%nat ->
  Rabs (gmean z l n (fun x => dot (nth i (wl b n s x) vzero) (nth j (wl b n s x) vzero)) - c ^ (j - i)) <= 3 * INR (S j) / INR N.
Proof.
  induction n as [|n IH]; intros i j s Fs Hij; [lia|]. rewrite (first_step n s (fun q => dot (nth i q vzero) (nth j q vzero))).
  assert (Z : dot vzero vzero = 0) by (unfold dot; cbn; ring).
  assert (B : 3 * INR j / INR N + 3 / INR N <= 3 * INR (S j) / INR N) by (rewrite S_INR; unfold Rdiv; lra).
  destruct i as [|i]; [destruct j as [|j]|destruct j as [|j]; [lia|]].
  - pose proof (one_step0 s 0 1 (fun v => dot v v) Fs (Rle_refl 0) ltac:(rewrite Rabs_R1; lra) ltac:(intros v [Uv _]; unfold unit3 in Uv; rewrite Uv; unfold Rminus; rewrite Rplus_opp_r, Rabs_R0; lra)) as Q.
    eapply Rle_trans; [|eapply Rle_trans; [exact Q|cbn [INR]; unfold Rdiv; lra]]. right. f_equal. f_equal.
    apply lmean_ext. intros a _. destruct (good b s a); [|cbn; exact Z]. cbn [nth]. apply gmean_const. exact l_nil.
  - pose proof (one_step0 s (3 * INR (S j) / INR N) (c ^ S j) (fun v => gmean z l n (fun x => dot v (nth j (wl b n v x) vzero))) Fs (e_pos _) (c_pow _)) as Q.
    eapply Rle_trans; [|eapply Rle_trans; [apply Q|exact B]].
    + right. f_equal. f_equal. apply lmean_ext. intros a _. destruct (good b s a); [reflexivity|]. rewrite !nth_zero. exact Z.
    + intros v Fv. pose proof (spin_mean v 1 ltac:(lra) (fun u Uu => dot_unit u v Uu (proj1 Fv)) n j v Fv ltac:(lia)) as P.
      destruct Fv as [Uv _]. unfold unit3 in Uv. rewrite Uv, !Rmult_1_r in P. eapply Rle_trans; [|exact P]. right. f_equal. f_equal. apply gmean_ext. intros x _. apply dot_comm.
  - pose proof (one_step0 s (3 * INR (S j) / INR N) (c ^ (j - i)) (fun v => gmean z l n (fun x => dot (nth i (wl b n v x) vzero) (nth j (wl b n v x) vzero))) Fs (e_pos _) (c_pow _)) as Q.
    eapply Rle_trans; [|eapply Rle_trans; [apply Q|exact B]].
    + right. f_equal. f_equal. apply lmean_ext. intros a _. destruct (good b s a); [reflexivity|]. rewrite !nth_zero. exact Z.
    + intros v Fv. apply IH; [exact Fv|lia].
Qed.
Lemma dead_mean : forall n s, fine s -> gmean z l n (fun x => ind (dead b n s x)) <= 3 * INR n / INR N.
Proof.
  induction n as [|n IH]; intros s Fs; [cbn; unfold Rdiv; lra|]. pose proof N_pos as Np.
  apply Rle_trans with (lmean l (fun a => 3 * INR n / INR N + ind (negb (good b s a)))).
  - cbn [gmean]. apply lmean_le. intros a Ia. destruct (good b s a) eqn:G; cbn [negb ind].
    + rewrite Rplus_0_r. eapply Rle_trans; [|apply (IH (walk b s a) (walk_fine s a Fs Ia G))]. right. apply gmean_ext. intros x _. cbn [dead scons]. rewrite G. reflexivity.
    + pose proof (e_pos n). apply Rle_trans with 1; [|lra]. right. rewrite <- (gmean_const z l n 1 l_nil). apply gmean_ext. intros x _. cbn [dead scons]. rewrite G. reflexivity.
  - rewrite lmean_plus, lmean_const by exact l_nil. destruct Fs as [Us Hx]. pose proof (bad_few b N s ltac:(unfold N; lia) Hb Us Hx) as Q. fold l in Q. rewrite S_INR. unfold Rdiv in *. lra.
Qed.
End W.
