(** Means over the draws of SpinChain::new: the limits. *)
From Coq Require String.
From Coq Require Import Reals Lra Lia List ZArith Arith FunctionalExtensionality.
From Verif Require Import Num Monad NumR Spin Config Chain Fit SpecVec SpecChain SpecMC SpecFit SpecMean SpecNewMean ProofsSpin ProofsNew ProofsEnergy ProofsMean ProofsMean2 ProofsMean3 ProofsMean7
  ProofsFit ProofsFitR ProofsNewMean ProofsNewMean2 ProofsNewMean3 ProofsNewMean4.
Import ListNotations.
Local Open Scope R_scope.

(** ** Limits *)
Lemma cv_const a : Un_cv (fun _ => a) a.
Proof. intros eps He. exists 0%nat. intros. unfold R_dist, Rminus. rewrite Rplus_opp_r, Rabs_R0. exact He. Qed.
Lemma cv_ext u v a : (forall M, u M = v M) -> Un_cv u a -> Un_cv v a.
Proof. intros E H eps He. destruct (H eps He) as [M0 Q]. exists M0. intros M HM. rewrite <- E. auto. Qed.
Lemma cv_pow u a k : Un_cv u a -> Un_cv (fun M => u M ^ k) (a ^ k).
Proof. intros H. induction k as [|k IH]; cbn [pow]; [apply cv_const|]. apply (CV_mult u (fun M => u M ^ k)); assumption. Qed.
Lemma cv_near (u v : nat -> R) a A : (forall M, Rabs (u M - v M) <= A / INR (2 * S M)) -> Un_cv v a -> Un_cv u a.
Proof.
  intros H Hv eps He. assert (A0 : 0 <= A).
  { pose proof (H 0%nat) as Q. pose proof (Rabs_pos (u 0%nat - v 0%nat)). assert (0 <= A / INR (2 * 1)) as P by lra. cbn in P. unfold Rdiv in P. lra. }
  destruct (Hv (eps / 2) ltac:(lra)) as [M0 Q]. destruct (archimed_cor1 (eps / (2 * (A + 1))) ltac:(apply Rdiv_lt_0_compat; lra)) as (M1 & P & P0).
  exists (max M0 M1). intros M HM. specialize (Q M ltac:(lia)). unfold R_dist in *.
  assert (B : A / INR (2 * S M) < eps / 2).
  { assert (L : 0 < INR M1) by (apply lt_0_INR; lia).
    apply Rle_lt_trans with (A * / INR M1). { apply Rmult_le_compat_l; [exact A0|]. apply Rinv_le_contravar; [exact L|]. apply le_INR. lia. }
    apply Rle_lt_trans with ((A + 1) * / INR M1). { apply Rmult_le_compat_r; [left; apply Rinv_0_lt_compat; exact L|lra]. }
    apply Rmult_lt_reg_l with (/ (A + 1)); [apply Rinv_0_lt_compat; lra|]. rewrite <- Rmult_assoc, Rinv_l, Rmult_1_l by lra. replace (/ (A + 1) * (eps / 2)) with (eps / (2 * (A + 1))) by (field; lra). exact P. }
  replace (u M - a) with ((u M - v M) + (v M - a)) by ring. eapply Rle_lt_trans; [apply Rabs_triang|]. pose proof (H M). lra.
Qed.
Lemma cv_Rsum n (f : nat -> nat -> R) (g : nat -> R) : (forall i, (i < n)%nat -> Un_cv (f i) (g i)) -> Un_cv (fun M => Rsum n (fun i => f i M)) (Rsum n g).
Proof. intros H. induction n as [|n IH]; cbn [Rsum]; [apply cv_const|]. apply (CV_plus (fun M => Rsum n (fun i => f i M)) (f n)); [apply IH; intros i Hi; apply H; lia|apply H; lia]. Qed.
Lemma gmean_Rsum {A} (z : A) l k n (f : nat -> (nat -> A) -> R) : l <> [] -> gmean z l k (fun x => Rsum n (fun i => f i x)) = Rsum n (fun i => gmean z l k (f i)).
Proof. intros Hl. induction n as [|n IH]; cbn [Rsum]; [apply gmean_const; exact Hl|]. rewrite gmean_plus, IH. reflexivity. Qed.

Section M.
Variables (n : nat) (conf : config R) (jz hz : nat -> vec).
Hypothesis Hn : hsize conf = Z.of_nat n.
Hypothesis Hs : (hsize conf < 2 ^ 31)%Z.
Hypothesis Hf : (3 <= length (hfield conf))%nat.
Hypothesis Hh : (3 <= length (hs conf))%nat.
Hypothesis Hb : beta conf <> 0.
Let b := beta conf.
Let z := (0, 0, 0).
Let nc := new_chain n conf jz hz.
Let W (M : nat) (F : list vec -> R) := gmean z (grid3 (2 * S M)) n (fun x => F (wl b n first_dir x)).
Lemma first_fine : fine first_dir.
Proof. split; [change first_dir with v0; rewrite <- v0_dirn; apply dirn_unit|]. cbn. pose proof cos001. lra. Qed.
Lemma on_grid M x : (forall i, (i < n)%nat -> In (x i) (grid3 (2 * S M))) -> forall i, (i < n)%nat -> unit_draw (snd (fst (x i))) /\ unit_draw (snd (x i)).
Proof. intros H i Hi. destruct (grid3_unit _ _ (H i Hi)) as (_ & A & B). auto. Qed.
Lemma over_walk h M : new_mean n conf jz hz (over h) M = W M (fun l => h (nc l)).
Proof.
  unfold new_mean, W. apply gmean_ext. intros x Hx. destruct (made_walk n conf jz hz Hn Hs Hf Hh Hb x (on_grid M x Hx)) as (c & E & Er & _). rewrite E. cbn [on]. unfold over. rewrite Er. reflexivity.
Qed.
Lemma c_lim : Un_cv (fun M => lmean (grid (2 * S M)) (cz b)) (langevin b).
Proof. intros eps He. destruct (cz_mean b Hb eps He) as [N0 Q]. exists N0. intros M HM. specialize (Q (2 * M + 1)%nat ltac:(lia)). replace (2 * S M)%nat with (S (2 * M + 1)) by lia. exact Q. Qed.
Lemma W_spin i w : (i < n)%nat -> Un_cv (fun M => W M (fun l => dot (nth i l vzero) w)) (langevin b ^ S i * dot first_dir w).
Proof.
  intros Hi. set (K := Rabs (vx w) + Rabs (vy w) + Rabs (vz w)).
  assert (HK : forall v, unit3 v -> Rabs (dot v w) <= K).
  { intros v Uv. unfold unit3, dot in *. assert (A : forall y, y * y <= 1 -> Rabs y <= 1) by (intros y Hy; apply Rabs_le; split; nra).
    pose proof (A (vx v) ltac:(nra)). pose proof (A (vy v) ltac:(nra)). pose proof (A (vz v) ltac:(nra)).
    pose proof (Rabs_pos (vx w)). pose proof (Rabs_pos (vy w)). pose proof (Rabs_pos (vz w)).
    eapply Rle_trans; [apply Rabs_triang|]. rewrite (Rabs_mult (vz v)). unfold K. apply Rplus_le_compat; [|nra]. eapply Rle_trans; [apply Rabs_triang|]. rewrite !Rabs_mult. nra. }
  assert (K0 : 0 <= K) by (unfold K; pose proof (Rabs_pos (vx w)); pose proof (Rabs_pos (vy w)); pose proof (Rabs_pos (vz w)); lra).
  apply cv_near with (v := fun M => lmean (grid (2 * S M)) (cz b) ^ S i * dot first_dir w) (A := 3 * INR (S i) * K).
  - intros M. pose proof (spin_mean b (S M) Hb ltac:(lia) w K K0 HK n i first_dir first_fine Hi) as Q. eapply Rle_trans; [exact Q|]. right. unfold Rdiv. ring.
  - apply (CV_mult (fun M => lmean (grid (2 * S M)) (cz b) ^ S i) (fun _ => dot first_dir w)); [apply cv_pow, c_lim|apply cv_const].
Qed.
Lemma W_pair i j : (i <= j < n)%nat -> Un_cv (fun M => W M (fun l => dot (nth i l vzero) (nth j l vzero))) (langevin b ^ (j - i)).
Proof.
  intros Hi. apply cv_near with (v := fun M => lmean (grid (2 * S M)) (cz b) ^ (j - i)) (A := 3 * INR (S j)).
  - intros M. exact (pair_mean b (S M) Hb ltac:(lia) n i j first_dir first_fine Hi).
  - apply cv_pow, c_lim.
Qed.
Lemma new_spin i w : (i < n)%nat -> Un_cv (new_mean n conf jz hz (over (fun c => dot (S_ c i) w))) (langevin b ^ S i * dot first_dir w).
Proof. intros Hi. eapply cv_ext; [|exact (W_spin i w Hi)]. intros M. symmetry. apply (over_walk (fun c => dot (S_ c i) w)). Qed.
Lemma new_pair i j : (i <= j < n)%nat -> Un_cv (new_mean n conf jz hz (over (fun c => dot (S_ c i) (S_ c j)))) (langevin b ^ (j - i)).
Proof. intros Hi. eapply cv_ext; [|exact (W_pair i j Hi)]. intros M. symmetry. apply (over_walk (fun c => dot (S_ c i) (S_ c j))). Qed.
Lemma new_undefined M : new_mean n conf jz hz undefined M <= 3 * INR n / INR (2 * S M).
Proof.
  eapply Rle_trans; [|exact (dead_mean b (S M) Hb ltac:(lia) n first_dir first_fine)]. right. apply gmean_ext. intros x Hx.
  destruct (made_walk n conf jz hz Hn Hs Hf Hh Hb x (on_grid M x Hx)) as (c & E & _ & Eu & _). rewrite E. exact Eu.
Qed.

(** ** The energy *)
Variable s : nat.
Hypothesis Hss : ssize conf = Z.of_nat s.
Hypothesis Hsn : (s <= n)%nat.
Hypothesis H1 : (1 <= n)%nat.
Hypothesis Hd : drive_ok conf.
Hypothesis Hl : lambda conf = 1.
Hypothesis Hj : jvar conf = 0.
Let B := new_B conf hz s.
Let energy (l : list vec) := Rsum n (fun i => - dot (nth i l vzero) (nth ((i + 1) mod n) l vzero) + dot (nth i l vzero) (B i)) / INR n.
Lemma wl_length : forall k q x, length (wl b k q x) = k.
Proof. induction k as [|k IH]; intros q x; cbn [wl]; [reflexivity|]. destruct (good b q (x 0%nat)); [cbn; rewrite IH; reflexivity|apply repeat_length]. Qed.
Lemma nc_energy l : length l = n -> total_energy2 ERNum (fin (nc l)) = Ok (Some (energy l)).
Proof.
  intros L. assert (Wf : wf n s (nc l)) by (constructor; cbn; auto; [lia|rewrite map_length, seq_length; reflexivity..]).
  rewrite (total_energy2_value n s (nc l) Wf H1 Hd). do 2 f_equal. unfold energy, ring_energy. f_equal. apply Rsum_ext. intros i Hi. unfold bond.
  assert (Ej : J_ (nc l) i = mk3 1 1 1).
  { unfold J_, at_, nc, new_chain. cbn [j_couple]. rewrite (nth_indep _ vzero (new_j conf jz 0)) by (rewrite map_length, seq_length; exact Hi). rewrite map_nth, seq_nth by exact Hi. unfold new_j. rewrite Hl, Hj. apply v3_ext; cbn; ring. }
  assert (Eb : B_ (nc l) s (t (nc l)) i = B i).
  { unfold B_, B, new_B. assert (Eh : h_ (nc l) i = new_h conf hz i).
    { unfold h_, at_, nc, new_chain. cbn [static_h]. rewrite (nth_indep _ vzero (new_h conf hz 0)) by (rewrite map_length, seq_length; exact Hi). rewrite map_nth, seq_nth by exact Hi. reflexivity. }
    rewrite Eh. reflexivity. }
  rewrite Ej, Eb. unfold S_, at_. change (spins (nc l)) with l. unfold dot, vhad. cbn [vx vy vz]. ring.
Qed.
Lemma wl_short : forall k q x i, (forall j, (j < k)%nat -> unit_draw (snd (x j))) -> unit3 q -> let v := nth i (wl b k q x) vzero in v = vzero \/ unit3 v.
Proof.
  induction k as [|k IH]; intros q x i Hx Uq; cbn [wl]; [left; destruct i; reflexivity|]. destruct (good b q (x 0%nat)) eqn:G; [|left; apply nth_zero].
  assert (Uw : unit3 (walk b q (x 0%nat))).
  { apply andb_prop in G. destruct G as [G1 _]. apply Bool.negb_true_iff in G1. apply walk_unit; auto. pose proof (Hx 0%nat ltac:(lia)) as Q. unfold unit_draw in Q. lra. }
  destruct i as [|i]; [right; exact Uw|]. cbn [nth]. apply IH; [intros j Hj'; apply Hx; lia|exact Uw].
Qed.
Lemma energy_bounded : exists A, 0 <= A /\ forall M x, (forall i, (i < n)%nat -> In (x i) (grid3 (2 * S M))) -> Rabs (energy (wl b n first_dir x)) <= A.
Proof.
  set (K := fun i => Rabs (vx (B i)) + Rabs (vy (B i)) + Rabs (vz (B i))). exists (Rsum n (fun i => 1 + K i) / INR n).
  assert (n0 : 0 < INR n) by (apply lt_0_INR; lia).
  assert (K0 : forall i, 0 <= K i) by (intros i; unfold K; pose proof (Rabs_pos (vx (B i))); pose proof (Rabs_pos (vy (B i))); pose proof (Rabs_pos (vz (B i))); lra).
  split. { apply Rmult_le_pos; [|left; apply Rinv_0_lt_compat; exact n0]. clear - K0. induction n as [|k IH]; cbn [Rsum]; [lra|]. pose proof (K0 k). lra. }
  intros M x Hx. unfold energy. unfold Rdiv. rewrite Rabs_mult, (Rabs_pos_eq (/ INR n)) by (left; apply Rinv_0_lt_compat; exact n0).
  apply Rmult_le_compat_r; [left; apply Rinv_0_lt_compat; exact n0|].
  assert (P : forall m f g, (forall i, Rabs (f i) <= g i) -> Rabs (Rsum m f) <= Rsum m g). { intros m f g Q. induction m as [|m IH]; cbn [Rsum]; [rewrite Rabs_R0; lra|]. eapply Rle_trans; [apply Rabs_triang|]. pose proof (Q m). lra. }
  apply P. intros i. assert (Sh : forall j, let v := nth j (wl b n first_dir x) vzero in v = vzero \/ unit3 v) by (intros j; apply wl_short; [intros k Hk; exact (proj2 (on_grid M x Hx k Hk))|exact (proj1 first_fine)]).
  eapply Rle_trans; [apply Rabs_triang|]. rewrite Rabs_Ropp.
  assert (Z : forall v, dot vzero v = 0) by (intros v; unfold dot; cbn; ring). assert (Z' : forall v, dot v vzero = 0) by (intros v; unfold dot; cbn; ring).
  apply Rplus_le_compat.
  - destruct (Sh i) as [E|U]; [rewrite E, Z, Rabs_R0; lra|]. destruct (Sh ((i + 1) mod n)) as [E|U']; [rewrite E, Z', Rabs_R0; lra|]. apply dot_unit; assumption.
  - destruct (Sh i) as [E|U]; [rewrite E, Z, Rabs_R0; apply K0|]. set (v := nth i (wl b n first_dir x) vzero) in *. unfold unit3, dot in *.
    assert (A : forall y, y * y <= 1 -> Rabs y <= 1) by (intros y Hy; apply Rabs_le; split; nra).
    pose proof (A (vx v) ltac:(nra)). pose proof (A (vy v) ltac:(nra)). pose proof (A (vz v) ltac:(nra)).
    pose proof (Rabs_pos (vx (B i))). pose proof (Rabs_pos (vy (B i))). pose proof (Rabs_pos (vz (B i))).
    eapply Rle_trans; [apply Rabs_triang|]. rewrite (Rabs_mult (vz v)). unfold K. apply Rplus_le_compat; [|nra]. eapply Rle_trans; [apply Rabs_triang|]. rewrite !Rabs_mult. nra.
Qed.
Lemma W_energy : Un_cv (fun M => W M energy) ((- ((INR n - 1) * langevin b + langevin b ^ (n - 1)) + Rsum n (fun i => langevin b ^ S i * dot first_dir (B i))) / INR n).
Proof.
  set (g := fun i => - (if (i =? n - 1)%nat then langevin b ^ (n - 1) else langevin b) + langevin b ^ S i * dot first_dir (B i)).
  assert (Eg : - ((INR n - 1) * langevin b + langevin b ^ (n - 1)) + Rsum n (fun i => langevin b ^ S i * dot first_dir (B i)) = Rsum n g).
  { unfold g. rewrite Rsum_plus, Rsum_opp. f_equal. f_equal. destruct n as [|p]; [lia|]. cbn [Rsum]. replace (S p - 1)%nat with p by lia. rewrite Nat.eqb_refl.
    rewrite (Rsum_ext p _ (fun _ => langevin b)). 2: { intros i Hi. replace (i =? p)%nat with false by (symmetry; apply Nat.eqb_neq; lia). reflexivity. }
    f_equal. rewrite S_INR. clear. induction p as [|p IH]; cbn [Rsum]; [cbn; ring|]. rewrite <- IH, S_INR. ring. }
  rewrite Eg. unfold Rdiv.
  apply (cv_ext (fun M => Rsum n (fun i => W M (fun l => - dot (nth i l vzero) (nth ((i + 1) mod n) l vzero) + dot (nth i l vzero) (B i))) * / INR n)).
  { intros M. unfold W, energy. assert (Ll : grid3 (2 * S M) <> []) by (apply l_nil; lia). rewrite <- (gmean_Rsum z (grid3 (2 * S M)) n n (fun i x => - dot (nth i (wl b n first_dir x) vzero) (nth ((i + 1) mod n) (wl b n first_dir x) vzero) + dot (nth i (wl b n first_dir x) vzero) (B i)) Ll).
    rewrite Rmult_comm, <- gmean_scale. apply gmean_ext. intros x _. unfold Rdiv. ring. }
  apply (CV_mult (fun M => Rsum n (fun i => W M (fun l => - dot (nth i l vzero) (nth ((i + 1) mod n) l vzero) + dot (nth i l vzero) (B i)))) (fun _ => / INR n)); [|apply cv_const].
  apply (cv_Rsum n (fun i M => W M (fun l => - dot (nth i l vzero) (nth ((i + 1) mod n) l vzero) + dot (nth i l vzero) (B i)))). intros i Hi. unfold g.
  apply (cv_ext (fun M => - W M (fun l => dot (nth i l vzero) (nth ((i + 1) mod n) l vzero)) + W M (fun l => dot (nth i l vzero) (B i)))).
  { intros M. unfold W. rewrite gmean_plus. f_equal. rewrite <- (Rmult_1_l (gmean _ _ _ _)), Ropp_mult_distr_l, <- gmean_scale. apply gmean_ext. intros x _. ring. }
  apply (CV_plus (fun M => - W M (fun l => dot (nth i l vzero) (nth ((i + 1) mod n) l vzero))) (fun M => W M (fun l => dot (nth i l vzero) (B i)))); [|apply W_spin; exact Hi].
  apply (CV_opp (fun M => W M (fun l => dot (nth i l vzero) (nth ((i + 1) mod n) l vzero)))).
  destruct (Nat.eqb_spec i (n - 1)) as [E|E].
  - assert (Em : ((i + 1) mod n)%nat = 0%nat) by (replace (i + 1)%nat with n by lia; apply Nat.mod_same; lia). rewrite Em, E.
    eapply cv_ext; [|pose proof (W_pair 0 (n - 1) ltac:(lia)) as Q; rewrite Nat.sub_0_r in Q; exact Q]. intros M. unfold W. apply gmean_ext. intros x _. apply dot_comm.
  - rewrite Nat.mod_small by lia. pose proof (W_pair i (i + 1) ltac:(lia)) as Q. replace (i + 1 - i)%nat with 1%nat in Q by lia. rewrite pow_1 in Q. exact Q.
Qed.
Lemma new_energy : Un_cv (new_mean n conf jz hz measured)
  ((- ((INR n - 1) * langevin b + langevin b ^ (n - 1)) + Rsum n (fun i => langevin b ^ S i * dot first_dir (B i))) / INR n).
Proof.
  destruct energy_bounded as (A & A0 & HA). apply cv_near with (v := fun M => W M energy) (A := A * (3 * INR n)); [|exact W_energy].
  intros M. assert (Ll : grid3 (2 * S M) <> []) by (apply l_nil; lia).
  unfold new_mean, W. replace (gmean (0, 0, 0) (grid3 (2 * S M)) n (fun u => on measured (made conf jz hz u)) - gmean z (grid3 (2 * S M)) n (fun x => energy (wl b n first_dir x)))
    with (gmean z (grid3 (2 * S M)) n (fun x => on measured (made conf jz hz x) + -1 * energy (wl b n first_dir x))) by (rewrite gmean_plus, (gmean_scale z (grid3 (2 * S M)) n (-1)); unfold z; ring).
  eapply Rle_trans; [apply gmean_abs|]. apply Rle_trans with (gmean z (grid3 (2 * S M)) n (fun x => A * ind (dead b n first_dir x))).
  - apply gmean_le. intros x Hx. destruct (made_walk n conf jz hz Hn Hs Hf Hh Hb x (on_grid M x Hx)) as (c & E & _ & Eu & Ed). rewrite E. cbn [on]. unfold measured. unfold undefined in Eu. fold b in Eu, Ed.
    destruct (dead b n first_dir x) eqn:D; cbn [ind] in Eu |- *.
    + destruct (existsb undefined_spin (spins c)); [|lra]. rewrite Rplus_0_l, Rabs_mult, Rmult_1_r. replace (Rabs (-1)) with 1 by (rewrite Rabs_left; lra). rewrite Rmult_1_l. exact (HA M x Hx).
    + destruct (existsb undefined_spin (spins c)); [lra|]. rewrite (Ed eq_refl). pose proof (nc_energy (wl b n first_dir x) (wl_length n first_dir x)) as Q. fold nc. rewrite Q.
      replace (energy (wl b n first_dir x) + -1 * energy (wl b n first_dir x)) with 0 by ring. rewrite Rabs_R0. lra.
  - rewrite gmean_scale. unfold Rdiv. rewrite Rmult_assoc. apply Rmult_le_compat_l; [exact A0|]. exact (dead_mean b (S M) Hb ltac:(lia) n first_dir first_fine).
Qed.
End M.

Lemma langevin_unit b : b <> 0 -> Rabs (langevin b) <= 1.
Proof.
  intros Hb. destruct (Rle_dec (Rabs (langevin b)) 1) as [L|L]; [exact L|exfalso]. pose proof (cz_mean b Hb) as Q.
  destruct (Q (Rabs (langevin b) - 1) ltac:(lra)) as [N0 P]. specialize (P N0 ltac:(lia)). unfold R_dist in P.
  assert (A : Rabs (lmean (grid (S N0)) (cz b)) <= 1).
  { eapply Rle_trans; [apply lmean_abs|]. rewrite <- (lmean_const (grid (S N0)) 1) by (apply grid_not_nil; lia). apply lmean_le. intros u Iu. apply grid_unit in Iu. apply Rabs_le. apply cz_range; [exact Hb|lra]. }
  pose proof (Rabs_triang_inv (langevin b) (lmean (grid (S N0)) (cz b))) as T. rewrite Rabs_minus_sym in P. lra.
Qed.
Lemma pow_unit x k : Rabs x <= 1 -> Rabs (x ^ k) <= 1.
Proof. intros H. rewrite <- RPow_abs. pose proof (Rabs_pos x). induction k as [|k IH]; cbn; [lra|]. apply Rle_trans with (1 * 1); [|lra]. apply Rmult_le_compat; auto. apply pow_le. exact H0. Qed.
Lemma exp2_big : 69 / 10 <= exp 2.
Proof.
  assert (A : (17 / 16) ^ 32 <= exp (1 / 16) ^ 32). { apply pow_incr. split; [lra|]. pose proof (exp_ineq1 (1 / 16) ltac:(lra)). lra. }
  assert (B : forall k, exp (1 / 16) ^ k = exp (INR k * (1 / 16))). { induction k as [|k IH]; cbn [pow]; [cbn [INR]; rewrite Rmult_0_l, exp_0; reflexivity|]. rewrite IH, <- exp_plus. f_equal. rewrite S_INR. ring. }
  rewrite B in A. replace (INR 32 * (1 / 16)) with 2 in A by (cbn; lra). eapply Rle_trans; [|exact A]. cbn [pow]. lra.
Qed.
Lemma coth_small x : 1 <= x -> 0 < / tanh x <= 134 / 100.
Proof.
  intros Hx. assert (E : exp 2 <= exp (2 * x)). { destruct (Req_dec x 1) as [->|N]; [replace (2 * 1) with 2 by ring; lra|]. left. apply exp_increasing. lra. }
  pose proof exp2_big as B. assert (Ex : exp (2 * x) = exp x * exp x) by (rewrite <- exp_plus; f_equal; ring). assert (Ei : exp x * exp (- x) = 1) by (rewrite <- exp_plus, Rplus_opp_r; apply exp_0).
  pose proof (exp_pos x) as P. pose proof (exp_pos (- x)) as P'. assert (K : exp (- x) < exp x) by (apply exp_increasing; lra).
  replace (/ tanh x) with ((exp x + exp (- x)) / (exp x - exp (- x))) by (unfold tanh, sinh, cosh; field; repeat split; lra).
  split; [apply Rdiv_lt_0_compat; lra|]. apply Rmult_le_reg_r with (exp x - exp (- x)); [lra|]. unfold Rdiv. rewrite Rmult_assoc, Rinv_l, Rmult_1_r by lra.
  apply Rmult_le_reg_l with (exp x); [exact P|]. nra.
Qed.
Lemma solve_above e : -1 < e <= - (34 / 100) -> forall fuel x y r, 1 <= x -> solve_beta_loop ERNum fuel (Some e) (Some x) (Some y) = Ok (Some r) -> 1 <= r.
Proof.
  intros He. induction fuel as [|fuel IH]; intros x y r Hx E; [discriminate|]. cbn [solve_beta_loop] in E.
  destruct (nltb ERNum _ _); [|injection E as <-; exact Hx].
  pose proof (coth_small x Hx) as C. assert (T : tanh x <> 0). { intros Z. rewrite Z in C. unfold Rdiv in C. rewrite Rinv_0 in C. lra. }
  assert (C1 : 1 < / tanh x).
  { pose proof (exp_pos (- x)). assert (K : exp (- x) < exp x) by (apply exp_increasing; lra).
    replace (/ tanh x) with ((exp x + exp (- x)) / (exp x - exp (- x))) by (unfold tanh, sinh, cosh; field; repeat split; lra).
    apply Rmult_lt_reg_r with (exp x - exp (- x)); [lra|]. unfold Rdiv. rewrite Rmult_assoc, Rinv_l by lra. lra. }
  assert (E1 : ndiv ERNum (nofZ ERNum 1) (nadd ERNum (Some e) (ndiv ERNum (nofZ ERNum 1) (ntanh ERNum (Some x)))) = Some (1 / (e + 1 / tanh x))).
  { change (ndiv ERNum) with er_div. change (nofZ ERNum 1) with (Some 1). change (ntanh ERNum (Some x)) with (Some (tanh x)). rewrite er_div_ok by exact T.
    change (nadd ERNum (Some e) (Some (1 / tanh x))) with (Some (e + 1 / tanh x)). apply er_div_ok. unfold Rdiv. lra. }
  match type of E with solve_beta_loop ERNum fuel _ ?a _ = _ => replace a with (Some (1 / (e + 1 / tanh x))) in E by (symmetry; exact E1) end.
  refine (IH _ _ _ _ E). unfold Rdiv. rewrite !Rmult_1_l. apply Rmult_le_reg_r with (e + / tanh x); [lra|]. rewrite Rinv_l by lra. lra.
Qed.
Lemma new_target n s conf jz hz e fuel : hsize conf = Z.of_nat n -> (hsize conf < 2 ^ 31)%Z -> (3 <= length (hfield conf))%nat -> (3 <= length (hs conf))%nat ->
  ssize conf = Z.of_nat s -> (s <= n)%nat -> (1 <= n)%nat -> drive_ok conf -> lambda conf = 1 -> jvar conf = 0 ->
  (forall i, (i < n)%nat -> new_B conf hz s i = vzero) ->
  -1 < e <= - (34 / 100) -> solve_beta ERNum fuel (Some e) = Ok (Some (beta conf)) ->
  exists v, Un_cv (new_mean n conf jz hz measured) v /\ Rabs (v - e) <= 2 / 100 + 2 / INR n.
Proof.
  intros Hn Hs Hf Hh Hss Hsn H1 Hd Hl Hj HB He Hfit. assert (Hb1 : 1 <= beta conf) by (apply (solve_above e He fuel 20 10); [lra|exact Hfit]). assert (Hb : beta conf <> 0) by lra.
  eexists. split; [exact (new_energy n conf jz hz Hn Hs Hf Hh Hb s Hss Hsn H1 Hd Hl Hj)|].
  rewrite (Rsum_ext n _ (fun _ => 0)) by (intros i Hi; rewrite HB by exact Hi; unfold dot; cbn; ring). rewrite Rsum_0.
  pose proof (solve_beta_close e (beta conf) fuel (proj1 He) Hfit Hb1) as Q.
  assert (Et : / beta conf - / tanh (beta conf) = - langevin (beta conf)).
  { unfold langevin, tanh, sinh, cosh. pose proof (span (beta conf) Hb). pose proof (exp_pos (beta conf)). pose proof (exp_pos (- beta conf)). field. repeat split; lra. }
  rewrite Et in Q. pose proof (langevin_unit _ Hb) as LU. pose proof (pow_unit _ (n - 1) LU) as LP. set (L := langevin (beta conf)) in *. set (P := L ^ (n - 1)) in *.
  assert (n0 : 0 < INR n) by (apply lt_0_INR; lia).
  replace ((- ((INR n - 1) * L + P) + 0) / INR n - e) with ((- L - e) + (L - P) * / INR n) by (field; lra).
  eapply Rle_trans; [apply Rabs_triang|]. apply Rplus_le_compat; [exact Q|]. rewrite Rabs_mult, (Rabs_pos_eq (/ INR n)) by (left; apply Rinv_0_lt_compat; exact n0).
  apply Rmult_le_compat_r; [left; apply Rinv_0_lt_compat; exact n0|]. unfold Rminus. eapply Rle_trans; [apply Rabs_triang|]. rewrite Rabs_Ropp. lra.
Qed.
(** Isotropic couplings without disorder, with and without fields *)
Definition iso_conf (b : R) (f g : list R) : config R :=
  mkConfig 4 2 256 (2/100) 2 0 2 10 1 f g 0 0 2 (-66/100) Coq.Strings.String.EmptyString false 0 b 1000 (9/10) Dnone true.
