(** Convergence of grid means. *)
From Coq Require Import Reals Lra Lia List ZArith Arith FunctionalExtensionality.
From Verif Require Import Num Monad NumR Spin Config Chain SpecVec SpecChain SpecMC SpecSampling SpecMean
  ProofsSpin ProofsChain ProofsMC ProofsMCR ProofsMCR2 ProofsMCR3 ProofsMCR4 ProofsSampling ProofsMean.
Import ListNotations.
Local Open Scope R_scope.

(** ** Refining the grid *)
Lemma lmean_app {A} (l m : list A) f : lmean (l ++ m) f * INR (length (l ++ m)) = lmean l f * INR (length l) + lmean m f * INR (length m).
Proof.
  assert (K : forall k : list A, lmean k f * INR (length k) = fold_right (fun a s => f a + s) 0 k).
  { intros k. unfold lmean. destruct k as [|a k]; [cbn; ring|]. field. apply not_0_INR. discriminate. }
  rewrite !K. induction l as [|a l IH]; cbn [app fold_right]; [ring|]. rewrite IH. ring.
Qed.
Lemma lmean_blocks {A B} (l : list A) (h : A -> list B) M f : (1 <= M)%nat -> (forall a, length (h a) = M) ->
  lmean (flat_map h l) f = lmean l (fun a => lmean (h a) f).
Proof.
  intros HM Hl. assert (Mp : 0 < INR M) by (apply lt_0_INR; lia).
  assert (E : fold_right (fun b s => f b + s) 0 (flat_map h l) = INR M * fold_right (fun a s => lmean (h a) f + s) 0 l /\ length (flat_map h l) = (length l * M)%nat).
  { induction l as [|a l [IH IL]]; [split; [cbn; ring|reflexivity]|]. cbn [flat_map fold_right length]. rewrite app_length, Hl, IL. split; [|reflexivity].
    rewrite Rmult_plus_distr_l, <- IH. unfold lmean at 1. rewrite Hl. replace (INR M * (fold_right (fun a0 s => f a0 + s) 0 (h a) / INR M)) with (fold_right (fun a0 s => f a0 + s) 0 (h a)) by (field; lra).
    generalize (h a) as k. induction k as [|b k IK]; cbn [app fold_right]; [ring|]. rewrite IK. ring. }
  destruct E as [E1 E2]. unfold lmean at 1. rewrite E1, E2, mult_INR. unfold lmean at 2. destruct l as [|a l]; [cbn; unfold Rdiv; ring|].
  assert (INR (length (a :: l)) <> 0) by (apply not_0_INR; discriminate). field. split; [assumption|lra].
Qed.
Lemma lmean_map {A B} (h : A -> B) l f : lmean (map h l) f = lmean l (fun a => f (h a)).
Proof. unfold lmean. rewrite map_length. f_equal. induction l as [|a l IH]; cbn [map fold_right]; [reflexivity|]. rewrite IH. reflexivity. Qed.
Lemma lmean_prod {A B} (l : list A) (m : list B) f : m <> [] -> lmean (list_prod l m) f = lmean l (fun a => lmean m (fun b => f (a, b))).
Proof.
  intros Hm. assert (E : list_prod l m = flat_map (fun a => map (fun b => (a, b)) m) l) by (induction l as [|a l IH]; [reflexivity|cbn [list_prod flat_map]; rewrite IH; reflexivity]).
  rewrite E, (lmean_blocks l _ (length m)).
  - apply lmean_ext. intros a _. apply lmean_map.
  - destruct m; [contradiction|cbn; lia].
  - intros a. apply map_length.
Qed.
Lemma seq_blocks M : forall N, seq 0 (N * M) = flat_map (fun k => map (fun j => (k * M + j)%nat) (seq 0 M)) (seq 0 N).
Proof.
  induction N as [|N IH]; [reflexivity|]. rewrite seq_S, flat_map_app. cbn [flat_map plus]. rewrite app_nil_r, <- IH. replace (S N * M)%nat with (N * M + M)%nat by lia. rewrite seq_app. f_equal.
  cbn [plus]. clear IH. generalize (N * M)%nat as p. intros p. rewrite <- (Nat.add_0_r p) at 1. generalize 0%nat. revert p. induction M as [|M IH]; intros p q; [reflexivity|]. cbn [seq map]. f_equal. rewrite <- Nat.add_succ_r. apply IH.
Qed.

(** [cp] splits [l'] into blocks around the members of [l] *)
Section Couple.
Context {A : Type} (z : A) (ok : A -> Prop) (near : A -> A -> Prop).
Hypothesis okz : ok z.
Hypothesis nearz : near z z.
Lemma gmean_couple (l' l : list A) (cp : list (A * list A)) eps :
  l = map fst cp -> (forall h, lmean l' h = lmean cp (fun p => lmean (snd p) h)) -> cp <> [] ->
  (forall p, In p cp -> ok (fst p) /\ snd p <> [] /\ forall b, In b (snd p) -> ok b /\ near b (fst p)) ->
  forall n (F' F : (nat -> A) -> R),
  (forall x y, (forall i, ok (x i)) -> (forall i, ok (y i)) -> (forall i, near (x i) (y i)) -> Rabs (F' x - F y) <= eps) ->
  Rabs (gmean z l' n F' - gmean z l n F) <= eps.
Proof.
  intros El Hc Hn Hp. induction n as [|n IH]; intros F' F HF; cbn [gmean]; [apply HF; auto|].
  rewrite Hc, El, lmean_map. rewrite <- El.
  replace (lmean cp (fun p => lmean (snd p) (fun a => gmean z l' n (fun x => F' (scons a x)))) - lmean cp (fun a => gmean z l n (fun x => F (scons (fst a) x))))
    with (lmean cp (fun p => lmean (snd p) (fun b => gmean z l' n (fun x => F' (scons b x)) - gmean z l n (fun x => F (scons (fst p) x))))).
  - eapply Rle_trans; [apply lmean_abs|]. rewrite <- (lmean_const cp eps Hn). apply lmean_le. intros p Ip. destruct (Hp p Ip) as (O1 & N1 & O2).
    eapply Rle_trans; [apply lmean_abs|]. rewrite <- (lmean_const (snd p) eps N1). apply lmean_le. intros b Ib. destruct (O2 b Ib) as [O3 N3].
    apply IH. intros x y Hx Hy Hxy. apply HF; intros [|i]; cbn [scons]; auto.
  - unfold Rminus at 2. replace (- lmean cp (fun a => gmean z l n (fun x => F (scons (fst a) x)))) with (-1 * lmean cp (fun a => gmean z l n (fun x => F (scons (fst a) x)))) by ring.
    rewrite <- lmean_scale, <- lmean_plus. apply lmean_ext. intros p Ip. destruct (Hp p Ip) as (_ & N1 & _). unfold Rminus. rewrite lmean_plus. f_equal. rewrite lmean_const by exact N1. ring.
Qed.
End Couple.

Definition cp1 (N M : nat) : list (R * list R) :=
  map (fun k => ((INR k + 1 / 2) / INR N, map (fun j => (INR (k * M + j) + 1 / 2) / INR (N * M)) (seq 0 M))) (seq 0 N).
Lemma cp1_fst N M : map fst (cp1 N M) = grid N.
Proof. unfold cp1, grid. rewrite map_map. reflexivity. Qed.
Lemma cp1_mean N M h : (1 <= M)%nat -> lmean (grid (N * M)) h = lmean (cp1 N M) (fun p => lmean (snd p) h).
Proof.
  intros HM. unfold cp1. rewrite lmean_map. cbn [snd]. unfold grid. rewrite lmean_map, seq_blocks, (lmean_blocks _ _ M) by (auto; intros; rewrite map_length, seq_length; reflexivity).
  apply lmean_ext. intros k _. rewrite !lmean_map. reflexivity.
Qed.
Lemma cp1_near N M p : (1 <= M)%nat -> In p (cp1 N M) -> 0 <= fst p <= 1 /\ snd p <> [] /\ forall b, In b (snd p) -> 0 <= b <= 1 /\ Rabs (b - fst p) <= 1 / INR N.
Proof.
  intros HM Ip. assert (F : In (fst p) (grid N)) by (rewrite <- (cp1_fst N M); apply in_map, Ip). apply grid_unit in F. split; [lra|].
  unfold cp1 in Ip. apply in_map_iff in Ip. destruct Ip as (k & <- & Hk). apply in_seq in Hk. cbn [fst snd] in *. split; [destruct M; [lia|discriminate]|].
  intros b Hb. apply in_map_iff in Hb. destruct Hb as (j & <- & Hj). apply in_seq in Hj.
  assert (G : In ((INR (k * M + j) + 1 / 2) / INR (N * M)) (grid (N * M))) by (unfold grid; apply in_map_iff; exists (k * M + j)%nat; split; [reflexivity|apply in_seq; nia]).
  apply grid_unit in G. split; [lra|].
  assert (Np : 1 <= INR N) by (change 1 with (INR 1); apply le_INR; lia). assert (Mp : 1 <= INR M) by (change 1 with (INR 1); apply le_INR; lia).
  assert (J : INR j + 1 <= INR M) by (rewrite <- S_INR; apply le_INR; lia). pose proof (pos_INR j) as J0.
  rewrite plus_INR, !mult_INR. replace ((INR k * INR M + INR j + 1 / 2) / (INR N * INR M) - (INR k + 1 / 2) / INR N) with (((INR j + 1 / 2) / INR M - 1 / 2) * / INR N) by (field; lra).
  rewrite Rabs_mult, (Rabs_pos_eq (/ INR N)) by (left; apply Rinv_0_lt_compat; lra). unfold Rdiv at 2. apply Rmult_le_compat_r; [left; apply Rinv_0_lt_compat; lra|].
  assert (0 <= (INR j + 1 / 2) / INR M <= 1); [|apply Rabs_le; lra]. split; [left; apply Rdiv_lt_0_compat; lra|].
  apply Rmult_le_reg_r with (INR M); [lra|]. unfold Rdiv. rewrite Rmult_assoc, Rinv_l by lra. lra.
Qed.
Definition cp2 (N M : nat) : list ((R * R) * list (R * R)) :=
  map (fun q => ((fst (fst q), fst (snd q)), list_prod (snd (fst q)) (snd (snd q)))) (list_prod (cp1 N M) (cp1 N M)).
Lemma cp1_nil N M : (1 <= N)%nat -> cp1 N M <> [].
Proof. intros H E. pose proof (cp1_fst N M) as F. rewrite E in F. apply (grid_not_nil N H). rewrite <- F. reflexivity. Qed.
Lemma map_prod {A B C D} (f : A -> C) (g : B -> D) l : forall m, map (fun q => (f (fst q), g (snd q))) (list_prod l m) = list_prod (map f l) (map g m).
Proof. induction l as [|a l IH]; intros m; [reflexivity|]. cbn [list_prod map]. rewrite map_app, IH, !map_map. reflexivity. Qed.
Lemma cp2_fst N M : map fst (cp2 N M) = grid2 N.
Proof. unfold cp2, grid2. rewrite map_map. cbn [fst]. rewrite (map_prod fst fst). rewrite cp1_fst. reflexivity. Qed.
Lemma cp2_mean N M h : (1 <= N)%nat -> (1 <= M)%nat -> lmean (grid2 (N * M)) h = lmean (cp2 N M) (fun p => lmean (snd p) h).
Proof.
  intros HN HM. unfold cp2. rewrite lmean_map. cbn [snd]. rewrite lmean_prod by (apply cp1_nil, HN). unfold grid2. rewrite lmean_prod by (apply grid_not_nil; nia).
  rewrite cp1_mean by exact HM. apply lmean_ext. intros p Ip. cbn [fst snd]. destruct (cp1_near N M p HM Ip) as (_ & Np & _).
  etransitivity; [apply lmean_ext; intros a _; apply (cp1_mean N M (fun b => h (a, b)) HM)|]. rewrite lmean_swap. apply lmean_ext. intros q Iq. destruct (cp1_near N M q HM Iq) as (_ & Nq & _). rewrite lmean_prod by exact Nq. reflexivity.
Qed.

(** A regular function has a mean *)
Lemma refine n F d eps N M : (1 <= N)%nat -> (1 <= M)%nat -> 1 / INR N <= d ->
  (forall x y, in_cube x -> in_cube y -> within d x y -> Rabs (F x - F y) <= eps) ->
  Rabs (gmean (0, 0) (grid2 (N * M)) n F - gmean (0, 0) (grid2 N) n F) <= eps.
Proof.
  intros HN HM Hd HF. assert (Np : 1 <= INR N) by (change 1 with (INR 1); apply le_INR; lia). assert (0 < d) by (assert (0 < 1 / INR N) by (apply Rdiv_lt_0_compat; lra); lra).
  apply (gmean_couple (0, 0) (fun a => 0 <= fst a <= 1 /\ 0 <= snd a <= 1) (fun a b => Rabs (fst a - fst b) <= d /\ Rabs (snd a - snd b) <= d)) with (cp := cp2 N M).
  - cbn; lra.
  - cbn [fst snd]. rewrite Rminus_diag_eq, Rabs_R0 by reflexivity. lra.
  - symmetry. apply cp2_fst.
  - intros h. apply cp2_mean; assumption.
  - intros E. pose proof (cp2_fst N M) as Q. rewrite E in Q. apply (grid2_not_nil N HN). rewrite <- Q. reflexivity.
  - intros p Ip. unfold cp2 in Ip. apply in_map_iff in Ip. destruct Ip as ([p1 p2] & <- & I2). apply in_prod_iff in I2. destruct I2 as [I1 I2]. cbn [fst snd].
    destruct (cp1_near N M p1 HM I1) as (A1 & B1 & C1). destruct (cp1_near N M p2 HM I2) as (A2 & B2 & C2). split; [lra|]. split.
    + destruct (snd p1); [contradiction|]. destruct (snd p2); [contradiction|]. discriminate.
    + intros [b1 b2] Ib. apply in_prod_iff in Ib. destruct Ib as [J1 J2]. destruct (C1 b1 J1) as [D1 E1]. destruct (C2 b2 J2) as [D2 E2]. cbn [fst snd]. split; [tauto|]. lra.
  - intros x y Hx Hy Hxy. apply HF; assumption.
Qed.
Lemma regular_mean n F : regular F -> exists v, Un_cv (fun N => gmean (0, 0) (grid2 (S N)) n F) v.
Proof.
  intros [_ HF]. destruct (R_complete (fun N => gmean (0, 0) (grid2 (S N)) n F)) as [v Hv]; [|exists v; exact Hv].
  intros eps He. destruct (HF (eps / 4) ltac:(lra)) as (d & Hd & K). destruct (archimed_cor1 d Hd) as (N0 & HN0 & HN1).
  exists N0. intros p q Hp Hq. unfold R_dist.
  assert (S1 : forall N, (N >= N0)%nat -> 1 / INR (S N) <= d).
  { intros N HN. unfold Rdiv. rewrite Rmult_1_l. left. eapply Rle_lt_trans; [|exact HN0]. apply Rinv_le_contravar; [apply lt_0_INR; lia|apply le_INR; lia]. }
  pose proof (refine n F d (eps / 4) (S p) (S q) ltac:(lia) ltac:(lia) (S1 p Hp) K) as A. pose proof (refine n F d (eps / 4) (S q) (S p) ltac:(lia) ltac:(lia) (S1 q Hq) K) as B.
  rewrite (Nat.mul_comm (S q)) in B. set (X := gmean _ (grid2 (S p * S q)) n F) in *. set (Y := gmean _ (grid2 (S p)) n F) in *. set (V := gmean _ (grid2 (S q)) n F) in *.
  replace (Y - V) with ((X - V) - (X - Y)) by ring. unfold Rminus at 1. eapply Rle_lt_trans; [apply Rabs_triang|]. rewrite Rabs_Ropp. lra.
Qed.

(** ** Regular functions *)
Lemma reg_const k : regular (fun _ => k).
Proof. split; [exists (Rabs k); intros; lra|]. intros eps He. exists 1. split; [lra|]. intros. rewrite Rminus_diag_eq, Rabs_R0 by reflexivity. lra. Qed.
Lemma reg_plus F G : regular F -> regular G -> regular (fun x => F x + G x).
Proof.
  intros [[B1 H1] K1] [[B2 H2] K2]. split.
  - exists (B1 + B2). intros x Hx. eapply Rle_trans; [apply Rabs_triang|]. pose proof (H1 x Hx). pose proof (H2 x Hx). lra.
  - intros eps He. destruct (K1 (eps / 2) ltac:(lra)) as (d1 & D1 & L1). destruct (K2 (eps / 2) ltac:(lra)) as (d2 & D2 & L2).
    exists (Rmin d1 d2). split; [apply Rmin_glb_lt; assumption|]. intros x y Hx Hy Hw.
    assert (W1 : within d1 x y) by (intros i; destruct (Hw i); pose proof (Rmin_l d1 d2); lra). assert (W2 : within d2 x y) by (intros i; destruct (Hw i); pose proof (Rmin_r d1 d2); lra).
    replace (F x + G x - (F y + G y)) with ((F x - F y) + (G x - G y)) by ring. eapply Rle_trans; [apply Rabs_triang|]. pose proof (L1 x y Hx Hy W1). pose proof (L2 x y Hx Hy W2). lra.
Qed.
Lemma reg_mult F G : regular F -> regular G -> regular (fun x => F x * G x).
Proof.
  intros [[B1 H1] K1] [[B2 H2] K2].
  set (b1 := Rabs B1 + 1). set (b2 := Rabs B2 + 1). assert (P1 : 0 < b1) by (unfold b1; pose proof (Rabs_pos B1); lra). assert (P2 : 0 < b2) by (unfold b2; pose proof (Rabs_pos B2); lra).
  assert (H1' : forall x, in_cube x -> Rabs (F x) <= b1) by (intros x Hx; pose proof (H1 x Hx); pose proof (Rle_abs B1); unfold b1; lra).
  assert (H2' : forall x, in_cube x -> Rabs (G x) <= b2) by (intros x Hx; pose proof (H2 x Hx); pose proof (Rle_abs B2); unfold b2; lra).
  split.
  - exists (b1 * b2). intros x Hx. rewrite Rabs_mult. apply Rmult_le_compat; auto using Rabs_pos.
  - intros eps He. destruct (K1 (eps / (2 * b2))) as (d1 & D1 & L1); [apply Rdiv_lt_0_compat; lra|]. destruct (K2 (eps / (2 * b1))) as (d2 & D2 & L2); [apply Rdiv_lt_0_compat; lra|].
    exists (Rmin d1 d2). split; [apply Rmin_glb_lt; assumption|]. intros x y Hx Hy Hw.
    assert (W1 : within d1 x y) by (intros i; destruct (Hw i); pose proof (Rmin_l d1 d2); lra). assert (W2 : within d2 x y) by (intros i; destruct (Hw i); pose proof (Rmin_r d1 d2); lra).
    replace (F x * G x - F y * G y) with ((F x - F y) * G x + F y * (G x - G y)) by ring. eapply Rle_trans; [apply Rabs_triang|]. rewrite !Rabs_mult.
    assert (E1 : Rabs (F x - F y) * Rabs (G x) <= eps / (2 * b2) * b2) by (apply Rmult_le_compat; auto using Rabs_pos).
    assert (E2 : Rabs (F y) * Rabs (G x - G y) <= b1 * (eps / (2 * b1))) by (apply Rmult_le_compat; auto using Rabs_pos).
    replace (eps / (2 * b2) * b2) with (eps / 2) in E1 by (field; lra). replace (b1 * (eps / (2 * b1))) with (eps / 2) in E2 by (field; lra). lra.
Qed.
Lemma reg_ext F G : (forall x, F x = G x) -> regular F -> regular G.
Proof. intros E H. replace G with F; [exact H|]. apply functional_extensionality. exact E. Qed.
Lemma reg_opp F : regular F -> regular (fun x => - F x).
Proof. intros H. apply (reg_ext (fun x => -1 * F x)); [intros; ring|]. apply reg_mult; [apply reg_const|exact H]. Qed.
Lemma reg_minus F G : regular F -> regular G -> regular (fun x => F x - G x).
Proof. intros H K. apply (reg_plus F (fun x => - G x) H (reg_opp G K)). Qed.
Lemma reg_div F k : regular F -> regular (fun x => F x / k).
Proof. intros H. apply (reg_mult F (fun _ => / k) H (reg_const _)). Qed.
Lemma reg_sum m (F : nat -> (nat -> R * R) -> R) : (forall i, regular (F i)) -> regular (fun x => Rsum m (fun i => F i x)).
Proof. intros H. induction m as [|m IH]; cbn [Rsum]; [apply reg_const|]. apply (reg_plus _ _ IH (H m)). Qed.
(** composition with a continuous function *)
Lemma reg_comp f F : continuity f -> regular F -> regular (fun x => f (F x)).
Proof.
  intros Hf [[B HB] K]. set (a := - (Rabs B + 1)). set (b := Rabs B + 1). assert (ab : a <= b) by (unfold a, b; pose proof (Rabs_pos B); lra).
  assert (I : forall x, in_cube x -> a <= F x <= b).
  { intros x Hx. pose proof (HB x Hx) as Q. assert (Q1 := Rle_abs (F x)). assert (Q2 := Rle_abs (- F x)). rewrite Rabs_Ropp in Q2. pose proof (Rle_abs B). unfold a, b. lra. }
  split.
  - destruct (continuity_ab_maj f a b ab (fun c _ => Hf c)) as (Mx & H1 & _). destruct (continuity_ab_min f a b ab (fun c _ => Hf c)) as (mx & H2 & _).
    exists (Rabs (f Mx) + Rabs (f mx)). intros x Hx. pose proof (H1 _ (I x Hx)). pose proof (H2 _ (I x Hx)). pose proof (Rle_abs (f Mx)). pose proof (Rle_abs (- f mx)) as Q. rewrite Rabs_Ropp in Q.
    pose proof (Rabs_pos (f Mx)). pose proof (Rabs_pos (f mx)). apply Rabs_le. lra.
  - intros eps He. destruct (@Heine_cor2 f a b (fun c _ => Hf c) (mkposreal eps He)) as (d & D3). cbn in D3.
    destruct (K (d / 2) ltac:(destruct d; cbn; lra)) as (e & E1 & E2). exists e. split; [exact E1|]. intros x y Hx Hy Hw. left. apply D3; [apply I, Hx|apply I, Hy|].
    pose proof (E2 x y Hx Hy Hw). pose proof (cond_pos d). lra.
Qed.
Lemma reg_fst i : regular (fun x => fst (x i)).
Proof. split; [exists 1; intros x Hx; destruct (Hx i); apply Rabs_le; lra|]. intros eps He. exists eps. split; [exact He|]. intros x y _ _ Hw. apply Hw. Qed.
Lemma reg_snd i : regular (fun x => snd (x i)).
Proof. split; [exists 1; intros x Hx; destruct (Hx i); apply Rabs_le; lra|]. intros eps He. exists eps. split; [exact He|]. intros x y _ _ Hw. apply Hw. Qed.
(** the square root, continued by 0 *)
Lemma sqrt_pos_cont : continuity (fun y => sqrt (Rmax y 0)).
Proof.
  intros y. assert (C : continuity_pt (fun y => Rmax y 0) y).
  { apply (continuity_pt_locally_ext (fun y => (y + Rabs y) / 2) _ 1); [lra| |].
    - intros z _. unfold Rmax, Rabs. destruct (Rle_dec z 0), (Rcase_abs z); lra.
    - apply continuity_pt_mult; [apply continuity_pt_plus; [apply derivable_continuous_pt, derivable_pt_id|apply Rcontinuity_abs]|apply continuity_pt_const; intros ? ?; reflexivity]. }
  apply (continuity_pt_comp (fun y => Rmax y 0) sqrt y C). apply continuity_pt_sqrt. apply Rmax_r.
Qed.
Lemma reg_dir i : regular (fun x => vx (uniform_dir (fst (x i)) (snd (x i)))) /\ regular (fun x => vy (uniform_dir (fst (x i)) (snd (x i)))) /\
  regular (fun x => vz (uniform_dir (fst (x i)) (snd (x i)))).
Proof.
  assert (Z : regular (fun x => 1 - 2 * snd (x i))) by (apply reg_minus; [apply reg_const|apply reg_mult; [apply reg_const|apply reg_snd]]).
  assert (Q : regular (fun x => sqrt (1 - (1 - 2 * snd (x i)) * (1 - 2 * snd (x i))))).
  { assert (Q0 : regular (fun x => sqrt (Rmax (1 - (1 - 2 * snd (x i)) * (1 - 2 * snd (x i))) 0))).
    { apply (reg_comp (fun y => sqrt (Rmax y 0)) (fun x => 1 - (1 - 2 * snd (x i)) * (1 - 2 * snd (x i))) sqrt_pos_cont). apply reg_minus; [apply reg_const|apply reg_mult; exact Z]. }
    refine (reg_ext _ _ _ Q0). intros x. unfold Rmax. destruct (Rle_dec _ 0) as [L|L]; [|reflexivity]. rewrite sqrt_0. symmetry. apply sqrt_neg_0. exact L. }
  assert (Ph : regular (fun x => 2 * PI * fst (x i))) by (apply reg_mult; [apply reg_const|apply reg_fst]).
  unfold uniform_dir. cbn [vx vy vz]. split; [|split; [|exact Z]].
  - apply reg_mult; [exact Q|apply (reg_comp cos _ continuity_cos Ph)].
  - apply reg_mult; [exact Q|apply (reg_comp sin _ continuity_sin Ph)].
Qed.

(** ** Chains *)
Lemma dirs_spin c n x i : S_ (at_dirs c n x) i = if (i <? n)%nat then uniform_dir (fst (x i)) (snd (x i)) else vzero.
Proof.
  unfold S_, at_, at_dirs. cbn [set_spins spins]. destruct (Nat.ltb_spec i n) as [L|L].
  - erewrite nth_error_nth; [reflexivity|]. rewrite nth_error_map, (nth_error_nth' _ 0%nat) by (rewrite seq_length; lia). rewrite seq_nth by lia. reflexivity.
  - apply nth_overflow. rewrite map_length, seq_length. exact L.
Qed.
Lemma reg_spin c n i : regular (fun x => vx (S_ (at_dirs c n x) i)) /\ regular (fun x => vy (S_ (at_dirs c n x) i)) /\ regular (fun x => vz (S_ (at_dirs c n x) i)).
Proof.
  destruct (Nat.ltb_spec i n) as [L|L].
  - destruct (reg_dir i) as (A & B & C). apply Nat.ltb_lt in L. split; [refine (reg_ext _ _ _ A)|split; [refine (reg_ext _ _ _ B)|refine (reg_ext _ _ _ C)]]; intros x; rewrite dirs_spin, L; reflexivity.
  - apply Nat.ltb_ge in L. split; [|split]; (apply (reg_ext (fun _ => 0)); [intros x; rewrite dirs_spin, L; reflexivity|apply reg_const]).
Qed.
Lemma dirs_wf n s c x : wf n s c -> wf n s (at_dirs c n x).
Proof. intros []. unfold at_dirs. constructor; cbn [set_spins spins j_couple static_h vars]; try rewrite map_length, seq_length; auto. Qed.
Ltac reg_poly R0 :=
  repeat first
    [ exact (proj1 (R0 _)) | exact (proj1 (proj2 (R0 _))) | exact (proj2 (proj2 (R0 _)))
    | apply reg_const | apply reg_sum; intros ? | apply reg_minus | apply reg_plus | apply reg_opp | apply reg_div | apply reg_mult ].
Lemma reg_ring c n m J B : regular (fun x => ring_energy m (S_ (at_dirs c n x)) J B).
Proof. pose proof (reg_spin c n) as R0. unfold ring_energy, bond, dot, vhad. cbn [vx vy vz]. reg_poly R0. Qed.
Lemma reg_energy k n s w c : regular (fun x => ens_energy k n s w (at_dirs c n x)).
Proof.
  pose proof (reg_spin c n) as R0. destruct k; cbn [ens_energy].
  - apply (reg_ring c n n (J_ c) (h_ c)).
  - apply (reg_ext (fun x => lab_energy n w (S_ (at_dirs c n x)) (J_ c))); [reflexivity|]. unfold lab_energy, bond, dot, vhad. cbn [vx vy vz]. reg_poly R0.
  - apply (reg_ext (fun x => rot_energy 1 1 n s w (S_ (at_dirs c n x)) (J_ c))); [reflexivity|]. unfold rot_energy, rot_bond_energy, bond_corr, trip_corr, planar, aniso. reg_poly R0.
Qed.
