(** The energy spectrum. *)
From Coq Require Import String Reals Lra Lia List ZArith Arith Bool.
From Verif Require Import Num Monad NumR Spin Config Chain SpecVec SpecChain SpecFFT
  ProofsSpin ProofsChain ProofsEnergy.
Import ListNotations.
Local Open Scope nat_scope.

Lemma nth_map_seqa {A} (f : nat -> A) a m j d : j < m -> nth j (map f (seq a m)) d = f (a + j).
Proof.
  intro H. rewrite (nth_indep _ d (f 0)) by (rewrite map_length, seq_length; assumption).
  rewrite map_nth, seq_nth by assumption. reflexivity.
Qed.

Section Gen.
Context (N : NumOps).

(** Power of mode i as computed by the program *)
Definition powF (sc : chain (num N)) (i : nat) : num N :=
  power N (nfft N (map vx (spins sc)) i) (nfft N (map vy (spins sc)) i) (nfft N (map vz (spins sc)) i).

Lemma fold_set {A} (f : nat -> list A -> res (list A)) (v : nat -> A) (c : nat -> nat) (d : A) m :
  forall a ek, (forall i, a <= i -> c (S i) = S (c i)) ->
    (forall i ek, a <= i < a + m -> f i ek = set_idx ek (c i) (v i)) ->
    c a + m <= length ek ->
  exists ek', foldM f (seq a m) ek = Ok ek' /\ length ek' = length ek /\
    forall j, nth j ek' d = if (c a <=? j) && (j <? c a + m) then v (a + (j - c a)) else nth j ek d.
Proof.
  induction m; intros a ek Hc Hf Hl; cbn [seq foldM].
  - exists ek. split; [reflexivity|]. split; [reflexivity|]. intro j.
    destruct (Nat.leb_spec (c a) j), (Nat.ltb_spec j (c a + 0)); cbn [andb]; try reflexivity; lia.
  - rewrite Hf by lia. rewrite set_idx_ok by lia. cbn [bind].
    pose proof (Hc a (Nat.le_refl a)) as Hca.
    destruct (IHm (S a) (upd ek (c a) (v a))) as (ek' & E & L & A0).
    { intros i Hi. apply Hc; lia. }
    { intros i e Hi. apply Hf; lia. }
    { rewrite upd_length, Hca. lia. }
    exists ek'. split; [exact E|]. split; [rewrite L; apply upd_length|].
    intro j. rewrite A0, Hca. rewrite nth_upd by lia.
    destruct (Nat.eqb_spec j (c a)) as [->|Hj].
    + destruct (Nat.leb_spec (S (c a)) (c a)); [lia|]. cbn [andb].
      destruct (Nat.leb_spec (c a) (c a)); [|lia]. destruct (Nat.ltb_spec (c a) (c a + S m)); [|lia]. cbn [andb].
      f_equal; lia.
    + destruct (Nat.leb_spec (S (c a)) j), (Nat.leb_spec (c a) j);
      destruct (Nat.ltb_spec j (S (c a) + m)), (Nat.ltb_spec j (c a + S m)); cbn [andb]; try lia; try reflexivity.
      f_equal; lia.
Qed.

Lemma energy_spectrum_pure n s sc : wf n s sc -> n <> 1 ->
  energy_spectrum N sc = Ok (map (powF sc) (seq (n / 2) (n / 2)) ++ map (powF sc) (seq 0 (n / 2))
                             ++ repeat (nofZ N 0) (n mod 2)).
Proof.
  intros W Hn1. unfold energy_spectrum, fft_process. rewrite (wf_n W). rewrite !map_length, (wf_spins _ _ _ W), Nat.eqb_refl.
  cbn [bind]. set (h := n / 2).
  pose proof (Nat.div_mod n 2 ltac:(lia)) as DM. pose proof (Nat.mod_upper_bound n 2 ltac:(lia)) as UB. fold h in DM.
  unfold range.
  match goal with |- bind (foldM ?F _ _) (fun ek => foldM ?G _ ek) = _ => set (F1 := F); set (G1 := G) end.
  assert (P : forall i, i < n -> forall (k : (num N * num N) -> (num N * num N) -> (num N * num N) -> res (list (num N))),
    (let* x := idx (map (nfft N (map vx (spins sc))) (seq 0 n)) i in
     let* y := idx (map (nfft N (map vy (spins sc))) (seq 0 n)) i in
     let* z := idx (map (nfft N (map vz (spins sc))) (seq 0 n)) i in k x y z) =
    k (nfft N (map vx (spins sc)) i) (nfft N (map vy (spins sc)) i) (nfft N (map vz (spins sc)) i)).
  { intros i Hi k. rewrite !(idx_ok _ _ (nofZ N 0, nofZ N 0)) by (rewrite map_length, seq_length; assumption).
    cbn [bind]. rewrite !nth_map_seq by assumption. reflexivity. }
  destruct (fold_set F1 (powF sc) (fun i => i - h) (nofZ N 0) (n - h) h (repeat (nofZ N 0) n)) as (ek1 & E1 & L1 & A1).
  { intros; lia. }
  { intros i ek Hi. unfold F1. rewrite P by lia. reflexivity. }
  { rewrite repeat_length. lia. }
  rewrite E1. cbn [bind]. rewrite repeat_length in L1.
  destruct (fold_set G1 (powF sc) (fun i => i + h) (nofZ N 0) (h - 0) 0 ek1) as (ek2 & E2 & L2 & A2).
  { intros; lia. }
  { intros i ek Hi. unfold G1. rewrite P by lia. reflexivity. }
  { rewrite L1. lia. }
  rewrite E2. f_equal. apply (list_ext_nth (nofZ N 0)).
  - rewrite !app_length, !map_length, !seq_length, repeat_length, L2, L1. lia.
  - intros j Hj. rewrite L2, L1 in Hj. rewrite A2, A1. rewrite Nat.sub_diag, Nat.add_0_l, Nat.sub_0_r.
    destruct (Nat.lt_ge_cases j h) as [H1|H1].
    { rewrite app_nth1 by (rewrite map_length, seq_length; assumption).
      rewrite nth_map_seqa by assumption.
      destruct (Nat.leb_spec h j); [lia|]. cbn [andb]. cbn [Nat.leb]. destruct (Nat.ltb_spec j (0 + (n - h))); [|lia].
      cbn [andb]. f_equal; lia. }
    rewrite app_nth2 by (rewrite map_length, seq_length; assumption). rewrite map_length, seq_length.
    destruct (Nat.leb_spec h j); [|lia]. cbn [andb].
    destruct (Nat.ltb_spec j (h + h)) as [H2|H2].
    { rewrite app_nth1 by (rewrite map_length, seq_length; lia).
      rewrite nth_map_seqa by lia. reflexivity. }
    rewrite app_nth2 by (rewrite map_length, seq_length; lia). rewrite map_length, seq_length.
    rewrite !nth_repeat. cbn [Nat.leb]. cbn [andb].
    destruct (Nat.ltb_spec j (0 + (n - h))) as [H3|H3]; [|reflexivity].
    lia.
Qed.

Lemma energy_spectrum_one s sc : wf 1 s sc -> energy_spectrum N sc = Ok [powF sc 0].
Proof.
  intro W. unfold energy_spectrum, fft_process. rewrite (wf_n W). rewrite !map_length, (wf_spins _ _ _ W). reflexivity.
Qed.
End Gen.

Local Open Scope R_scope.

(** ** The exact transform *)
Lemma wsum_Rsum f l : forall j0, wsum f j0 l = Rsum (length l) (fun j => nth j l 0 * f (j0 + j)%nat).
Proof.
  assert (G : forall n g, Rsum (S n) g = g 0%nat + Rsum n (fun i => g (S i))).
  { induction n; intro g; [cbn; ring|]. change (Rsum (S (S n)) g) with (Rsum (S n) g + g (S n)). rewrite IHn. cbn. ring. }
  induction l as [|x r IH]; intro j0; [reflexivity|]. cbn [wsum length]. rewrite G, IH. cbn [nth].
  rewrite Nat.add_0_r. f_equal. apply Rsum_ext. intros i _. rewrite Nat.add_succ_r. reflexivity.
Qed.

Lemma Rdft_power l k : fst (Rdft l k) * fst (Rdft l k) + snd (Rdft l k) * snd (Rdft l k) =
  mode1 (length l) (fun j => nth j l 0) k.
Proof.
  unfold Rdft, mode1; cbn [fst snd]. rewrite !wsum_Rsum. cbn [plus]. ring.
Qed.

(** Sum of the cosines of the multiples of a divided full angle *)
Lemma tele (a : R) n : 2 * sin (a / 2) * Rsum n (fun k => cos (a * INR k)) = sin (a * INR n - a / 2) + sin (a / 2).
Proof.
  induction n.
  - cbn [Rsum]. change (INR 0) with 0. rewrite !Rmult_0_r. rewrite Rminus_0_l, sin_neg. ring.
  - cbn [Rsum]. rewrite Rmult_plus_distr_l, IHn, S_INR.
    replace (a * (INR n + 1) - a / 2) with (a * INR n + a / 2) by field.
    rewrite sin_plus, sin_minus. ring.
Qed.

Lemma cos_sum_zero n m : (0 < m < n)%nat -> Rsum n (fun k => cos (2 * PI * INR m / INR n * INR k)) = 0.
Proof.
  intros [H0 H1]. set (a := 2 * PI * INR m / INR n).
  assert (Pn : 0 < INR n) by (apply lt_0_INR; lia). assert (Pm : 0 < INR m) by (apply lt_0_INR; lia).
  assert (Lmn : INR m < INR n) by (apply lt_INR; lia). pose proof PI_RGT_0.
  assert (Ha : 0 < a / 2 < PI).
  { unfold a. replace (2 * PI * INR m / INR n / 2) with (PI * (INR m / INR n)) by (field; lra).
    assert (0 < INR m / INR n) by (apply Rmult_lt_0_compat; [lra|apply Rinv_0_lt_compat; lra]).
    assert (INR m / INR n < 1).
    { apply Rmult_lt_reg_r with (INR n); [lra|]. unfold Rdiv. rewrite Rmult_assoc, Rinv_l; lra. }
    split; nra. }
  pose proof (tele a n) as T.
  replace (a * INR n - a / 2) with (- (a / 2) + 2 * INR m * PI) in T by (unfold a; field; lra).
  rewrite sin_period, sin_neg in T.
  pose proof (sin_gt_0 (a / 2) (proj1 Ha) (proj2 Ha)). nra.
Qed.

Lemma Rsum_swap n m (f : nat -> nat -> R) :
  Rsum n (fun i => Rsum m (fun j => f i j)) = Rsum m (fun j => Rsum n (fun i => f i j)).
Proof.
  induction n; cbn [Rsum].
  - symmetry. apply Rsum_0.
  - rewrite IHn, <- Rsum_plus. reflexivity.
Qed.

Lemma Rsum_mul n m (f g : nat -> R) : Rsum n f * Rsum m g = Rsum n (fun i => Rsum m (fun j => f i * g j)).
Proof.
  induction n; cbn [Rsum]; [ring|]. rewrite Rmult_plus_distr_r, IHn, Rsum_scal. reflexivity.
Qed.

Lemma Rsum_diag n (f : nat -> R) i : (i < n)%nat -> Rsum n (fun j => if (i =? j)%nat then f j else 0) = f i.
Proof.
  induction n; intro H; [lia|]. cbn [Rsum]. destruct (Nat.eqb_spec i n) as [->|E].
  - rewrite (Rsum_ext n _ (fun _ => 0)); [rewrite Rsum_0; ring|]. intros j Hj. destruct (Nat.eqb_spec n j); [lia|reflexivity].
  - rewrite IHn by lia. ring.
Qed.

Lemma cos_sum_pair n i j : (i < n)%nat -> (j < n)%nat ->
  Rsum n (fun k => cos (2 * PI * INR i * INR k / INR n - 2 * PI * INR j * INR k / INR n)) = if (i =? j)%nat then INR n else 0.
Proof.
  intros Hi Hj. assert (Pn : 0 < INR n) by (apply lt_0_INR; lia).
  destruct (Nat.eqb_spec i j) as [->|E].
  - rewrite (Rsum_ext n _ (fun _ => 1)).
    + clear. induction n; [cbn; ring|]. cbn [Rsum]. rewrite IHn, S_INR. ring.
    + intros k _. rewrite Rminus_diag_eq by reflexivity. apply cos_0.
  - destruct (Nat.lt_ge_cases j i) as [L|L].
    + rewrite <- (cos_sum_zero n (i - j)) by lia. apply Rsum_ext. intros k _. f_equal.
      rewrite minus_INR by lia. field. lra.
    + rewrite <- (cos_sum_zero n (j - i)) by lia. apply Rsum_ext. intros k _. rewrite <- cos_neg. f_equal.
      rewrite minus_INR by lia. field. lra.
Qed.

Lemma parseval n x : Rsum n (mode1 n x) = INR n * Rsum n (fun j => x j * x j).
Proof.
  unfold mode1.
  rewrite (Rsum_ext n _ (fun k => Rsum n (fun i => Rsum n (fun j =>
     x i * x j * cos (2 * PI * INR i * INR k / INR n - 2 * PI * INR j * INR k / INR n))))).
  - rewrite Rsum_swap, <- Rsum_scal. apply Rsum_ext. intros i Hi. rewrite Rsum_swap.
    rewrite (Rsum_ext n _ (fun j => if (i =? j)%nat then x i * x j * INR n else 0)).
    + rewrite Rsum_diag by assumption. ring.
    + intros j Hj. rewrite Rsum_scal, cos_sum_pair by assumption. destruct (i =? j)%nat; ring.
  - intros k _. cbn [pow]. rewrite !Rmult_1_r, !Rsum_mul, <- Rsum_plus. apply Rsum_ext. intros i _.
    rewrite <- Rsum_plus. apply Rsum_ext. intros j _. rewrite cos_minus. ring.
Qed.

Lemma mode_total n s sc : wf n s sc -> unit_spins sc -> Rsum n (mode n sc) = INR n * INR n.
Proof.
  intros W Hu. unfold mode. rewrite !Rsum_plus, !parseval, <- !Rmult_plus_distr_l, <- !Rsum_plus. f_equal.
  rewrite (Rsum_ext n _ (fun _ => 1)).
  - clear. induction n; [reflexivity|]. cbn [Rsum]. rewrite IHn, S_INR. reflexivity.
  - intros i Hi. assert (U : unit3 (S_ sc i)).
    { apply unit_at; [assumption|]. rewrite (wf_spins _ _ _ W). assumption. }
    unfold unit3, dot in U. exact U.
Qed.

(** ** The program *)
Lemma all_some_fin (l : list R) : all_some (map Some l) = Some l.
Proof. induction l; [reflexivity|]. cbn. rewrite IHl. reflexivity. Qed.

Lemma map_comp_fin (f : v3 ER -> ER) (g : vec -> R) l : (forall v, f (fin3 v) = Some (g v)) ->
  map f (map (v3map Some) l) = map Some (map g l).
Proof. intro H. rewrite !map_map. apply map_ext. exact H. Qed.

Lemma powF_fin n s sc k : wf n s sc -> powF ERNum (fin sc) k = Some (mode n sc k).
Proof.
  intro W. unfold powF. change (spins (fin sc)) with (map (v3map (@Some R)) (spins sc)).
  assert (Q : forall (f : v3 ER -> ER) (g : vec -> R), (forall v, f (fin3 v) = Some (g v)) ->
     nfft ERNum (map f (map (v3map Some) (spins sc))) k = (Some (fst (Rdft (map g (spins sc)) k)), Some (snd (Rdft (map g (spins sc)) k)))).
  { intros f g H. rewrite (map_comp_fin f g) by assumption. cbn [nfft ERNum]. rewrite all_some_fin.
    destruct (Rdft (map g (spins sc)) k); reflexivity. }
  etransitivity; [exact (f_equal3 (power ERNum) (Q vx vx (fun _ => eq_refl)) (Q vy vy (fun _ => eq_refl)) (Q vz vz (fun _ => eq_refl)))|].
  unfold power; cbn [fst snd]. cbn [nmul nadd ERNum er2].
  f_equal. unfold mode.
  assert (M : forall g : vec -> R, g vzero = 0 ->
     fst (Rdft (map g (spins sc)) k) * fst (Rdft (map g (spins sc)) k) + snd (Rdft (map g (spins sc)) k) * snd (Rdft (map g (spins sc)) k)
     = mode1 n (fun j => g (S_ sc j)) k).
  { intros g Hg. rewrite Rdft_power, map_length.
    pose proof (wf_spins _ _ _ W) as L. change (@length vec (spins sc) = n) in L. rewrite L. unfold mode1.
    f_equal; f_equal; apply Rsum_ext; intros j _; rewrite <- Hg, map_nth; reflexivity. }
  rewrite <- (M vx), <- (M vy), <- (M vz) by reflexivity. ring.
Qed.

Lemma spectrum_value n s sc : wf n s sc -> n <> 1%nat ->
  energy_spectrum ERNum (fin sc) =
  Ok (map Some (map (mode n sc) (seq (n / 2) (n / 2)) ++ map (mode n sc) (seq 0 (n / 2)) ++ repeat 0 (n mod 2))).
Proof.
  intros W H1. pose proof (proj2 (wf_fin n s sc) W) as W'.
  rewrite (energy_spectrum_pure ERNum n s (fin sc) W' H1). f_equal. rewrite !map_app, !map_map.
  f_equal; [|f_equal].
  - apply map_ext. intro. apply (powF_fin n s); assumption.
  - apply map_ext. intro. apply (powF_fin n s); assumption.
  - generalize (n mod 2)%nat as m. induction m; [reflexivity|]. cbn. rewrite <- IHm. reflexivity.
Qed.

Lemma Rsum_list n (f : nat -> R) : Rsum n f = fold_right Rplus 0 (map f (seq 0 n)).
Proof.
  assert (A : forall l1 l2, fold_right Rplus 0 (l1 ++ l2) = fold_right Rplus 0 l1 + fold_right Rplus 0 l2).
  { induction l1; intro l2; cbn; [ring|]. rewrite IHl1. ring. }
  induction n; [reflexivity|]. rewrite seq_S, map_app, A. cbn. rewrite IHn. ring.
Qed.

Lemma spectrum_sum n s sc : wf n s sc -> n <> 1%nat -> unit_spins sc ->
  exists ek, energy_spectrum ERNum (fin sc) = Ok (map Some ek) /\ length ek = n /\
  fold_right Rplus 0 ek = INR n * INR n - (if (n mod 2 =? 0)%nat then 0 else mode n sc (n - 1)).
Proof.
  intros W H1 Hu. eexists. split; [apply (spectrum_value n s); assumption|].
  pose proof (Nat.div_mod n 2 ltac:(lia)) as DM. pose proof (Nat.mod_upper_bound n 2 ltac:(lia)) as UB.
  split. { rewrite !app_length, !map_length, !seq_length, repeat_length. lia. }
  assert (A : forall l1 l2, fold_right Rplus 0 (l1 ++ l2) = fold_right Rplus 0 l1 + fold_right Rplus 0 l2).
  { induction l1; intro l2; cbn; [ring|]. rewrite IHl1. ring. }
  rewrite <- (mode_total n s sc W Hu), Rsum_list, !A.
  assert (Z : forall m, fold_right Rplus 0 (repeat 0 m) = 0) by (induction m; cbn; lra). rewrite Z.
  set (h := (n / 2)%nat) in *. destruct (Nat.eqb_spec (n mod 2) 0) as [E|E].
  - replace n with (h + h)%nat at 4 by lia. rewrite seq_app, map_app, A. cbn [plus]. ring.
  - replace n with (h + h + 1)%nat at 4 by lia. rewrite !seq_app, !map_app, !A. cbn [plus seq map fold_right].
    replace (n - 1)%nat with (h + h)%nat by lia. ring.
Qed.

Lemma spectrum_even n s sc : wf n s sc -> (n mod 2 = 0)%nat ->
  energy_spectrum ERNum (fin sc) = Ok (map (fun j => Some (mode n sc ((j + n / 2) mod n))) (seq 0 n)).
Proof.
  intros W He.
  pose proof (Nat.div_mod n 2 ltac:(lia)) as DM.
  assert (N1 : n <> 1%nat) by (intros ->; vm_compute in He; discriminate He).
  rewrite (spectrum_value n s sc W N1). rewrite He. cbn [repeat]. rewrite app_nil_r.
  f_equal. rewrite map_app, !map_map. set (h := (n / 2)%nat) in *.
  assert (Sq : seq 0 n = seq 0 h ++ seq h h).
  { change (seq h h) with (seq (0 + h) h). rewrite <- seq_app. replace (h + h)%nat with n by lia. reflexivity. }
  rewrite Sq.
  rewrite map_app. f_equal.
  - apply (list_ext_nth None); [rewrite !map_length, !seq_length; reflexivity|].
    intros j Hj. rewrite map_length, seq_length in Hj. rewrite !nth_map_seqa by assumption.
    cbn [plus]. rewrite Nat.mod_small by lia. do 2 f_equal. lia.
  - apply (list_ext_nth None); [rewrite !map_length, !seq_length; reflexivity|].
    intros j Hj. rewrite map_length, seq_length in Hj. rewrite !nth_map_seqa by assumption.
    replace (h + j + h)%nat with (j + 1 * n)%nat by lia. rewrite Nat.mod_add, Nat.mod_small by lia. reflexivity.
Qed.

Lemma spectrum_odd n s sc : wf n s sc -> (n mod 2 = 1)%nat -> (3 <= n)%nat ->
  energy_spectrum ERNum (fin sc) =
  Ok (map Some (map (mode n sc) (seq (n / 2) (n / 2)) ++ map (mode n sc) (seq 0 (n / 2)) ++ [0])).
Proof.
  intros W Ho Hn. rewrite (spectrum_value n s sc W) by lia. rewrite Ho. reflexivity.
Qed.

Definition three_conf : config R :=
  mkConfig 3 3 256 (2/100) 2 0 2 10 (1/2) [0; 0; 1/4] [1; 0; -1] (1/1000) 0 2 (-66/100)
    "log"%string false 0 (288/100) 1000 (9/10) Dnone true.
Definition three_chain : chain R :=
  mkChain [vzero; vzero; vzero] [vzero; vzero; vzero] [mk3 0 0 1; mk3 0 0 (-1); mk3 0 0 (-1)] 0 three_conf true.
Lemma three_wf : wf 3 3 three_chain. Proof. constructor; cbn; auto; lia. Qed.
Lemma three_unit : unit_spins three_chain.
Proof. unfold unit_spins; cbn. repeat constructor; unfold unit3, dot; cbn; lra. Qed.
Lemma three_mode : mode 3 three_chain 2 = 4.
Proof.
  assert (I3 : INR 3 = 3) by (cbn; lra). assert (I2 : INR 2 = 2) by (cbn; lra).
  assert (C1 : cos (2 * PI * INR 1 * INR 2 / INR 3) = - (1 / 2)).
  { rewrite I3, I2. change (INR 1) with 1. replace (2 * PI * 1 * 2 / 3) with (PI / 3 + PI) by field.
    rewrite neg_cos, cos_PI3. reflexivity. }
  assert (C2 : cos (2 * PI * INR 2 * INR 2 / INR 3) = - (1 / 2)).
  { rewrite I3, I2. replace (2 * PI * 2 * 2 / 3) with (- (PI / 3) + PI + 2 * INR 1 * PI) by (cbn; field).
    rewrite cos_period, neg_cos, cos_neg, cos_PI3. reflexivity. }
  assert (S1 : sin (2 * PI * INR 2 * INR 2 / INR 3) = - sin (2 * PI * INR 1 * INR 2 / INR 3)).
  { rewrite I3, I2. change (INR 1) with 1. replace (2 * PI * 2 * 2 / 3) with (- (2 * PI * 1 * 2 / 3) + 2 * INR 2 * PI) by (cbn; field).
    rewrite sin_period, sin_neg. reflexivity. }
  unfold mode, mode1. cbn [Rsum]. rewrite C1, C2, S1.
  change (vx (S_ three_chain 0)) with 0. change (vx (S_ three_chain 1)) with 0. change (vx (S_ three_chain 2)) with 0.
  change (vy (S_ three_chain 0)) with 0. change (vy (S_ three_chain 1)) with 0. change (vy (S_ three_chain 2)) with 0.
  change (vz (S_ three_chain 0)) with 1. change (vz (S_ three_chain 1)) with (-1). change (vz (S_ three_chain 2)) with (-1).
  change (INR 0) with 0. unfold Rdiv. rewrite ?Rmult_0_r, ?Rmult_0_l, ?cos_0, ?sin_0. field.
Qed.
