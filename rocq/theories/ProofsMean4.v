(** Convergence of the samplers to the Boltzmann averages from every start. *)
From Coq Require Import Reals Lra Lia List ZArith Arith FunctionalExtensionality.
From Verif Require Import Num Monad NumR Spin Config Chain SpecVec SpecChain SpecMC SpecSampling SpecMean
  ProofsSpin ProofsChain ProofsEnergy ProofsMC ProofsMCR ProofsMCR2 ProofsMCR3 ProofsMCR4 ProofsSampling ProofsMean ProofsMean2 ProofsMean3.
Import ListNotations.
Local Open Scope R_scope.

Lemma not_nil_in {A} (q : list A) : q <> [] -> exists a, In a q.
Proof. destruct q as [|a q]; [contradiction|]. exists a. left. reflexivity. Qed.

Section E.
Variables (n s : nat) (c : chain R) (H : chain R -> R) (f : mcdraw ERNum -> chain (num ERNum) -> res (chain (num ERNum))).
Let b := beta (vars c).
Hypothesis W : wf n s c.
Hypothesis Hb : 0 <= b.
Hypothesis M : forall x, metropolis_for n H f (at_dirs c n x).
Hypothesis n1 : (1 <= n)%nat.
Variables (N : nat) (HN : (1 <= N)%nat).
Let at_ := at_dirs c n.
Let w (x : nat -> R * R) : R := exp (- (b * H (at_ x))).
Let prob (j : nat) x a : R := accept_prob b (H (at_ (put x j a)) - H (at_ x)).
Let l := grid2 N.
Let P (g : (nat -> R * R) -> R) (x : nat -> R * R) : R :=
  lmean (seq 0 n) (fun j => lmean l (fun a => prob j x a * g (put x j a) + (1 - prob j x a) * g x)).
Let inside := inside n.
Let ln : l <> [] := grid2_not_nil N HN.
Lemma sites_nil : seq 0 n <> [].
Proof. destruct n; [lia|discriminate]. Qed.
Let sn := sites_nil.

(** functions of the first n places *)
Definition dep (g : (nat -> R * R) -> R) : Prop := forall x y, (forall i, (i < n)%nat -> x i = y i) -> g x = g y.
Lemma at_dep x y : (forall i, (i < n)%nat -> x i = y i) -> at_ x = at_ y.
Proof. intros E. unfold at_, at_dirs. f_equal. apply map_ext_in. intros i Hi. apply in_seq in Hi. rewrite E by lia. reflexivity. Qed.
Lemma put_agree (x y : nat -> R * R) j a : (forall i, (i < n)%nat -> x i = y i) -> forall i, (i < n)%nat -> put x j a i = put y j a i.
Proof. intros E i Hi. unfold put. destruct (i =? j)%nat; [reflexivity|apply E, Hi]. Qed.
Lemma prob_dep j x y a : (forall i, (i < n)%nat -> x i = y i) -> prob j x a = prob j y a.
Proof. intros E. unfold prob. rewrite (at_dep x y E), (at_dep (put x j a) (put y j a) (put_agree x y j a E)). reflexivity. Qed.
Lemma P_dep g : dep g -> dep (P g).
Proof.
  intros Hg x y E. unfold P. apply lmean_ext. intros j _. apply lmean_ext. intros a _.
  rewrite (prob_dep j x y a E), (Hg x y E), (Hg (put x j a) (put y j a) (put_agree x y j a E)). reflexivity.
Qed.
Fixpoint it (k : nat) (g : (nat -> R * R) -> R) : (nat -> R * R) -> R := match k with O => g | S k => P (it k g) end.
Lemma it_dep k g : dep g -> dep (it k g).
Proof. intros Hg. induction k; cbn [it]; [exact Hg|apply P_dep; assumption]. Qed.
Lemma it_add k m g : it (k + m) g = it k (it m g).
Proof. induction k as [|k IH]; cbn [it plus]; [reflexivity|]. rewrite IH. reflexivity. Qed.

(** linearity, positivity *)
Lemma P_lin g h k : P (fun x => g x + k * h x) = fun x => P g x + k * P h x.
Proof.
  apply functional_extensionality. intros x. unfold P. rewrite <- lmean_scale, <- lmean_plus. apply lmean_ext. intros j _. rewrite <- lmean_scale, <- lmean_plus. apply lmean_ext. intros a _. ring.
Qed.
Lemma P_const k : P (fun _ => k) = fun _ => k.
Proof.
  apply functional_extensionality. intros x. unfold P. transitivity (lmean (seq 0 n) (fun _ => k)); [|apply lmean_const; exact sn]. apply lmean_ext. intros j _. transitivity (lmean l (fun _ => k)); [|apply lmean_const; exact ln]. apply lmean_ext. intros a _. ring.
Qed.
Lemma it_lin k q : forall g h, it k (fun x => g x + q * h x) = fun x => it k g x + q * it k h x.
Proof. induction k as [|k IH]; intros g h; cbn [it]; [reflexivity|]. rewrite IH, P_lin. reflexivity. Qed.
Lemma it_const k q : it k (fun _ => q) = fun _ => q.
Proof. induction k as [|k IH]; cbn [it]; [reflexivity|]. rewrite IH, P_const. reflexivity. Qed.
Lemma punit j x a : 0 <= prob j x a <= 1.
Proof. unfold prob, accept_prob. split; [apply Rmin_glb; [lra|left; apply exp_pos]|apply Rmin_l]. Qed.
Lemma lmean_ge0 {A} (q : list A) h : (forall a, In a q -> 0 <= h a) -> 0 <= lmean q h.
Proof. intros Hh. rewrite <- (lmean_zero q). apply lmean_le. exact Hh. Qed.
Lemma P_pos g : (forall x, inside x -> 0 <= g x) -> forall x, inside x -> 0 <= P g x.
Proof.
  intros Hg x Hx. unfold P. apply lmean_ge0. intros j _. apply lmean_ge0. intros a Ha. pose proof (punit j x a).
  pose proof (Hg x Hx). pose proof (Hg (put x j a) (inside_put n N x j a Ha Hx)). assert (0 <= prob j x a * g (put x j a)) by (apply Rmult_le_pos; lra). assert (0 <= (1 - prob j x a) * g x) by (apply Rmult_le_pos; lra). lra.
Qed.
Lemma it_pos k g : (forall x, inside x -> 0 <= g x) -> forall x, inside x -> 0 <= it k g x.
Proof. intros Hg. induction k as [|k IH]; cbn [it]; [exact Hg|apply P_pos, IH]. Qed.
Lemma it_le k g h : (forall x, inside x -> g x <= h x) -> forall x, inside x -> it k g x <= it k h x.
Proof.
  intros Hg x Hx. pose proof (it_pos k (fun x => h x + (-1) * g x) ltac:(intros y Hy; pose proof (Hg y Hy); lra) x Hx) as Q. rewrite it_lin in Q. lra.
Qed.

(** stationarity *)
Let Z := gmean (0, 0) l n w.
Let avg (g : (nat -> R * R) -> R) : R := gmean (0, 0) l n (fun x => w x * g x) / Z.
Lemma Zpos : 0 < Z.
Proof. apply gmean_pos; [exact ln|intros; apply exp_pos]. Qed.
Lemma avg_P g : avg (P g) = avg g.
Proof.
  unfold avg. f_equal. unfold P.
  transitivity (lmean (seq 0 n) (fun j => gmean (0, 0) l n (fun x => w x * lmean l (fun a => prob j x a * g (put x j a) + (1 - prob j x a) * g x)))).
  - rewrite <- gmean_swap. apply gmean_ext. intros x _. rewrite <- lmean_scale. reflexivity.
  - rewrite <- (lmean_const (seq 0 n) (gmean (0, 0) l n (fun x => w x * g x)) sn). apply lmean_ext. intros j Hj. apply in_seq in Hj.
    etransitivity; [exact (exact_stationary n c H j g ltac:(lia) l (0, 0))|]. apply gmean_ext. intros x _. rewrite lmean_const by exact ln. reflexivity.
Qed.
Lemma avg_it k g : avg (it k g) = avg g.
Proof. induction k as [|k IH]; cbn [it]; [reflexivity|]. rewrite avg_P. exact IH. Qed.
Lemma avg_between g lo hi : (forall x, inside x -> lo <= g x <= hi) -> lo <= avg g <= hi.
Proof.
  intros Hg. pose proof Zpos as Zp. unfold avg.
  assert (A : lo * Z <= gmean (0, 0) l n (fun x => w x * g x)). { unfold Z. rewrite <- gmean_scale. apply gmean_le. intros x Hx. apply inside_grid in Hx. destruct (Hg x Hx). rewrite Rmult_comm. apply Rmult_le_compat_l; [left; apply exp_pos|lra]. }
  assert (B : gmean (0, 0) l n (fun x => w x * g x) <= hi * Z). { unfold Z. rewrite <- gmean_scale. apply gmean_le. intros x Hx. apply inside_grid in Hx. destruct (Hg x Hx). rewrite (Rmult_comm hi). apply Rmult_le_compat_l; [left; apply exp_pos|lra]. }
  split; apply Rmult_le_reg_r with Z; try exact Zp; unfold Rdiv; rewrite Rmult_assoc, Rinv_l by lra; lra.
Qed.

(** minorisation *)
Variable kap : R.
Hypothesis kap0 : 0 <= kap.
Hypothesis Hk : forall j x a, (j < n)%nat -> inside x -> In a l -> kap <= prob j x a.
Lemma lmean_ge_one (h : nat -> R) j : (j < n)%nat -> (forall i, (i < n)%nat -> 0 <= h i) -> h j / INR n <= lmean (seq 0 n) h.
Proof.
  intros Hj Hh. unfold lmean. rewrite seq_length. assert (0 < INR n) by (apply lt_0_INR; lia). unfold Rdiv. apply Rmult_le_compat_r; [left; apply Rinv_0_lt_compat; lra|].
  assert (K : forall q, (forall i, In i q -> 0 <= h i) -> 0 <= fold_right (fun a s => h a + s) 0 q).
  { induction q as [|a q IH]; intros Q; cbn [fold_right]; [lra|]. pose proof (Q a (or_introl eq_refl)). pose proof (IH (fun i I => Q i (or_intror I))). lra. }
  assert (K2 : forall q, (forall i, In i q -> 0 <= h i) -> In j q -> h j <= fold_right (fun a s => h a + s) 0 q).
  { induction q as [|a q IH]; intros Q I; [destruct I|]. cbn [fold_right]. destruct I as [->|I].
    - pose proof (K q (fun i I => Q i (or_intror I))). lra.
    - pose proof (Q a (or_introl eq_refl)). pose proof (IH (fun i I => Q i (or_intror I)) I). lra. }
  apply K2; [intros i Hi; apply in_seq in Hi; apply Hh; lia|apply in_seq; lia].
Qed.
Lemma P_minor g j : (j < n)%nat -> (forall x, inside x -> 0 <= g x) -> forall x, inside x -> kap / INR n * lmean l (fun a => g (put x j a)) <= P g x.
Proof.
  intros Hj Hg x Hx. unfold P.
  assert (In0 : 0 < INR n) by (apply lt_0_INR; lia).
  eapply Rle_trans; [|apply (lmean_ge_one (fun j => lmean l (fun a => prob j x a * g (put x j a) + (1 - prob j x a) * g x)) j Hj)].
  - unfold Rdiv. rewrite Rmult_assoc, (Rmult_comm (/ INR n)), <- Rmult_assoc. apply Rmult_le_compat_r; [left; apply Rinv_0_lt_compat; exact In0|]. rewrite <- lmean_scale. apply lmean_le. intros a Ha.
    pose proof (punit j x a). pose proof (Hg x Hx). pose proof (Hg _ (inside_put n N x j a Ha Hx)). pose proof (Hk j x a Hj Hx Ha).
    assert (0 <= (1 - prob j x a) * g x) by (apply Rmult_le_pos; lra). assert (kap * g (put x j a) <= prob j x a * g (put x j a)) by (apply Rmult_le_compat_r; lra). lra.
  - intros i Hi. apply lmean_ge0. intros a Ha. pose proof (punit i x a). pose proof (Hg x Hx). pose proof (Hg _ (inside_put n N x i a Ha Hx)).
    assert (0 <= (1 - prob i x a) * g x) by (apply Rmult_le_pos; lra). assert (0 <= prob i x a * g (put x i a)) by (apply Rmult_le_pos; lra). lra.
Qed.
Fixpoint Qs (j m : nat) (g : (nat -> R * R) -> R) (x : nat -> R * R) : R :=
  match m with O => g x | S m => lmean l (fun a => Qs (S j) m g (put x j a)) end.
Lemma it_minor g : (forall x, inside x -> 0 <= g x) -> forall m j, (j + m <= n)%nat -> forall x, inside x -> (kap / INR n) ^ m * Qs j m g x <= it m g x.
Proof.
  intros Hg. assert (In0 : 0 < INR n) by (apply lt_0_INR; lia). assert (K0 : 0 <= kap / INR n) by (apply Rmult_le_pos; [exact kap0|left; apply Rinv_0_lt_compat; exact In0]).
  induction m as [|m IH]; intros j Hj x Hx; cbn [Qs it pow]; [lra|].
  eapply Rle_trans; [|apply (P_minor (it m g) j ltac:(lia) (it_pos m g Hg) x Hx)]. rewrite Rmult_assoc. apply Rmult_le_compat_l; [exact K0|]. rewrite <- lmean_scale. apply lmean_le. intros a Ha.
  apply IH; [lia|]. apply (inside_put n N x j a Ha Hx).
Qed.
Lemma Qs_gmean g : forall m j x, Qs j m g x = gmean (0, 0) l m (fun y => g (fun i => if (i <? j)%nat then x i else if (i <? j + m)%nat then y (i - j)%nat else x i)).
Proof.
  induction m as [|m IH]; intros j x; cbn [Qs gmean].
  - f_equal. apply functional_extensionality. intros i. rewrite Nat.add_0_r. destruct (i <? j)%nat; reflexivity.
  - apply lmean_ext. intros a _. rewrite IH. apply gmean_ext. intros y _. f_equal. apply functional_extensionality. intros i. unfold put.
    destruct (Nat.ltb_spec i (S j)) as [A|A], (Nat.ltb_spec i j) as [B|B]; try lia.
    + replace (i =? j)%nat with false by (symmetry; apply Nat.eqb_neq; lia). reflexivity.
    + assert (i = j) by lia. subst i. rewrite Nat.eqb_refl. replace (j <? j + S m)%nat with true by (symmetry; apply Nat.ltb_lt; lia). rewrite Nat.sub_diag. reflexivity.
    + replace (i =? j)%nat with false by (symmetry; apply Nat.eqb_neq; lia). replace (S j + m)%nat with (j + S m)%nat by lia. destruct (Nat.ltb_spec i (j + S m)) as [C|C]; [|reflexivity].
      replace (i - j)%nat with (S (i - S j)) by lia. reflexivity.
Qed.
Let del := (kap / INR n) ^ n.
Let mean g := gmean (0, 0) l n g.
Lemma minor g : dep g -> (forall x, inside x -> 0 <= g x) -> forall x, inside x -> del * mean g <= it n g x.
Proof.
  intros Hd Hg x Hx. pose proof (it_minor g Hg n 0%nat ltac:(lia) x Hx) as Q. rewrite Qs_gmean in Q. unfold mean, del.
  rewrite (gmean_ext (0, 0) l n g (fun y => g (fun i => if (i <? 0)%nat then x i else if (i <? 0 + n)%nat then y (i - 0)%nat else x i))); [exact Q|].
  intros y _. apply Hd. intros i Hi. change (i <? 0)%nat with false. cbv iota. change (0 + n)%nat with n. replace (i <? n)%nat with true by (symmetry; apply Nat.ltb_lt; exact Hi). rewrite Nat.sub_0_r. reflexivity.
Qed.
Lemma mean_lin g k q : mean (fun x => k + q * g x) = k + q * mean g.
Proof. unfold mean. rewrite gmean_plus, gmean_const, gmean_scale by exact ln. reflexivity. Qed.
Lemma dep_lin g k q : dep g -> dep (fun x => k + q * g x).
Proof. intros Hg x y E. rewrite (Hg x y E). reflexivity. Qed.
Lemma it_aff m k q g : it m (fun x => k + q * g x) = fun x => k + q * it m g x.
Proof. rewrite (it_lin m q (fun _ => k) g), it_const. reflexivity. Qed.
Lemma contract g lo hi : dep g -> (forall x, inside x -> lo <= g x <= hi) ->
  exists lo' hi', (forall x, inside x -> lo' <= it n g x <= hi') /\ hi' - lo' <= (1 - del) * (hi - lo).
Proof.
  intros Hd Hg. exists (lo + del * (mean g - lo)), (hi - del * (hi - mean g)). split; [|lra]. intros x Hx.
  pose proof (minor (fun x => - lo + 1 * g x) (dep_lin g (- lo) 1 Hd) ltac:(intros y Hy; pose proof (Hg y Hy); lra) x Hx) as A.
  pose proof (minor (fun x => hi + (-1) * g x) (dep_lin g hi (-1) Hd) ltac:(intros y Hy; pose proof (Hg y Hy); lra) x Hx) as B.
  rewrite mean_lin, it_aff in A, B. lra.
Qed.
Lemma del_le1 : del <= 1.
Proof.
  assert (J0 : (0 < n)%nat) by lia. assert (In0 : 1 <= INR n) by (change 1 with (INR 1); apply le_INR; lia).
  assert (I0 : inside (fun _ => (0, 0))) by (intros i _; cbn; lra). assert (Ea : exists a, In a l) by exact (not_nil_in l ln). destruct Ea as [a Ia].
  pose proof (Hk 0%nat _ a J0 I0 Ia) as Q. pose proof (punit 0 (fun _ => (0, 0)) a).
  unfold del. rewrite <- (pow1 n). apply pow_incr. split; [apply Rmult_le_pos; [exact kap0|left; apply Rinv_0_lt_compat; lra]|].
  apply Rmult_le_reg_r with (INR n); [lra|]. unfold Rdiv. rewrite Rmult_assoc, Rinv_l by lra. lra.
Qed.
Lemma mixing g B m : dep g -> (forall x, inside x -> Rabs (g x) <= B) -> forall x, inside x -> Rabs (it (m * n) g x - avg g) <= 2 * B * (1 - del) ^ m.
Proof.
  intros Hd HB. 
  assert (K : exists lo hi, (forall x, inside x -> lo <= it (m * n) g x <= hi) /\ hi - lo <= 2 * B * (1 - del) ^ m).
  { induction m as [|m (lo & hi & A & D)]; cbn [Nat.mul pow].
    - exists (- B), B. split; [|lra]. intros x Hx. cbn [it]. pose proof (HB x Hx) as Q. pose proof (Rle_abs (g x)). pose proof (Rle_abs (- g x)) as Q2. rewrite Rabs_Ropp in Q2. lra.
    - destruct (contract (it (m * n) g) lo hi (it_dep _ g Hd) A) as (lo' & hi' & A' & D'). exists lo', hi'. split; [intros x Hx; rewrite it_add; apply A', Hx|].
      eapply Rle_trans; [exact D'|]. pose proof del_le1. replace (2 * B * ((1 - del) * (1 - del) ^ m)) with ((1 - del) * (2 * B * (1 - del) ^ m)) by ring. apply Rmult_le_compat_l; lra. }
  destruct K as (lo & hi & A & D). intros x Hx. pose proof (A x Hx). pose proof (avg_between _ lo hi A) as Q. rewrite avg_it in Q. apply Rabs_le. lra.
Qed.

(** the deciding number from the grid *)
Lemma expected_it (g : chain (num ERNum) -> R) B : (forall x, inside x -> Rabs (g (fin (at_ x))) <= B) -> forall k x, inside x ->
  Rabs (expected N n f k g (fin (at_ x)) - it k (fun x => g (fin (at_ x))) x) <= INR k * B / INR N.
Proof.
  intros HB. assert (B0 : 0 <= B) by (eapply Rle_trans; [apply Rabs_pos|apply (HB (fun _ => (0, 0))); intros i _; cbn; lra]).
  assert (P1 : 1 <= INR N) by (change 1 with (INR 1); apply le_INR; exact HN).
  induction k as [|k IH]; intros x Hx.
  - cbn [expected it]. rewrite Rminus_diag_eq, Rabs_R0 by reflexivity. cbn. unfold Rdiv. rewrite !Rmult_0_l. lra.
  - pose proof (expected_bound n s c H f W M n1 N g B HN HB k) as EB.
    assert (A : Rabs (expected N n f (S k) g (fin (at_ x)) - P (fun x => expected N n f k g (fin (at_ x))) x) <= B / INR N).
    { cbn [expected]. unfold P.
      assert (Lm : forall (T : Type) (q : list T) h1 h2, q <> [] -> (forall a, In a q -> Rabs (h1 a - h2 a) <= B / INR N) -> Rabs (lmean q h1 - lmean q h2) <= B / INR N).
      { intros T q h1 h2 Hq Hh. replace (lmean q h1 - lmean q h2) with (lmean q (fun a => h1 a + (-1) * h2 a)) by (rewrite lmean_plus, lmean_scale; ring).
        eapply Rle_trans; [apply lmean_abs|]. rewrite <- (lmean_const q (B / INR N) Hq). apply lmean_le. intros a Ha. replace (h1 a + -1 * h2 a) with (h1 a - h2 a) by ring. apply Hh, Ha. }
      apply Lm; [exact sn|]. intros j Hj. apply in_seq in Hj. apply Lm; [exact ln|]. intros a Ha.
      apply (decide n c H f Hb M n1 N j x a (expected N n f k g) B HN ltac:(lia) Ha); apply EB; [apply (inside_put n N x j a Ha Hx)|exact Hx]. }
    set (G := fun x => g (fin (at_ x))) in *. set (Ek := fun x => expected N n f k g (fin (at_ x))) in *.
    assert (C : Rabs (P Ek x - P (it k G) x) <= INR k * B / INR N).
    { assert (U : forall x, inside x -> it k G x - INR k * B / INR N <= Ek x <= it k G x + INR k * B / INR N).
      { intros y Hy. pose proof (IH y Hy) as Q. fold (Ek y) in Q. pose proof (Rle_abs (Ek y - it k G y)). pose proof (Rle_abs (- (Ek y - it k G y))) as Q2. rewrite Rabs_Ropp in Q2. lra. }
      pose proof (it_le 1 (fun x => - (INR k * B / INR N) + 1 * it k G x) Ek ltac:(intros y Hy; pose proof (U y Hy); lra) x Hx) as U1.
      pose proof (it_le 1 Ek (fun x => INR k * B / INR N + 1 * it k G x) ltac:(intros y Hy; pose proof (U y Hy); lra) x Hx) as U2.
      rewrite it_aff in U1, U2. cbn [it] in U1, U2. apply Rabs_le. lra. }
    cbn [it]. rewrite S_INR. replace ((INR k + 1) * B / INR N) with (INR k * B / INR N + B / INR N) by (unfold Rdiv; ring).
    replace (expected N n f (S k) g (fin (at_ x)) - P (it k G) x) with ((expected N n f (S k) g (fin (at_ x)) - P Ek x) + (P Ek x - P (it k G) x)) by ring.
    eapply Rle_trans; [apply Rabs_triang|]. lra.
Qed.
Lemma converges (g : chain (num ERNum) -> R) B m x : (forall x, inside x -> Rabs (g (fin (at_ x))) <= B) -> inside x ->
  Rabs (expected N n f (m * n) g (fin (at_ x)) - boltzmann_avg N n b H c (fun x => g (fin x))) <= 2 * B * (1 - del) ^ m + INR (m * n) * B / INR N.
Proof.
  intros HB Hx. pose proof (expected_it g B HB (m * n) x Hx) as A.
  assert (D : dep (fun x => g (fin (at_ x)))) by (intros y z E; rewrite (at_dep y z E); reflexivity).
  pose proof (mixing (fun x => g (fin (at_ x))) B m D HB x Hx) as Q. change (boltzmann_avg N n b H c (fun x => g (fin x))) with (avg (fun x => g (fin (at_ x)))).
  set (X := expected _ _ _ _ _ _) in *. set (Y := it _ _ _) in *. set (V := avg _) in *.
  replace (X - V) with ((X - Y) + (Y - V)) by ring. eapply Rle_trans; [apply Rabs_triang|]. lra.
Qed.
End E.
