(** Existence and uniqueness of the motion of spins rotating about a bounded Lipschitz field. *)
From Coq Require Import Reals Lra Lia List ZArith Arith.
From Verif Require Import Num NumR Spin SpecVec SpecChain ProofsSpin ProofsEnergy ProofsDrive ProofsJet ProofsOrder ProofsDyn ProofsDynR ProofsOrder2 ProofsFirst.
Local Open Scope R_scope.

Definition hf (m : nat) : R := (/ 2) ^ m.
Lemma hf_pos m : 0 < hf m.
Proof. apply pow_lt. lra. Qed.
Lemma hf_S m : hf (S m) = hf m / 2.
Proof. unfold hf. cbn [pow]. field. Qed.
Lemma hf_le1 m : hf m <= 1.
Proof. induction m; [unfold hf; cbn; lra|]. rewrite hf_S. pose proof (hf_pos m). lra. Qed.
Lemma hf_small e : 0 < e -> exists m, hf m < e.
Proof.
  intro He. destruct (pow_lt_1_zero (/ 2) ltac:(rewrite Rabs_pos_eq; lra) e He) as (N & H).
  exists N. specialize (H N (le_n N)). rewrite Rabs_pos_eq in H; [exact H|]. left. apply hf_pos.
Qed.
Lemma le_all a b c : (forall m, a <= b + c * hf m) -> a <= b.
Proof.
  intro H. destruct (Rle_lt_dec a b) as [|Hlt]; [assumption|exfalso].
  destruct (Rle_lt_dec c 0) as [Hc|Hc].
  - specialize (H 0%nat). pose proof (hf_pos 0). assert (0 <= - c * hf 0) by (apply Rmult_le_pos; lra). lra.
  - destruct (hf_small ((a - b) / c)) as (m & Hm); [apply Rdiv_lt_0_compat; lra|]. specialize (H m).
    assert (c * hf m < c * ((a - b) / c)) by (apply Rmult_lt_compat_l; assumption).
    replace (c * ((a - b) / c)) with (a - b) in * by (field; lra). lra.
Qed.

Section Geo.
Context (u : nat -> R) (C : R) (Hu : forall m, Rabs (u (S m) - u m) <= C * hf m).
Lemma geo_step m p : Rabs (u (m + p)%nat - u m) <= 2 * C * (hf m - hf (m + p)).
Proof.
  induction p as [|p IH].
  - rewrite Nat.add_0_r. unfold Rminus at 1. rewrite Rplus_opp_r, Rabs_R0. lra.
  - rewrite Nat.add_succ_r. pose proof (Hu (m + p)) as H. rewrite hf_S.
    replace (u (S (m + p)) - u m) with ((u (S (m + p)) - u (m + p)%nat) + (u (m + p)%nat - u m)) by ring.
    eapply Rle_trans; [apply Rabs_triang|]. lra.
Qed.
Lemma geo_C : 0 <= C.
Proof. pose proof (Hu 0) as H. pose proof (Rabs_pos (u 1%nat - u 0%nat)). unfold hf in H. cbn [pow] in H. lra. Qed.
Lemma geo_tail m p : Rabs (u (m + p)%nat - u m) <= 2 * C * hf m.
Proof.
  eapply Rle_trans; [apply geo_step|]. pose proof geo_C. pose proof (hf_pos (m + p)).
  apply Rmult_le_compat_l; lra.
Qed.
Lemma geo_cauchy : Cauchy_crit u.
Proof.
  intros eps He. pose proof geo_C as HC. destruct (hf_small (eps / (4 * C + 1))) as (N & HN); [apply Rdiv_lt_0_compat; lra|].
  exists N. intros a b Ha Hb. unfold R_dist.
  replace a with (N + (a - N))%nat by lia. replace b with (N + (b - N))%nat by lia.
  pose proof (geo_tail N (a - N)) as A. pose proof (geo_tail N (b - N)) as B.
  replace (u (N + (a - N))%nat - u (N + (b - N))%nat) with ((u (N + (a - N))%nat - u N) - (u (N + (b - N))%nat - u N)) by ring.
  eapply Rle_lt_trans; [apply Rabs_triang|]. rewrite Rabs_Ropp.
  assert ((4 * C + 1) * hf N < (4 * C + 1) * (eps / (4 * C + 1))) by (apply Rmult_lt_compat_l; lra).
  replace ((4 * C + 1) * (eps / (4 * C + 1))) with eps in * by (field; lra). pose proof (hf_pos N). lra.
Qed.
Lemma geo_lim l : Un_cv u l -> forall m, Rabs (u m - l) <= 2 * C * hf m.
Proof.
  intros H m. apply le_epsilon. intros eps He. destruct (H eps He) as (N & HN).
  specialize (HN (m + N)%nat ltac:(lia)). unfold R_dist in HN. pose proof (geo_tail m N) as T.
  replace (u m - l) with (- (u (m + N)%nat - u m) + (u (m + N)%nat - l)) by ring.
  eapply Rle_trans; [apply Rabs_triang|]. rewrite Rabs_Ropp. lra.
Qed.
End Geo.

(** Integer part of a non-negative real *)
Definition fl (y : R) : nat := Z.to_nat (Int_part y).
Lemma fl_spec y : 0 <= y -> INR (fl y) <= y < INR (fl y) + 1.
Proof.
  intro Hy. unfold fl. destruct (base_Int_part y) as (A & B).
  assert (0 <= Int_part y)%Z. { assert (- 1 < Int_part y)%Z; [|lia]. apply lt_IZR. lra. }
  rewrite INR_IZR_INZ, Z2Nat.id by assumption. lra.
Qed.
Lemma nat_gap a b : INR a < INR b + 1 -> (a <= b)%nat.
Proof. rewrite <- S_INR. intro H. apply INR_lt in H. lia. Qed.
Lemma fl_mono x y : 0 <= x -> x <= y -> (fl x <= fl y)%nat.
Proof. intros Hx Hy. pose proof (fl_spec x Hx). pose proof (fl_spec y ltac:(lra)). apply nat_gap. lra. Qed.
Lemma fl_double y : 0 <= y -> fl (2 * y) = (2 * fl y)%nat \/ fl (2 * y) = S (2 * fl y).
Proof.
  intro Hy. pose proof (fl_spec y Hy) as A. pose proof (fl_spec (2 * y) ltac:(lra)) as B.
  assert ((2 * fl y <= fl (2 * y))%nat). { apply nat_gap. rewrite mult_INR. cbn [INR]. lra. }
  assert ((fl (2 * y) <= S (2 * fl y))%nat). { apply nat_gap. rewrite S_INR, mult_INR. cbn [INR]. lra. }
  lia.
Qed.
Lemma fl_0 : fl 0 = 0%nat.
Proof. pose proof (fl_spec 0 (Rle_refl 0)) as [H _]. destruct (fl 0) as [|k]; [reflexivity|]. rewrite S_INR in H. pose proof (pos_INR k). lra. Qed.

Lemma vel_of (f : R -> vec) x v d K : 0 < d -> (forall h, Rabs h <= d -> norm (vsub (vsub (f (x + h)) (f x)) (vscale h v)) <= K * (h * h)) ->
  has_velocity f x v.
Proof.
  intros Hd H.
  assert (K0 : 0 <= K).
  { pose proof (H d ltac:(rewrite Rabs_pos_eq; lra)) as Z. pose proof (norm_nonneg (vsub (vsub (f (x + d)) (f x)) (vscale d v))).
    destruct (Rle_lt_dec 0 K) as [|Hk]; [assumption|]. assert (0 < d * d) by (apply Rmult_lt_0_compat; lra).
    assert (0 < - K * (d * d)) by (apply Rmult_lt_0_compat; lra). lra. }
  assert (G : forall (g : R -> R) l, (forall h, Rabs h <= d -> Rabs (g (x + h) - g x - h * l) <= K * (h * h)) -> derivable_pt_lim g x l).
  { intros g l Hg eps He. assert (Hm : 0 < Rmin d (eps / (K + 1))) by (apply Rmin_pos; [lra|apply Rdiv_lt_0_compat; lra]).
    exists (mkposreal _ Hm). intros h Hh Hl. cbn in Hl.
    assert (Hd1 : Rabs h <= d) by (pose proof (Rmin_l d (eps / (K + 1))); lra).
    assert (Hd2 : Rabs h < eps / (K + 1)) by (pose proof (Rmin_r d (eps / (K + 1))); lra).
    specialize (Hg h Hd1). replace ((g (x + h) - g x) / h - l) with ((g (x + h) - g x - h * l) / h) by (field; exact Hh).
    unfold Rdiv. rewrite Rabs_mult, Rabs_inv. pose proof (Rabs_pos_lt h Hh) as Hp.
    apply Rle_lt_trans with (K * (h * h) * / Rabs h).
    { apply Rmult_le_compat_r; [left; apply Rinv_0_lt_compat; exact Hp|exact Hg]. }
    replace (h * h) with (Rabs h * Rabs h) by (rewrite <- Rabs_mult; apply Rabs_pos_eq, Rle_0_sqr). replace (K * (Rabs h * Rabs h) * / Rabs h) with (K * Rabs h) by (field; lra).
    assert (K * Rabs h <= (K + 1) * Rabs h) by lra.
    assert ((K + 1) * Rabs h < (K + 1) * (eps / (K + 1))) by (apply Rmult_lt_compat_l; lra).
    replace ((K + 1) * (eps / (K + 1))) with eps in * by (field; lra). lra. }
  repeat split; apply G; intros h Hh; pose proof (comp_norm _ _ (H h Hh)) as (A & B & C'); cbn in A, B, C'; assumption.
Qed.

Lemma abs_split h d : Rabs h <= d -> - d <= h <= d.
Proof. unfold Rabs. destruct Rcase_abs; lra. Qed.
Lemma norm_swap a b : norm (vsub a b) = norm (vsub b a).
Proof. unfold norm. f_equal. unfold dot. cbn. ring. Qed.
Lemma norm_sub0 a b : norm (vsub a b) <= 0 -> a = b.
Proof. intro H. destruct (comp_norm _ _ H) as (A & B & C). cbn in A, B, C. apply v3_ext; apply Rminus_diag_uniq; [revert A|revert B|revert C]; unfold Rabs; destruct Rcase_abs; cbn in *; lra. Qed.
Lemma norm_close a b : Rabs (norm a - norm b) <= norm (vsub a b).
Proof.
  apply Rabs_le. pose proof (norm_triangle b (vsub a b)) as A. pose proof (norm_triangle a (vsub b a)) as B.
  replace (vadd b (vsub a b)) with a in A by (apply v3_ext; cbn; ring).
  replace (vadd a (vsub b a)) with b in B by (apply v3_ext; cbn; ring). rewrite (norm_swap b a) in B. lra.
Qed.

Section Exist.
Context (n : nat) (G : R -> (nat -> vec) -> nat -> vec) (W L : R).
Notation units S := (forall p, (p < n)%nat -> unit3 (S p)).
Context (W0 : 0 <= W) (L0 : 0 <= L).
Context (HGb : forall r S i, units S -> (i < n)%nat -> norm (G r S i) <= W).
Context (HGs : forall r S S' e i, units S -> units S' -> (forall p, (p < n)%nat -> norm (vsub (S p) (S' p)) <= e) -> (i < n)%nat ->
  norm (vsub (G r S i) (G r S' i)) <= L * e).
Context (HGt : forall r r' S i, units S -> (i < n)%nat -> norm (vsub (G r S i) (G r' S i)) <= L * Rabs (r - r')).

Definition vel (r : R) (S : nat -> vec) (i : nat) : vec := cross (S i) (G r S i).
Definition lipv : R := W + L.
Lemma vel_bound r S i : units S -> (i < n)%nat -> norm (vel r S i) <= W.
Proof. intros HS Hi. unfold vel. eapply Rle_trans; [apply norm_cross_unit; auto|]. apply HGb; assumption. Qed.
Lemma vel_diff r r' S S' e i : units S -> units S' -> (forall p, (p < n)%nat -> norm (vsub (S p) (S' p)) <= e) -> (i < n)%nat ->
  norm (vsub (vel r S i) (vel r' S' i)) <= lipv * e + L * Rabs (r - r').
Proof.
  intros HS HS' He Hi. unfold vel.
  replace (vsub (cross (S i) (G r S i)) (cross (S' i) (G r' S' i))) with
    (vadd (cross (vsub (S i) (S' i)) (G r S i)) (vadd (cross (S' i) (vsub (G r S i) (G r S' i))) (cross (S' i) (vsub (G r S' i) (G r' S' i)))))
    by (apply v3_ext; cbn; ring).
  eapply Rle_trans; [apply norm_triangle|].
  assert (A : norm (cross (vsub (S i) (S' i)) (G r S i)) <= e * W).
  { eapply Rle_trans; [apply norm_cross|]. apply Rmult_le_compat; auto using norm_nonneg. }
  assert (B := norm_triangle (cross (S' i) (vsub (G r S i) (G r S' i))) (cross (S' i) (vsub (G r S' i) (G r' S' i)))).
  assert (C := norm_cross_unit (S' i) (vsub (G r S i) (G r S' i)) (HS' i Hi)).
  assert (D := norm_cross_unit (S' i) (vsub (G r S' i) (G r' S' i)) (HS' i Hi)).
  assert (E := HGs r S S' e i HS HS' He Hi). assert (F := HGt r r' S' i HS' Hi). unfold lipv. lra.
Qed.

(** Explicit path: rotate every spin about its field at the beginning of the step *)
Definition st (r h : R) (S : nat -> vec) (i : nat) : vec := rotate RNum (S i) (G r S i) h.
Lemma st_unit r h S : units S -> units (st r h S).
Proof. intros H p Hp. apply rotate_R_nrm_unit. auto. Qed.
Definition c1 : R := W * W + 2 * W ^ 3.
Lemma c1_0 : 0 <= c1.
Proof. unfold c1. assert (0 <= W * W) by (apply Rmult_le_pos; assumption). assert (0 <= W ^ 3) by (apply pow_le; assumption). lra. Qed.
Lemma st_local r h S i : units S -> (i < n)%nat -> 0 <= h <= 1 -> norm (vsub (st r h S i) (vadd (S i) (vscale h (vel r S i)))) <= c1 * (h * h).
Proof.
  intros HS Hi Hh. assert (Hg := HGb r S i HS Hi). unfold st, vel.
  assert (Z1 : norm (vsub (S i) (S i)) <= h * 0) by (rewrite vsub_self; lra).
  assert (Z2 : norm (vsub (G r S i) (G r S i)) <= h * 0) by (rewrite vsub_self; lra).
  pose proof (turn (S i) (G r S i) (S i) (G r S i) h h 0 0 W (HS i Hi) (HS i Hi) Hg Hg Z1 Z2 ltac:(lra) ltac:(lra)) as T.
  unfold c1. eapply Rle_trans; [exact T|]. lra.
Qed.
Lemma st_move r h S i : units S -> (i < n)%nat -> 0 <= h <= 1 -> norm (vsub (st r h S i) (S i)) <= h * rush W.
Proof. intros HS Hi Hh. apply rotate_step; auto. Qed.

Context (t0 : R) (S0 : nat -> vec) (HS0 : units S0).
Fixpoint walk (h : R) (k : nat) : nat -> vec :=
  match k with O => S0 | S q => st (t0 + INR q * h) h (walk h q) end.
Lemma walk_unit h k : units (walk h k).
Proof. induction k; [exact HS0|]. apply st_unit. exact IHk. Qed.
Lemma walk_move h a k i : 0 <= h <= 1 -> (i < n)%nat -> norm (vsub (walk h (a + k) i) (walk h a i)) <= INR k * h * rush W.
Proof.
  intros Hh Hi. induction k as [|k IH].
  - rewrite Nat.add_0_r, vsub_self. cbn [INR]. lra.
  - rewrite Nat.add_succ_r. cbn [walk]. eapply Rle_trans; [apply (norm_tri3 _ (walk h (a + k) i))|].
    pose proof (st_move (t0 + INR (a + k) * h) h (walk h (a + k)) i (walk_unit h (a + k)) Hi Hh). rewrite S_INR. lra.
Qed.
Definition c2 : R := lipv * rush W + L.
Lemma lipv0 : 0 <= lipv.
Proof. unfold lipv. lra. Qed.
Lemma c2_0 : 0 <= c2.
Proof. unfold c2. assert (0 <= lipv * rush W) by (apply Rmult_le_pos; [apply lipv0|apply rush0; assumption]). lra. Qed.
Lemma walk_drift h a k i : 0 <= h <= 1 -> (i < n)%nat ->
  norm (vsub (vsub (walk h (a + k) i) (walk h a i)) (vscale (INR k * h) (vel (t0 + INR a * h) (walk h a) i))) <=
  c2 * ((INR k * h) * (INR k * h)) + c1 * (INR k * h) * h.
Proof.
  intros Hh Hi. pose proof c2_0 as C2. pose proof c1_0 as C1. induction k as [|k IH].
  - rewrite Nat.add_0_r. cbn [INR].
    replace (vsub (vsub (walk h a i) (walk h a i)) (vscale (0 * h) (vel (t0 + INR a * h) (walk h a) i))) with vzero by (apply v3_ext; cbn; ring).
    rewrite norm_vzero. lra.
  - rewrite Nat.add_succ_r, S_INR. cbn [walk]. set (r := t0 + INR (a + k) * h). set (r0 := t0 + INR a * h) in *.
    set (P := walk h (a + k)) in *. set (P0 := walk h a) in *. set (v := vel r P i). set (v0 := vel r0 P0 i) in *.
    replace (vsub (vsub (st r h P i) (P0 i)) (vscale ((INR k + 1) * h) v0)) with
      (vadd (vsub (st r h P i) (vadd (P i) (vscale h v))) (vadd (vscale h (vsub v v0)) (vsub (vsub (P i) (P0 i)) (vscale (INR k * h) v0))))
      by (apply v3_ext; cbn; ring).
    eapply Rle_trans; [apply norm_triangle|].
    assert (A := st_local r h P i (walk_unit h (a + k)) Hi Hh). fold v in A.
    assert (B := norm_triangle (vscale h (vsub v v0)) (vsub (vsub (P i) (P0 i)) (vscale (INR k * h) v0))).
    rewrite norm_vscale, Rabs_pos_eq in B by lra. pose proof (pos_INR k) as k0. assert (kh : 0 <= INR k * h) by (apply Rmult_le_pos; lra).
    assert (C : norm (vsub v v0) <= c2 * (INR k * h)).
    { eapply Rle_trans; [apply (vel_diff r r0 P P0 (INR k * h * rush W) i (walk_unit h (a + k)) (walk_unit h a))|].
      - intros p Hp. apply walk_move; assumption.
      - exact Hi.
      - unfold r, r0. rewrite plus_INR. replace (t0 + (INR a + INR k) * h - (t0 + INR a * h)) with (INR k * h) by ring.
        rewrite Rabs_pos_eq by exact kh. unfold c2. lra. }
    assert (D : h * norm (vsub v v0) <= h * (c2 * (INR k * h))) by (apply Rmult_le_compat_l; lra).
    assert (E : 0 <= c2 * (h * (INR k * h))) by (apply Rmult_le_pos; [exact C2|apply Rmult_le_pos; lra]).
    assert (F : 0 <= c2 * (h * h)) by (apply Rmult_le_pos; [exact C2|apply Rle_0_sqr]). lra.
Qed.

(** Halving the step *)
Definition c3 : R := 2 * c1 + c2.
Lemma c3_0 : 0 <= c3.
Proof. unfold c3. pose proof c1_0. pose proof c2_0. lra. Qed.
Lemma walk_halve h k i : 0 <= h <= 1 -> (i < n)%nat ->
  norm (vsub (walk h k i) (walk (h / 2) (2 * k) i)) <= INR k * c3 * (h * h) * exp (lipv * h) ^ k.
Proof.
  intros Hh. revert i. pose proof c3_0 as C3. pose proof c2_0 as C2. pose proof c1_0 as C1. pose proof lipv0 as M0. set (E := exp (lipv * h)).
  assert (Mh : 0 <= lipv * h) by (apply Rmult_le_pos; lra).
  assert (E1 : 1 + lipv * h <= E).
  { unfold E. destruct (Req_dec (lipv * h) 0) as [Z|Z]; [rewrite Z, exp_0; lra|]. left. apply exp_ineq1. lra. }
  assert (hh : 0 <= h * h) by apply Rle_0_sqr.
  induction k as [|k IH]; intros i Hi.
  - cbn [INR walk Nat.mul]. rewrite vsub_self. lra.
  - replace (2 * S k)%nat with (2 * k + 2)%nat by lia. cbn [walk].
    set (r := t0 + INR k * h). set (P := walk h k) in *. set (P' := walk (h / 2) (2 * k)) in *. set (e := INR k * c3 * (h * h) * E ^ k) in *.
    assert (A := st_local r h P i (walk_unit h k) Hi Hh).
    assert (B := walk_drift (h / 2) (2 * k) 2 i ltac:(lra) Hi). rewrite mult_INR in B. cbn [INR] in B. fold P' in B.
    replace (t0 + (1 + 1) * INR k * (h / 2)) with r in B by (unfold r; field). replace ((1 + 1) * (h / 2)) with h in B by field.
    set (Q := walk (h / 2) (2 * k + 2)) in *.
    replace (vsub (st r h P i) (Q i)) with (vadd (vsub (st r h P i) (vadd (P i) (vscale h (vel r P i))))
      (vadd (vadd (vsub (P i) (P' i)) (vscale h (vsub (vel r P i) (vel r P' i)))) (vscale (-1) (vsub (vsub (Q i) (P' i)) (vscale h (vel r P' i))))))
      by (apply v3_ext; cbn; ring).
    eapply Rle_trans; [apply norm_triangle|].
    assert (T1 := norm_triangle (vadd (vsub (P i) (P' i)) (vscale h (vsub (vel r P i) (vel r P' i)))) (vscale (-1) (vsub (vsub (Q i) (P' i)) (vscale h (vel r P' i))))).
    assert (T2 := norm_triangle (vsub (P i) (P' i)) (vscale h (vsub (vel r P i) (vel r P' i)))).
    rewrite norm_vscale in T1, T2. rewrite (Rabs_pos_eq h) in T2 by lra. replace (Rabs (-1)) with 1 in T1 by (unfold Rabs; destruct Rcase_abs; lra).
    assert (D := vel_diff r r P P' e i (walk_unit h k) (walk_unit (h / 2) (2 * k)) IH Hi).
    rewrite Rminus_diag_eq, Rabs_R0 in D by reflexivity.
    assert (D' : h * norm (vsub (vel r P i) (vel r P' i)) <= h * (lipv * e)) by (apply Rmult_le_compat_l; lra).
    pose proof (IH i Hi) as I0. fold P' in I0.
    assert (Ek : 1 <= E ^ k) by (apply pow_R1_Rle; lra).
    assert (e0 : 0 <= e). { unfold e. apply Rmult_le_pos; [|lra]. apply Rmult_le_pos; [|exact hh]. apply Rmult_le_pos; [apply pos_INR|exact C3]. }
    assert (F : (1 + lipv * h) * e <= E * e) by (apply Rmult_le_compat_r; assumption).
    apply Rle_trans with (E * e + c3 * (h * h)).
    { assert (0 <= c1 * (h * h)) by (apply Rmult_le_pos; assumption). unfold c3. lra. }
    rewrite S_INR. replace ((INR k + 1) * c3 * (h * h) * E ^ S k) with (E * e + c3 * (h * h) * E ^ S k) by (unfold e; simpl; ring).
    apply Rplus_le_compat_l. rewrite <- (Rmult_1_r (c3 * (h * h))) at 1. apply Rmult_le_compat_l; [apply Rmult_le_pos; assumption|].
    apply pow_R1_Rle. lra.
Qed.

Context (Tb : R) (HTb : 0 <= Tb).
Definition c4 : R := Tb * c3 * exp (lipv * Tb).
Lemma c4_0 : 0 <= c4.
Proof. unfold c4. apply Rmult_le_pos; [apply Rmult_le_pos; [exact HTb|apply c3_0]|left; apply exp_pos]. Qed.
Lemma walk_fine h k i : 0 <= h <= 1 -> (i < n)%nat -> INR k * h <= Tb -> norm (vsub (walk h k i) (walk (h / 2) (2 * k) i)) <= c4 * h.
Proof.
  intros Hh Hi Hk. eapply Rle_trans; [apply walk_halve; assumption|]. pose proof lipv0 as M0. pose proof c3_0 as C3. pose proof (pos_INR k) as k0.
  assert (kh : 0 <= INR k * h) by (apply Rmult_le_pos; lra).
  replace (exp (lipv * h) ^ k) with (exp (lipv * (INR k * h))).
  2:{ clear. induction k; [cbn [INR pow]; rewrite Rmult_0_l, Rmult_0_r; apply exp_0|].
      change (exp (lipv * h) ^ S k) with (exp (lipv * h) * exp (lipv * h) ^ k). rewrite <- IHk, <- exp_plus, S_INR. f_equal. ring. }
  assert (Ex : exp (lipv * (INR k * h)) <= exp (lipv * Tb)).
  { assert (Z : lipv * (INR k * h) <= lipv * Tb) by (apply Rmult_le_compat_l; lra).
    destruct Z as [Z|Z]; [left; apply exp_increasing; exact Z|rewrite Z; lra]. }
  replace (INR k * c3 * (h * h) * exp (lipv * (INR k * h))) with ((INR k * h) * c3 * exp (lipv * (INR k * h)) * h) by ring.
  unfold c4. apply Rmult_le_compat_r; [lra|]. apply Rmult_le_compat; [apply Rmult_le_pos; lra|left; apply exp_pos| |exact Ex].
  apply Rmult_le_compat_r; lra.
Qed.

(** The limit of the paths with steps 1, 1/2, 1/4, ... *)
Definition cl (x : R) : R := Rmax t0 (Rmin x (t0 + Tb)).
Lemma cl_in x : t0 <= cl x <= t0 + Tb.
Proof. unfold cl. pose proof (Rmax_l t0 (Rmin x (t0 + Tb))). split; [assumption|]. apply Rmax_lub; [lra|apply Rmin_r]. Qed.
Lemma cl_id x : t0 <= x <= t0 + Tb -> cl x = x.
Proof. intro H. unfold cl. rewrite Rmin_left, Rmax_right; lra. Qed.
Definition ix (m : nat) (x : R) : nat := fl ((cl x - t0) / hf m).
Lemma ix_spec m x : INR (ix m x) * hf m <= cl x - t0 < INR (ix m x) * hf m + hf m.
Proof.
  unfold ix. pose proof (hf_pos m) as H. pose proof (cl_in x) as C.
  assert (0 <= (cl x - t0) / hf m). { unfold Rdiv. apply Rmult_le_pos; [lra|]. left. apply Rinv_0_lt_compat, H. }
  destruct (fl_spec _ H0) as (A & B). set (q := INR (fl ((cl x - t0) / hf m))) in *.
  replace (cl x - t0) with ((cl x - t0) / hf m * hf m) by (field; lra). split; [apply Rmult_le_compat_r; lra|].
  replace (q * hf m + hf m) with ((q + 1) * hf m) by ring. apply Rmult_lt_compat_r; lra.
Qed.
Lemma ix_mono m x y : x <= y -> (ix m x <= ix m y)%nat.
Proof.
  intro H. unfold ix. pose proof (hf_pos m). pose proof (cl_in x). assert (0 < / hf m) by (apply Rinv_0_lt_compat; assumption).
  apply fl_mono; [unfold Rdiv; apply Rmult_le_pos; lra|]. apply Rmult_le_compat_r; [lra|]. apply Rplus_le_compat_r.
  unfold cl. apply Rle_max_compat_l. apply Rle_min_compat_r. exact H.
Qed.
Lemma ix_S m x : ix (S m) x = (2 * ix m x)%nat \/ ix (S m) x = Datatypes.S (2 * ix m x).
Proof.
  unfold ix. pose proof (hf_pos m). pose proof (cl_in x). rewrite hf_S.
  replace ((cl x - t0) / (hf m / 2)) with (2 * ((cl x - t0) / hf m)) by (field; lra). apply fl_double.
  unfold Rdiv. apply Rmult_le_pos; [lra|]. left. apply Rinv_0_lt_compat. assumption.
Qed.
Definition app (m : nat) (x : R) (i : nat) : vec := if lt_dec i n then walk (hf m) (ix m x) i else vzero.
Lemma hf_in m : 0 <= hf m <= 1.
Proof. pose proof (hf_pos m). pose proof (hf_le1 m). lra. Qed.
Lemma app_step m x i : norm (vsub (app (S m) x i) (app m x i)) <= (c4 + rush W) * hf m.
Proof.
  pose proof (hf_in m) as Hh. pose proof c4_0 as C4. pose proof (rush0 W W0) as R0.
  unfold app. destruct (lt_dec i n) as [Hi|Hi]; [|rewrite vsub_self; apply Rmult_le_pos; lra].
  pose proof (ix_spec m x) as (A & _). pose proof (cl_in x) as Cx.
  pose proof (walk_fine (hf m) (ix m x) i Hh Hi ltac:(lra)) as F. rewrite norm_swap in F.
  rewrite hf_S. destruct (ix_S m x) as [E|E]; rewrite E.
  - eapply Rle_trans; [exact F|]. apply Rmult_le_compat_r; lra.
  - eapply Rle_trans; [apply (norm_tri3 _ (walk (hf m / 2) (2 * ix m x) i))|].
    pose proof (walk_move (hf m / 2) (2 * ix m x) 1 i ltac:(lra) Hi) as M. rewrite Nat.add_1_r in M. cbn [INR] in M.
    assert (0 <= hf m * rush W) by (apply Rmult_le_pos; lra). lra.
Qed.
Definition c5 : R := c4 + rush W.
Lemma app_comp m x i : comp3 (fun r => Rabs r <= c5 * hf m) (vsub (app (S m) x i) (app m x i)).
Proof. apply comp_norm. apply app_step. Qed.
Lemma app_cx x i : Cauchy_crit (fun m => vx (app m x i)).
Proof. apply (geo_cauchy _ c5). intro m. exact (proj1 (app_comp m x i)). Qed.
Lemma app_cy x i : Cauchy_crit (fun m => vy (app m x i)).
Proof. apply (geo_cauchy _ c5). intro m. exact (proj1 (proj2 (app_comp m x i))). Qed.
Lemma app_cz x i : Cauchy_crit (fun m => vz (app m x i)).
Proof. apply (geo_cauchy _ c5). intro m. exact (proj2 (proj2 (app_comp m x i))). Qed.
Definition lim (x : R) (i : nat) : vec :=
  mk3 (proj1_sig (R_complete _ (app_cx x i))) (proj1_sig (R_complete _ (app_cy x i))) (proj1_sig (R_complete _ (app_cz x i))).
Lemma lim_app m x i : norm (vsub (app m x i) (lim x i)) <= 4 * c5 * hf m.
Proof.
  replace (4 * c5 * hf m) with (2 * (2 * c5 * hf m)) by ring. apply norm_comp. unfold lim. repeat split; cbn.
  - apply (geo_lim (fun m => vx (app m x i)) c5); [intro q; exact (proj1 (app_comp q x i))|]. exact (proj2_sig (R_complete _ (app_cx x i))).
  - apply (geo_lim (fun m => vy (app m x i)) c5); [intro q; exact (proj1 (proj2 (app_comp q x i)))|]. exact (proj2_sig (R_complete _ (app_cy x i))).
  - apply (geo_lim (fun m => vz (app m x i)) c5); [intro q; exact (proj2 (proj2 (app_comp q x i)))|]. exact (proj2_sig (R_complete _ (app_cz x i))).
Qed.
Lemma lim_walk m x i : (i < n)%nat -> norm (vsub (walk (hf m) (ix m x) i) (lim x i)) <= 4 * c5 * hf m.
Proof. intro Hi. pose proof (lim_app m x i) as H. unfold app in H. destruct (lt_dec i n); [exact H|contradiction]. Qed.
Lemma lim_unit x : units (lim x).
Proof.
  intros i Hi.
  assert (H : forall m, Rabs (1 - norm (lim x i)) <= 0 + 4 * c5 * hf m).
  { intro m. rewrite Rplus_0_l. rewrite <- (unit3_norm (walk (hf m) (ix m x) i)) by (apply walk_unit; exact Hi).
    eapply Rle_trans; [apply norm_close|]. apply lim_walk. exact Hi. }
  apply le_all in H. assert (E : norm (lim x i) = 1) by (revert H; unfold Rabs; destruct Rcase_abs; lra).
  unfold norm in E. unfold unit3. rewrite <- (sqrt_sqrt (dot (lim x i) (lim x i))), E; [ring|]. unfold dot. cbn.
  repeat apply Rplus_le_le_0_compat; apply Rle_0_sqr.
Qed.
Lemma c5_0 : 0 <= c5.
Proof. unfold c5. pose proof c4_0. pose proof (rush0 W W0). lra. Qed.

Lemma lim_ahead x y i : t0 <= x -> x <= y -> y <= t0 + Tb -> (i < n)%nat ->
  norm (vsub (vsub (lim y i) (lim x i)) (vscale (y - x) (vel x (lim x) i))) <= c2 * ((y - x) * (y - x)).
Proof.
  intros Hx Hxy Hy Hi. set (d := y - x). pose proof c5_0 as C5. pose proof c2_0 as C2. pose proof c1_0 as C1. pose proof lipv0 as M0.
  apply (le_all _ _ (c2 * (2 * Tb + 1) + c1 * (Tb + 1) + W + (Tb + 1) * (lipv * (4 * c5) + L) + 8 * c5)). intro m.
  pose proof (hf_in m) as Hh. set (h := hf m) in *.
  pose proof (ix_spec m x) as A. pose proof (ix_spec m y) as B. rewrite cl_id in A, B by lra. fold h in A, B.
  pose proof (ix_mono m x y Hxy) as Mo. set (a := ix m x) in *. set (k := (ix m y - a)%nat). assert (Ek : ix m y = (a + k)%nat) by (unfold k; lia).
  rewrite Ek, plus_INR in B. set (P := walk h a). set (Q := walk h (a + k)).
  assert (Px : forall p, (p < n)%nat -> norm (vsub (P p) (lim x p)) <= 4 * c5 * h) by (intros p Hp; apply (lim_walk m x p Hp)).
  assert (Qy : norm (vsub (Q i) (lim y i)) <= 4 * c5 * h). { unfold Q. rewrite <- Ek. apply (lim_walk m y i Hi). }
  assert (D := walk_drift h a k i Hh Hi). fold P Q in D. set (r := t0 + INR a * h) in *. set (kh := INR k * h) in *.
  assert (kh0 : 0 <= kh) by (apply Rmult_le_pos; [apply pos_INR|lra]).
  assert (Kd : - h <= kh - d <= h) by (unfold kh, d; lra). assert (d0 : 0 <= d <= Tb) by (unfold d; lra).
  set (v := vel r P i) in *. set (w := vel x (lim x) i).
  assert (Vw : norm (vsub v w) <= (lipv * (4 * c5) + L) * h).
  { eapply Rle_trans; [apply (vel_diff r x P (lim x) (4 * c5 * h) i (walk_unit h a) (lim_unit x) Px Hi)|].
    assert (Rabs (r - x) <= h) by (apply Rabs_le; unfold r; lra). assert (L * Rabs (r - x) <= L * h) by (apply Rmult_le_compat_l; assumption). lra. }
  replace (vsub (vsub (lim y i) (lim x i)) (vscale d w)) with
    (vadd (vadd (vsub (vsub (Q i) (P i)) (vscale kh v)) (vadd (vscale kh (vsub v w)) (vscale (kh - d) w)))
          (vadd (vsub (P i) (lim x i)) (vsub (lim y i) (Q i)))) by (apply v3_ext; cbn; ring).
  assert (T1 := norm_triangle (vadd (vsub (vsub (Q i) (P i)) (vscale kh v)) (vadd (vscale kh (vsub v w)) (vscale (kh - d) w)))
          (vadd (vsub (P i) (lim x i)) (vsub (lim y i) (Q i)))).
  assert (T2 := norm_triangle (vsub (vsub (Q i) (P i)) (vscale kh v)) (vadd (vscale kh (vsub v w)) (vscale (kh - d) w))).
  assert (T3 := norm_triangle (vscale kh (vsub v w)) (vscale (kh - d) w)).
  assert (T4 := norm_triangle (vsub (P i) (lim x i)) (vsub (lim y i) (Q i))).
  rewrite !norm_vscale in T3. rewrite (Rabs_pos_eq kh kh0) in T3. rewrite (norm_swap (lim y i) (Q i)) in T4. pose proof (Px i Hi) as Pxi.
  assert (N1 : kh * norm (vsub v w) <= (Tb + 1) * ((lipv * (4 * c5) + L) * h)) by (apply Rmult_le_compat; auto using norm_nonneg; lra).
  assert (N2 : Rabs (kh - d) * norm w <= h * W). { apply Rmult_le_compat; auto using norm_nonneg, Rabs_pos. apply Rabs_le; lra. apply vel_bound; [apply lim_unit|exact Hi]. }
  assert (N3 : c1 * kh * h <= c1 * (Tb + 1) * h) by (apply Rmult_le_compat_r; [lra|]; apply Rmult_le_compat_l; lra).
  assert (N4 : c2 * (kh * kh) <= c2 * (d * d + (2 * Tb + 1) * h)).
  { apply Rmult_le_compat_l; [exact C2|]. apply Rle_trans with ((d + h) * (d + h)); [apply Rmult_le_compat; lra|].
    assert (h * h <= 1 * h) by (apply Rmult_le_compat_r; lra). assert (d * h <= Tb * h) by (apply Rmult_le_compat_r; lra). lra. }
  eapply Rle_trans; [exact T1|]. lra.
Qed.
Definition c6 : R := c2 + lipv * (W + c2 * Tb) + L.
Lemma lim_back x y i : t0 <= x -> x <= y -> y <= t0 + Tb -> (i < n)%nat ->
  norm (vsub (vsub (lim x i) (lim y i)) (vscale (x - y) (vel y (lim y) i))) <= c6 * ((y - x) * (y - x)).
Proof.
  intros Hx Hxy Hy Hi. set (d := y - x). assert (d0 : 0 <= d <= Tb) by (unfold d; lra). pose proof c2_0 as C2. pose proof lipv0 as M0.
  assert (Mv : forall p, (p < n)%nat -> norm (vsub (lim y p) (lim x p)) <= (W + c2 * Tb) * d).
  { intros p Hp. pose proof (lim_ahead x y p Hx Hxy Hy Hp) as A. fold d in A.
    replace (vsub (lim y p) (lim x p)) with (vadd (vsub (vsub (lim y p) (lim x p)) (vscale d (vel x (lim x) p))) (vscale d (vel x (lim x) p))) by (apply v3_ext; cbn; ring).
    eapply Rle_trans; [apply norm_triangle|]. rewrite norm_vscale, Rabs_pos_eq by lra.
    assert (d * norm (vel x (lim x) p) <= d * W) by (apply Rmult_le_compat_l; [lra|]; apply vel_bound; [apply lim_unit|exact Hp]).
    assert (c2 * (d * d) <= c2 * (Tb * d)) by (apply Rmult_le_compat_l; [exact C2|]; apply Rmult_le_compat_r; lra). lra. }
  assert (Vd := vel_diff y x (lim y) (lim x) _ i (lim_unit y) (lim_unit x) Mv Hi). fold d in Vd. rewrite (Rabs_pos_eq d) in Vd by lra.
  pose proof (lim_ahead x y i Hx Hxy Hy Hi) as A. fold d in A.
  replace (vsub (vsub (lim x i) (lim y i)) (vscale (x - y) (vel y (lim y) i))) with
    (vsub (vscale d (vsub (vel y (lim y) i) (vel x (lim x) i))) (vsub (vsub (lim y i) (lim x i)) (vscale d (vel x (lim x) i)))) by (unfold d; apply v3_ext; cbn; ring).
  eapply Rle_trans; [apply norm_sub_le|]. rewrite norm_vscale, Rabs_pos_eq by lra.
  assert (d * norm (vsub (vel y (lim y) i) (vel x (lim x) i)) <= d * (lipv * ((W + c2 * Tb) * d) + L * d)) by (apply Rmult_le_compat_l; lra).
  unfold c6. lra.
Qed.
Lemma c6_ge : c2 <= c6.
Proof.
  unfold c6. pose proof c2_0. assert (0 <= lipv * (W + c2 * Tb)); [|lra]. apply Rmult_le_pos; [apply lipv0|].
  assert (0 <= c2 * Tb) by (apply Rmult_le_pos; lra). lra.
Qed.
Lemma lim_start i : (i < n)%nat -> lim t0 i = S0 i.
Proof.
  intro Hi. symmetry. apply norm_sub0. apply (le_all _ _ (4 * c5)). intro m. rewrite Rplus_0_l.
  pose proof (lim_walk m t0 i Hi) as H. unfold ix in H. rewrite cl_id in H by lra.
  replace ((t0 - t0) / hf m) with 0 in H by (unfold Rdiv; ring). rewrite fl_0 in H. exact H.
Qed.

Definition sol (x : R) : nat -> vec :=
  if Rlt_dec x t0 then fun i => vadd (lim t0 i) (vscale (x - t0) (vel t0 (lim t0) i)) else lim x.
Lemma sol_start i : (i < n)%nat -> sol t0 i = S0 i.
Proof. intro Hi. unfold sol. destruct (Rlt_dec t0 t0); [lra|]. apply lim_start, Hi. Qed.
Lemma sol_moves x i : t0 <= x < t0 + Tb -> (i < n)%nat -> has_velocity (fun r => sol r i) x (cross (sol x i) (G x (sol x) i)).
Proof.
  intros Hx Hi. change (cross (sol x i) (G x (sol x) i)) with (vel x (sol x) i). pose proof c2_0 as C2. pose proof c6_ge as C6.
  assert (Ex : sol x = lim x) by (unfold sol; destruct (Rlt_dec x t0); [lra|reflexivity]).
  assert (Fw : forall h, 0 <= h -> x + h <= t0 + Tb -> norm (vsub (vsub (sol (x + h) i) (sol x i)) (vscale h (vel x (sol x) i))) <= c6 * (h * h)).
  { intros h Hh Hb. rewrite Ex. unfold sol. destruct (Rlt_dec (x + h) t0); [lra|].
    pose proof (lim_ahead x (x + h) i ltac:(lra) ltac:(lra) Hb Hi) as A. replace (x + h - x) with h in A by ring.
    eapply Rle_trans; [exact A|]. apply Rmult_le_compat_r; [apply Rle_0_sqr|exact C6]. }
  destruct (Req_dec x t0) as [E|E].
  - apply (vel_of _ _ _ Tb c6); [lra|]. intros h Hh. apply abs_split in Hh.
    destruct (Rle_lt_dec 0 h) as [H0|H0]; [apply Fw; lra|].
    rewrite Ex. unfold sol. destruct (Rlt_dec (x + h) t0) as [|N]; [|lra]. subst x.
    replace (t0 + h - t0) with h by ring.
    replace (vsub (vsub (vadd (lim t0 i) (vscale h (vel t0 (lim t0) i))) (lim t0 i)) (vscale h (vel t0 (lim t0) i))) with vzero by (apply v3_ext; cbn; ring).
    rewrite norm_vzero. apply Rmult_le_pos; [lra|apply Rle_0_sqr].
  - apply (vel_of _ _ _ (Rmin (x - t0) (t0 + Tb - x)) c6); [apply Rmin_pos; lra|]. intros h Hh.
    pose proof (Rmin_l (x - t0) (t0 + Tb - x)). pose proof (Rmin_r (x - t0) (t0 + Tb - x)). apply abs_split in Hh.
    destruct (Rle_lt_dec 0 h) as [H1|H1]; [apply Fw; lra|].
    rewrite Ex. unfold sol. destruct (Rlt_dec (x + h) t0) as [|N]; [lra|].
    pose proof (lim_back (x + h) x i ltac:(lra) ltac:(lra) ltac:(lra) Hi) as A. replace (x + h - x) with h in A by ring.
    replace (x - (x + h)) with (- h) in A by ring. replace (- h * - h) with (h * h) in A by ring. exact A.
Qed.
End Exist.

Theorem motion_exists n G W L : 0 <= W -> 0 <= L ->
  (forall r S i, (forall p, (p < n)%nat -> unit3 (S p)) -> (i < n)%nat -> norm (G r S i) <= W) ->
  (forall r S S' e i, (forall p, (p < n)%nat -> unit3 (S p)) -> (forall p, (p < n)%nat -> unit3 (S' p)) ->
     (forall p, (p < n)%nat -> norm (vsub (S p) (S' p)) <= e) -> (i < n)%nat -> norm (vsub (G r S i) (G r S' i)) <= L * e) ->
  (forall r r' S i, (forall p, (p < n)%nat -> unit3 (S p)) -> (i < n)%nat -> norm (vsub (G r S i) (G r' S i)) <= L * Rabs (r - r')) ->
  forall t0 T S0, 0 <= T -> (forall p, (p < n)%nat -> unit3 (S0 p)) ->
  exists X, (forall i, (i < n)%nat -> X t0 i = S0 i) /\
    forall x i, t0 <= x <= t0 + T -> (i < n)%nat -> has_velocity (fun r => X r i) x (cross (X x i) (G x (X x) i)).
Proof.
  intros W0 L0 H1 H2 H3 t0 T S0 HT HS0. assert (HTb : 0 <= T + 1) by lra.
  exists (sol n G W L W0 L0 H1 H2 H3 t0 S0 HS0 (T + 1) HTb). split.
  - intros i Hi. apply sol_start. exact Hi.
  - intros x i Hx Hi. apply sol_moves; [lra|exact Hi].
Qed.

Theorem motion_unique n G W L : 0 <= W -> 0 <= L ->
  (forall r S i, (forall p, (p < n)%nat -> unit3 (S p)) -> (i < n)%nat -> norm (G r S i) <= W) ->
  (forall r S S' e i, (forall p, (p < n)%nat -> unit3 (S p)) -> (forall p, (p < n)%nat -> unit3 (S' p)) ->
     (forall p, (p < n)%nat -> norm (vsub (S p) (S' p)) <= e) -> (i < n)%nat -> norm (vsub (G r S i) (G r S' i)) <= L * e) ->
  (forall r r' S i, (forall p, (p < n)%nat -> unit3 (S p)) -> (i < n)%nat -> norm (vsub (G r S i) (G r' S i)) <= L * Rabs (r - r')) ->
  forall t0 T X Y, (forall p, (p < n)%nat -> unit3 (X t0 p)) -> (forall i, (i < n)%nat -> X t0 i = Y t0 i) ->
  (forall x i, t0 <= x <= t0 + T -> (i < n)%nat -> has_velocity (fun r => X r i) x (cross (X x i) (G x (X x) i))) ->
  (forall x i, t0 <= x <= t0 + T -> (i < n)%nat -> has_velocity (fun r => Y r i) x (cross (Y x i) (G x (Y x) i))) ->
  forall x i, t0 <= x <= t0 + T -> (i < n)%nat -> X x i = Y x i.
Proof.
  intros W0 L0 H1 H2 H3 t0 T X Y U0 E0 HX HY x i Hx Hi.
  assert (V0 : forall p, (p < n)%nat -> unit3 (Y t0 p)) by (intros p Hp; rewrite <- E0 by exact Hp; auto).
  destruct (first_global n G W L W0 L0 H1 H2 H3 t0 (t0 + T) ltac:(lra) X HX U0) as (K & K0 & HK).
  destruct (first_global n G W L W0 L0 H1 H2 H3 t0 (t0 + T) ltac:(lra) Y HY V0) as (K' & K0' & HK').
  apply norm_sub0. set (D := x - t0). destruct (Req_dec D 0) as [Z|Z].
  { replace x with t0 by (unfold D in Z; lra). rewrite E0 by exact Hi. rewrite vsub_self. lra. }
  assert (D0 : 0 < D <= T) by (unfold D in *; lra).
  destruct (archimed D) as (N1 & _). destruct (IZN (up D)) as (q & Hq). { apply le_IZR. lra. }
  rewrite Hq, <- INR_IZR_INZ in N1.
  apply (le_all _ _ ((K + K') * D)). intro m. set (N := (q * 2 ^ m)%nat).
  assert (HN : INR N = INR q * 2 ^ m). { unfold N. rewrite mult_INR, pow_INR. cbn [INR]. f_equal. }
  assert (P2 : 0 < 2 ^ m) by (apply pow_lt; lra). assert (E2 : hf m = / 2 ^ m) by (unfold hf; apply pow_inv).
  assert (N0 : 0 < INR N) by (rewrite HN; apply Rmult_lt_0_compat; lra).
  set (dt := D / INR N). assert (dt0 : 0 < dt) by (apply Rdiv_lt_0_compat; lra). assert (Ndt : INR N * dt = D) by (unfold dt; field; lra).
  assert (P21 : 1 <= 2 ^ m) by (apply pow_R1_Rle; lra).
  assert (q1 : 1 <= INR q). { destruct q; [cbn in N1; lra|]. rewrite S_INR. pose proof (pos_INR q). lra. }
  assert (dh : dt <= D * hf m).
  { unfold dt, Rdiv. apply Rmult_le_compat_l; [lra|]. rewrite HN, E2. apply Rinv_le_contravar; [exact P2|].
    rewrite <- (Rmult_1_l (2 ^ m)) at 1. apply Rmult_le_compat_r; lra. }
  assert (dt1 : dt <= 1).
  { apply Rmult_le_reg_l with (INR N); [exact N0|]. rewrite Ndt, Rmult_1_r, HN. assert (INR q * 1 <= INR q * 2 ^ m) by (apply Rmult_le_compat_l; lra). lra. }
  set (U := fix U k := match k with O => X t0 | S j => stp n G (t0 + INR j * dt) dt (U j) end).
  assert (UU : forall k p, (p < n)%nat -> unit3 (U k p)).
  { induction k as [|k IH]; [exact U0|]. apply stp_unit. exact IH. }
  assert (Tm : forall k, Rabs (t0 + INR k * dt - (t0 + INR k * dt)) <= dt) by (intro k; rewrite Rminus_diag_eq, Rabs_R0 by reflexivity; lra).
  assert (A := HK dt (fun k => t0 + INR k * dt) U (conj dt0 dt1) Tm (fun i _ => eq_refl) (fun k i _ => eq_refl) UU N i ltac:(lra) Hi).
  assert (B := HK' dt (fun k => t0 + INR k * dt) U (conj dt0 dt1) Tm E0 (fun k i _ => eq_refl) UU N i ltac:(lra) Hi).
  rewrite Ndt in A, B. replace (t0 + D) with x in A, B by (unfold D; ring).
  eapply Rle_trans; [apply (norm_tri3 _ (U N i))|]. rewrite norm_swap in A.
  assert ((K + K') * dt <= (K + K') * (D * hf m)) by (apply Rmult_le_compat_l; lra). lra.
Qed.
