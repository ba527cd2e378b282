(** Solvable cases: a precessing pair, and a driven pair on which the order is exactly two. *)
From Coq Require Import Reals Lra Lia List ZArith Arith String.
From Verif Require Import Num Monad NumR Spin Config Chain SpecVec SpecChain SpecOrder Samples ProofsSpin ProofsEnergy ProofsDrive ProofsMCR ProofsJet ProofsOrder
  ProofsDyn ProofsDynR ProofsDyn2 ProofsOrder2 ProofsOrder3.
Import ListNotations.
Local Open Scope R_scope.

Definition pair_chain : chain R :=
  mkChain [mk3 1 1 1; mk3 1 1 1] [vzero; vzero] [mk3 1 0 0; mk3 0 1 0] 0 (ex_conf 2 1 Dnone) true.
Definition pair_axis : vec := mk3 2 2 0.
Definition pair_motion (x : R) (i : nat) : vec :=
  rodr (S_ pair_chain i) (nrm pair_axis) (norm pair_axis * x).
Lemma pair_wf : wf 2 1 pair_chain.
Proof. constructor; cbn; auto; lia. Qed.
Lemma pair_unit : unit_spins pair_chain.
Proof. unfold unit_spins; cbn. repeat constructor; unfold unit3, dot; cbn; lra. Qed.
Lemma pair_axis_nz : pair_axis <> vzero.
Proof. intro E. apply (f_equal vx) in E. cbn in E. lra. Qed.
Lemma rodr_parallel m f p : unit3 f -> rodr (vscale m f) f p = vscale m f.
Proof.
  intro U. assert (D : dot (vscale m f) f = m).
  { transitivity (m * dot f f); [unfold dot; cbn; ring|rewrite U; ring]. }
  unfold rodr. rewrite D. apply v3_ext; cbn; ring.
Qed.
Lemma pair_sum x : vscale 2 (vadd (pair_motion x 0) (pair_motion x 1)) = pair_axis.
Proof.
  unfold pair_motion. set (f := nrm pair_axis). set (p := norm pair_axis * x).
  transitivity (rodr pair_axis f p).
  - unfold S_, at_, pair_chain, pair_axis. cbn [spins nth]. apply v3_ext; cbn; unfold dot; cbn; ring.
  - assert (E : pair_axis = vscale (norm pair_axis) f) by (symmetry; apply nrm_back).
    etransitivity; [apply (f_equal (fun v => rodr v f p) E)|]. rewrite rodr_parallel by (apply nrm_unit, pair_axis_nz). symmetry. exact E.
Qed.
Lemma pair_field x i : (i < 2)%nat -> field_at 2 1 pair_chain (pair_motion x) x i = vscale 2 (pair_motion x (1 - i)).
Proof.
  intro Hi. unfold field_at. destruct i as [|[|i]]; [| |lia].
  - unfold J_, B_, h_, at_, pair_chain. cbn -[pair_motion]. generalize (pair_motion x 1). intro. apply v3_ext; cbn; ring.
  - unfold J_, B_, h_, at_, pair_chain. cbn -[pair_motion]. generalize (pair_motion x 0). intro. apply v3_ext; cbn; ring.
Qed.
Lemma pair_solves T : solves 2 1 pair_chain T pair_motion.
Proof.
  split.
  - intros i _. unfold pair_motion. cbn [t pair_chain]. rewrite Rmult_0_r. apply rodr_0.
  - intros x i _ Hi. rewrite pair_field by exact Hi.
    replace (cross (pair_motion x i) (vscale 2 (pair_motion x (1 - i)))) with (cross (pair_motion x i) pair_axis).
    2:{ rewrite <- (pair_sum x). destruct i as [|[|i]]; [| |lia]; cbn [Nat.sub];
        generalize (pair_motion x 0), (pair_motion x 1); intros; apply v3_ext; cbn; ring. }
    pose proof (rodr_velocity (S_ pair_chain i) (nrm pair_axis) (norm pair_axis) x (nrm_unit _ pair_axis_nz)) as H.
    rewrite nrm_back in H. exact H.
Qed.
Lemma pair_field_nz x i : (i < 2)%nat -> field_at 2 1 pair_chain (pair_motion x) x i <> vzero.
Proof.
  intros Hi E. rewrite pair_field in E by exact Hi.
  assert (U : unit3 (pair_motion x (1 - i))).
  { apply rodr_unit; [apply nrm_unit, pair_axis_nz|]. destruct i as [|[|i]]; unfold unit3, dot; cbn; lra. }
  unfold unit3, dot in U. assert (A := f_equal vx E). assert (B := f_equal vy E). assert (C := f_equal vz E). cbn [vscale vx vy vz vzero] in A, B, C.
  assert (vx (pair_motion x (1 - i)) = 0) by lra. assert (vy (pair_motion x (1 - i)) = 0) by lra. assert (vz (pair_motion x (1 - i)) = 0) by lra.
  rewrite H, H0, H1 in U. lra.
Qed.

(** ** Uncoupled spins in an oscillating field *)
Definition swing_conf : config R := set_tau (ex_conf 2 2 Duniaxial) (2 * PI).
Definition swing_chain : chain R :=
  mkChain [vzero; vzero] [vzero; vzero] [mk3 0 1 0; mk3 0 1 0] 0 swing_conf true.
Definition on_circle (a : R) : vec := mk3 0 (cos a) (sin a).
Definition swing_motion (x : R) (i : nat) : vec := on_circle (sin x).
Lemma swing_wf : wf 2 2 swing_chain.
Proof. constructor; cbn; auto; lia. Qed.
Lemma swing_unit : unit_spins swing_chain.
Proof. unfold unit_spins; cbn. repeat constructor; unfold unit3, dot; cbn; lra. Qed.
Lemma swing_drive : drive_ok (vars swing_chain).
Proof. cbn. pose proof PI_RGT_0. lra. Qed.
Lemma swing_B x i : (i < 2)%nat -> B_ swing_chain 2 x i = mk3 (cos x) 0 0.
Proof.
  intro Hi. unfold B_, h_, at_, drive_field. cbn [swing_chain vars static_h].
  replace (2 * PI / tau swing_conf * x) with x.
  2:{ cbn. field. pose proof PI_RGT_0. lra. }
  replace (i <? 2)%nat with true by (symmetry; apply Nat.ltb_lt; exact Hi).
  destruct i as [|[|i]]; [| |lia]; apply v3_ext; cbn; ring.
Qed.
Lemma swing_om S x i : (i < 2)%nat -> om 2 S (J_ swing_chain) (B_ swing_chain 2 x) i = mk3 (- cos x) 0 0.
Proof.
  intro Hi. unfold om. rewrite swing_B by exact Hi. unfold J_, at_.
  assert (Z : forall p, nth p (j_couple swing_chain) vzero = vzero) by (intros [|[|[|p]]]; reflexivity).
  rewrite !Z. apply v3_ext; cbn; ring.
Qed.
Lemma swing_solves T : solves 2 2 swing_chain T swing_motion.
Proof.
  split.
  - intros i Hi. unfold swing_motion, on_circle. cbn [t swing_chain]. rewrite sin_0, cos_0, sin_0.
    destruct i as [|[|i]]; [reflexivity|reflexivity|lia].
  - intros x i _ Hi. rewrite field_at_om, swing_om by exact Hi. unfold swing_motion, on_circle.
    split; [|split]; cbn.
    + replace (cos (sin x) * 0 - sin (sin x) * 0) with 0 by ring. apply derivable_pt_lim_const.
    + replace (sin (sin x) * - cos x - 0 * 0) with (- sin (sin x) * cos x) by ring.
      apply (derivable_pt_lim_comp sin cos); [apply derivable_pt_lim_sin|apply derivable_pt_lim_cos].
    + replace (0 * 0 - cos (sin x) * - cos x) with (cos (sin x) * cos x) by ring.
      apply (derivable_pt_lim_comp sin sin); apply derivable_pt_lim_sin.
Qed.
Lemma circle_unit a : unit3 (on_circle a).
Proof. unfold unit3, dot, on_circle; cbn. pose proof (cs1 a). lra. Qed.
Lemma swing_rotate a c h : 0 < c -> rotate RNum (on_circle a) (mk3 (- c) 0 0) h = on_circle (a + c * h).
Proof.
  intro Hc. rewrite rotate_R_unit_eq by apply circle_unit.
  assert (N : norm (mk3 (- c) 0 0) = c).
  { unfold norm, dot; cbn. replace (- c * - c + 0 * 0 + 0 * 0) with (c * c) by ring. apply sqrt_square. lra. }
  unfold nrm. rewrite N. cbn [vx vy vz]. replace (- c / c) with (-1) by (field; lra). replace (0 / c) with 0 by (field; lra).
  unfold on_circle, rodr. rewrite sin_plus, cos_plus. apply v3_ext; cbn; unfold dot; cbn; ring.
Qed.
Fixpoint swing_angle (dt : R) (k : nat) : R :=
  match k with O => 0 | S k => swing_angle dt k + cos (INR k * dt + dt / 2) * dt end.
Lemma swing_sum dt k : 2 * sin (dt / 2) * swing_angle dt k = dt * sin (INR k * dt).
Proof.
  induction k as [|k IH]; [cbn [INR swing_angle]; rewrite Rmult_0_l, sin_0; ring|].
  cbn [swing_angle]. rewrite Rmult_plus_distr_l, IH, S_INR.
  replace ((INR k + 1) * dt) with ((INR k * dt + dt / 2) + dt / 2) by field.
  replace (INR k * dt) with ((INR k * dt + dt / 2) - dt / 2) at 1 by field.
  rewrite sin_plus, sin_minus. ring.
Qed.
Section Swing.
Context (dt : R) (Hdt : 0 < dt).
Lemma cos_gt0 k : INR (S k) * dt <= 1 -> 0 < cos (INR k * dt + dt / 2).
Proof.
  rewrite S_INR. intro H. assert (0 <= INR k * dt) by (apply Rmult_le_pos; [apply pos_INR|lra]).
  pose proof PI2_1. apply cos_gt_0; lra.
Qed.
Notation pth := (path 2 2 swing_chain dt).
Lemma swing_path k : INR k * dt <= 1 -> forall i, (i < 2)%nat -> pth k i = on_circle (swing_angle dt k).
Proof.
  induction k as [|k IH]; intros Hk i Hi.
  - unfold path, evol; cbn. unfold on_circle. rewrite cos_0, sin_0. destruct i as [|[|i]]; [reflexivity|reflexivity|lia].
  - assert (Hk' : INR k * dt <= 1) by (rewrite S_INR in Hk; lra). specialize (IH Hk').
    assert (C := cos_gt0 k Hk).
    rewrite (path_S 2 2 swing_chain eq_refl) by exact Hi. cbn [t swing_chain]. rewrite Rplus_0_l.
    set (x := INR k * dt + dt / 2) in *. set (U := pth k) in *.
    assert (St : forall b y V p a, (p < 2)%nat -> (p mod 2 = b)%nat -> V p = on_circle a ->
       stageF RNum 2 b (J_ swing_chain) (B_ swing_chain 2 x) y V p = on_circle (a + cos x * y)).
    { intros b y V p a Hp Hb E. rewrite stage_on by (split; assumption). rewrite swing_om by exact Hp. rewrite E. apply swing_rotate. exact C. }
    assert (So : forall b y V p, (p < 2)%nat -> (p mod 2 <> b)%nat ->
       stageF RNum 2 b (J_ swing_chain) (B_ swing_chain 2 x) y V p = V p).
    { intros b y V p Hp Hb. unfold stageF. replace (onsub 2 b p) with false; [reflexivity|]. symmetry. apply Bool.not_true_iff_false. rewrite onsub_spec. tauto. }
    unfold trotF. destruct i as [|[|i]]; [| |lia].
    + rewrite (St 0%nat _ _ _ (swing_angle dt k + cos x * (dt / 2))); auto.
      * cbn [swing_angle]. fold x. f_equal. field.
      * rewrite So by (cbn; lia). apply St; auto.
    + rewrite So by (cbn; lia). cbn [swing_angle]. fold x. apply St; auto.
      rewrite So by (cbn; lia). auto.
Qed.
Lemma swing_runs k : INR k * dt <= 1 ->
  iterM (update ERNum) k (fin (with_dt swing_chain dt)) = Ok (fin (evol 2 2 k (with_dt swing_chain dt))).
Proof.
  intro Hk. apply (iter_ER_ok 2 2 k (with_dt swing_chain dt) (wf_dt 2 2 swing_chain swing_wf dt)); [lia|exact swing_drive|exact swing_unit|].
  intros i Hi. change (nvc 2 2 (evol 2 2 i (with_dt swing_chain dt))). unfold nvc.
  rewrite J_evol, B_evol, vars_evol. unfold mid. rewrite t_evol, vars_evol.
  change (2 * (2 / 2))%nat with 2%nat.
  change (J_ (with_dt swing_chain dt)) with (J_ swing_chain). change (B_ (with_dt swing_chain dt)) with (B_ swing_chain).
  cbn [t swing_chain with_dt set_vars vars c_dt set_dt]. rewrite Rplus_0_l.
  change (c_dt (vars (with_dt swing_chain dt))) with dt.
  assert (C : 0 < cos (INR i * dt + dt / 2)).
  { apply cos_gt0. apply Rle_trans with (INR k * dt); [|exact Hk]. apply Rmult_le_compat_r; [lra|]. apply le_INR. lia. }
  unfold nv. cbv zeta. repeat split; intros p Hp; apply onsub_spec in Hp; rewrite swing_om by apply Hp;
    intro E; apply (f_equal vx) in E; cbn [vx vzero] in E; lra.
Qed.
End Swing.

Lemma abs_inv a b : Rabs a <= b -> - b <= a <= b.
Proof. intro H. unfold Rabs in H. destruct (Rcase_abs a); lra. Qed.
Lemma cos_low x : 0 <= x <= / 4 -> x * x / 4 <= 1 - cos x.
Proof.
  intro H. pose proof (cos_3 x ltac:(lra)) as A. apply abs_inv in A.
  assert (B : x ^ 3 <= / 4 * (x * x)). { replace (x ^ 3) with (x * (x * x)) by ring. apply Rmult_le_compat_r; [apply Rle_0_sqr|lra]. }
  lra.
Qed.
Lemma sin_low x : 0 <= x <= / 4 -> x ^ 3 / 12 <= x - sin x.
Proof.
  intro H. destruct (Req_dec x 0) as [->|N]; [rewrite sin_0; lra|].
  set (g := fun x => x - sin x - x ^ 3 * / 12).
  destruct (MVT_cor2 g (fun x => 1 - cos x - (INR 3 * x ^ 2 * / 12 + x ^ 3 * 0)) 0 x) as (y & E & Hy); [lra| |].
  - intros c _. unfold g. apply derivable_pt_lim_minus.
    + apply derivable_pt_lim_minus; [apply derivable_pt_lim_id|apply derivable_pt_lim_sin].
    + apply (derivable_pt_lim_mult (fun x => x ^ 3) (fun _ => / 12)); [apply (derivable_pt_lim_pow c 3)|apply derivable_pt_lim_const].
  - assert (g 0 = 0) by (unfold g; rewrite sin_0; ring). 
    pose proof (cos_low y ltac:(lra)) as L.
    assert (0 <= (1 - cos y - (INR 3 * y ^ 2 * / 12 + y ^ 3 * 0)) * (x - 0)).
    { apply Rmult_le_pos; [|lra]. cbn [INR]. replace (y ^ 2) with (y * y) by ring. lra. }
    assert (0 <= g x) by lra. unfold g in H2. lra.
Qed.
Lemma circle_far a b : 0 <= b - a <= / 4 -> (b - a) / 2 <= norm (vsub (on_circle b) (on_circle a)).
Proof.
  intro H. unfold norm.
  replace (dot (vsub (on_circle b) (on_circle a)) (vsub (on_circle b) (on_circle a))) with (2 * (1 - cos (b - a))).
  2:{ rewrite cos_minus. unfold on_circle, dot; cbn. pose proof (cs1 a). pose proof (cs1 b). lra. }
  rewrite <- (sqrt_square ((b - a) / 2)) by lra. apply sqrt_le_1_alt. pose proof (cos_low (b - a) H).
  assert (0 <= (b - a) * (b - a)) by apply Rle_0_sqr.
  replace ((b - a) / 2 * ((b - a) / 2)) with ((b - a) * (b - a) / 4) by field. lra.
Qed.
Lemma swing_error k : (2 <= k)%nat -> forall sc', iterM (update ERNum) k (fin (with_dt swing_chain (/ INR k))) = Ok (fin sc') ->
  sin 1 / 96 * (/ INR k) ^ 2 <= norm (vsub (S_ sc' 0) (swing_motion 1 0)).
Proof.
  intros Hk sc' Hr. set (dt := / INR k) in *.
  assert (Hk2 : 2 <= INR k) by (apply (le_INR 2); exact Hk).
  assert (Hdt : 0 < dt <= / 2) by (unfold dt; split; [apply Rinv_0_lt_compat; lra|apply Rinv_le_contravar; lra]).
  assert (E1 : INR k * dt = 1) by (unfold dt; field; lra).
  rewrite (runs_path 2 2 swing_chain swing_wf ltac:(lia) swing_drive swing_unit dt k sc' Hr 0%nat).
  rewrite swing_path by (lra || lia). unfold swing_motion.
  pose proof (swing_sum dt k) as E. rewrite E1 in E. set (x := dt / 2) in *.
  assert (Hx : 0 < x <= / 4) by (unfold x; lra).
  pose proof (sin_low x ltac:(lra)) as L. pose proof (sin_3 x ltac:(lra)) as U. apply abs_inv in U.
  assert (x3 : x ^ 3 <= / 16 * x).
  { replace (x ^ 3) with (x * x * x) by ring. apply Rmult_le_compat_r; [lra|].
    replace (/ 16) with (/ 4 * / 4) by field. apply Rmult_le_compat; lra. }
  assert (Hs : 0 < sin x) by lra.
  assert (S1 : 0 < sin 1) by (apply sin_gt_0; pose proof PI2_1; lra).
  assert (S1' : sin 1 <= 1) by (destruct (SIN_bound 1); lra).
  set (a := swing_angle dt k) in *.
  assert (Ea : a = sin 1 * x / sin x).
  { apply (Rmult_eq_reg_l (2 * sin x)); [|lra]. rewrite E. replace dt with (2 * x) by (unfold x; field). field. lra. }
  assert (Ed : a - sin 1 = sin 1 * ((x - sin x) / sin x)) by (rewrite Ea; field; lra).
  assert (L2 : x * x / 12 <= (x - sin x) / sin x).
  { apply (Rmult_le_reg_r (sin x)); [exact Hs|]. replace ((x - sin x) / sin x * sin x) with (x - sin x) by (field; lra).
    apply Rle_trans with (x * x / 12 * x); [|replace (x * x / 12 * x) with (x ^ 3 / 12) by field; exact L].
    apply Rmult_le_compat_l; [|]. { assert (0 <= x * x) by apply Rle_0_sqr. lra. }
    assert (0 <= x ^ 3) by (apply pow_le; lra). lra. }
  assert (U2 : (x - sin x) / sin x <= / 4).
  { apply (Rmult_le_reg_r (sin x)); [exact Hs|]. replace ((x - sin x) / sin x * sin x) with (x - sin x) by (field; lra). lra. }
  assert (xx : 0 <= x * x) by apply Rle_0_sqr.
  assert (D1 : sin 1 * (x * x / 12) <= a - sin 1) by (rewrite Ed; apply Rmult_le_compat_l; lra).
  assert (D2 : a - sin 1 <= / 4).
  { rewrite Ed. apply Rle_trans with (1 * / 4); [|lra]. apply Rmult_le_compat; lra. }
  assert (D0 : 0 <= sin 1 * (x * x / 12)) by (apply Rmult_le_pos; lra).
  eapply Rle_trans; [|apply circle_far; lra].
  replace (sin 1 / 96 * dt ^ 2) with (sin 1 * (x * x / 12) / 2) by (replace dt with (2 * x) by (unfold x; field); field). lra.
Qed.
Lemma exactly_two : exists n s sc X, wf n s sc /\ (2 <= n)%nat /\ (n mod 2 = 0)%nat /\ drive_ok (vars sc) /\ unit_spins sc /\
  solves n s sc 1 X /\ exists c, 0 < c /\ forall k, (2 <= k)%nat -> exists sc' i, (i < n)%nat /\
    iterM (update ERNum) k (fin (with_dt sc (/ INR k))) = Ok (fin sc') /\
    c * (/ INR k) ^ 2 <= norm (vsub (S_ sc' i) (X (t sc + 1) i)).
Proof.
  exists 2%nat, 2%nat, swing_chain, swing_motion.
  split; [exact swing_wf|]. split; [lia|]. split; [reflexivity|]. split; [exact swing_drive|]. split; [exact swing_unit|].
  split; [apply swing_solves|].
  exists (sin 1 / 96). split.
  { assert (0 < sin 1) by (apply sin_gt_0; pose proof PI2_1; lra). lra. }
  intros k Hk. assert (Hk2 : 2 <= INR k) by (apply (le_INR 2); exact Hk).
  assert (Hdt : 0 < / INR k) by (apply Rinv_0_lt_compat; lra).
  assert (R0 := swing_runs (/ INR k) Hdt k ltac:(right; field; lra)).
  exists (evol 2 2 k (with_dt swing_chain (/ INR k))), 0%nat. split; [lia|]. split; [exact R0|].
  cbn [t swing_chain]. rewrite Rplus_0_l. apply swing_error; assumption.
Qed.
