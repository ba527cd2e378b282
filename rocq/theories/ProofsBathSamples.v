(** Solvable open chains: an isolated driven pair on which the order is exactly one, and a damped pair. *)
From Coq Require Import Reals Lra Lia List ZArith Arith.
From Verif Require Import Num Monad NumR Spin Config Chain Langevin SpecVec SpecChain SpecMC SpecLang SpecOrder SpecBath Samples ProofsSpin ProofsEnergy ProofsDrive ProofsMCR ProofsJet ProofsOrder
  ProofsDyn ProofsDynR ProofsDyn2 ProofsDyn4 ProofsOrder2 ProofsOrder3 ProofsOrderSamples ProofsLangR ProofsLangE ProofsFirst ProofsBath ProofsBath2.
Import ListNotations.
Local Open Scope R_scope.

Lemma swing_cut i : cutJ 2 (J_ swing_chain) i = vzero.
Proof. unfold cutJ, J_, at_. destruct (i =? 2 - 1)%nat; [reflexivity|]. destruct i as [|[|[|i]]]; reflexivity. Qed.
Lemma swing_lom S x i : (i < 2)%nat -> om 2 S (cutJ 2 (J_ swing_chain)) (B_ swing_chain 2 x) i = mk3 (- cos x) 0 0.
Proof. intro Hi. unfold om. rewrite swing_B by exact Hi. rewrite !swing_cut. apply v3_ext; cbn; ring. Qed.
Lemma swing_bath T : bath_solves 2 2 swing_chain 0 T swing_motion.
Proof.
  split; [exact (proj1 (swing_solves T))|]. intros x i Hx Hi.
  pose proof (proj2 (swing_solves T) x i Hx Hi) as H. rewrite field_at_om, swing_om in H by exact Hi.
  cbv zeta. rewrite open_field_om, swing_lom by (lia || exact Hi).
  destruct ((i =? 0) || (i + 1 =? 2))%nat%bool; [|exact H].
  replace (damped 0 (swing_motion x i) (mk3 (- cos x) 0 0)) with (mk3 (- cos x) 0 0); [exact H|].
  unfold damped. generalize (swing_motion x i). intro. apply v3_ext; cbn; ring.
Qed.

Fixpoint late_angle (dt : R) (k : nat) : R :=
  match k with O => 0 | S k => late_angle dt k + cos (INR k * dt + dt) * dt end.
Lemma late_sum dt k : 2 * sin (dt / 2) * late_angle dt k = dt * (sin (INR k * dt + dt / 2) - sin (dt / 2)).
Proof.
  induction k as [|k IH]; [cbn [INR late_angle]; rewrite Rmult_0_l, Rplus_0_l; ring|].
  cbn [late_angle]. rewrite Rmult_plus_distr_l, IH, S_INR.
  replace ((INR k + 1) * dt + dt / 2) with ((INR k * dt + dt) + dt / 2) by field.
  replace (INR k * dt + dt / 2) with ((INR k * dt + dt) - dt / 2) by field.
  rewrite sin_plus, sin_minus. ring.
Qed.
Section Late.
Context (dt : R) (Hdt : 0 < dt).
Lemma late_cos k : INR (S k) * dt <= 1 -> 0 < cos (INR k * dt + dt).
Proof.
  rewrite S_INR. intro H. assert (0 <= INR k * dt) by (apply Rmult_le_pos; [apply pos_INR|lra]).
  pose proof PI2_1. apply cos_gt_0; lra.
Qed.
Lemma late_angle0 k : INR k * dt <= 1 -> 0 <= late_angle dt k.
Proof.
  induction k as [|k IH]; intro H; [cbn; lra|]. cbn [late_angle]. pose proof (late_cos k H).
  rewrite S_INR in H. specialize (IH ltac:(lra)). assert (0 < cos (INR k * dt + dt) * dt) by (apply Rmult_lt_0_compat; assumption). lra.
Qed.
Notation pth := (lpath 2 2 swing_chain 0 dt).
Lemma late_path k : INR k * dt <= 1 -> forall i, (i < 2)%nat -> pth k i = on_circle (late_angle dt k).
Proof.
  induction k as [|k IH]; intros Hk i Hi.
  - cbn. unfold on_circle. rewrite cos_0, sin_0. destruct i as [|[|i]]; [reflexivity|reflexivity|lia].
  - assert (Hk' : INR k * dt <= 1) by (rewrite S_INR in Hk; lra). specialize (IH Hk').
    assert (C := late_cos k Hk).
    cbn [lpath]. cbn [t swing_chain]. rewrite Rplus_0_l.
    set (x := INR k * dt + dt) in *. set (U := pth k) in *.
    assert (St : forall b y V p a, (p < 2)%nat -> (p mod 2 = b)%nat -> V p = on_circle a ->
       lstR 2 0 vzero vzero b (J_ swing_chain) (B_ swing_chain 2 x) y V p = on_circle (a + cos x * y)).
    { intros b y V p a Hp Hb E. unfold lstR. replace (onsub 2 b p) with true by (symmetry; apply onsub_spec; split; assumption).
      rewrite lom_isolated, swing_lom by exact Hp. rewrite E. apply swing_rotate. exact C. }
    assert (So : forall b y V p, (p < 2)%nat -> (p mod 2 <> b)%nat ->
       lstR 2 0 vzero vzero b (J_ swing_chain) (B_ swing_chain 2 x) y V p = V p).
    { intros b y V p Hp Hb. unfold lstR. replace (onsub 2 b p) with false; [reflexivity|]. symmetry. apply Bool.not_true_iff_false. rewrite onsub_spec. tauto. }
    unfold ltrR. destruct i as [|[|i]]; [| |lia].
    + rewrite (St 0%nat _ _ _ (late_angle dt k + cos x * (dt / 2))); auto.
      * cbn [late_angle]. fold x. f_equal. field.
      * rewrite So by (cbn; lia). apply St; auto.
    + rewrite So by (cbn; lia). cbn [late_angle]. fold x. apply St; auto.
      rewrite So by (cbn; lia). auto.
Qed.
Lemma swing_beta : beta (vars swing_chain) <> 0.
Proof. cbn. lra. Qed.
Lemma late_runs zs : Forall (quiet 0) zs -> INR (length zs) * dt <= 1 -> exists sc', lrun zs (lfin (with_dt swing_chain dt) 0) = Ok (lfin sc' 0).
Proof.
  intros Hq Hk. apply (run_lively 2 2 swing_chain 0 swing_wf); auto using swing_drive, swing_unit, swing_beta.
  - unfold Rdiv. rewrite Rmult_0_l. lra.
  - intros k Hk'. assert (C : 0 < cos (INR k * dt + dt)).
    { apply late_cos. apply Rle_trans with (INR (length zs) * dt); [|exact Hk]. apply Rmult_le_compat_r; [lra|]. apply le_INR. lia. }
    assert (G : forall V, live 2 (J_ swing_chain) (B_ swing_chain 2 (t swing_chain + INR k * dt + dt)) V).
    { intros V p Hp. rewrite swing_lom by exact Hp. cbn [t swing_chain]. rewrite Rplus_0_l.
      intro E; apply (f_equal vx) in E; cbn [vx vzero] in E; lra. }
    unfold lively. cbv zeta. auto.
Qed.
End Late.

Lemma x_cos_sin x : 0 <= x <= 1 -> x * cos x <= sin x.
Proof.
  intro H. destruct (Req_dec x 0) as [->|N]; [rewrite sin_0; lra|].
  destruct (MVT_cor2 (fun x => sin x - x * cos x) (fun x => cos x - (1 * cos x + x * (- sin x))) 0 x) as (y & E & Hy); [lra| |].
  - intros c _. apply derivable_pt_lim_minus; [apply derivable_pt_lim_sin|].
    apply (derivable_pt_lim_mult (fun x => x) cos); [apply derivable_pt_lim_id|apply derivable_pt_lim_cos].
  - rewrite sin_0, Rmult_0_l in E. assert (0 <= sin y) by (apply sin_ge_0; pose proof PI2_1; lra).
    assert (0 <= (cos y - (1 * cos y + y * - sin y)) * (x - 0)).
    { replace (cos y - (1 * cos y + y * - sin y)) with (y * sin y) by ring. apply Rmult_le_pos; [apply Rmult_le_pos|]; lra. }
    lra.
Qed.
Lemma late_error zs sc' g' : (1 <= length zs)%nat -> Forall (quiet 0) zs ->
  lrun zs (lfin (with_dt swing_chain (/ 4 / INR (length zs))) 0) = Ok (lfin sc' g') ->
  (1 - cos (/ 4)) / 4 * (/ 4 / INR (length zs)) <= norm (vsub (S_ sc' 0) (swing_motion (/ 4) 0)).
Proof.
  intros Hl Hq Hr. set (k := length zs) in *. set (dt := / 4 / INR k) in *.
  assert (Hk1 : 1 <= INR k) by (apply (le_INR 1); exact Hl).
  assert (I0 : 0 < / INR k <= 1) by (split; [apply Rinv_0_lt_compat; lra|rewrite <- Rinv_1; apply Rinv_le_contravar; lra]).
  assert (Hdt : 0 < dt <= / 4) by (unfold dt, Rdiv; lra).
  assert (E1 : INR k * dt = / 4) by (unfold dt; field; lra).
  rewrite (path_run 2 2 swing_chain 0 swing_wf ltac:(lia) eq_refl swing_drive dt zs sc' g' Hq Hr 0%nat). fold k.
  rewrite (late_path dt (proj1 Hdt)) by (lra || lia). unfold swing_motion.
  pose proof (late_sum dt k) as E. rewrite E1 in E. set (x := dt / 2) in *.
  assert (Hx : 0 < x <= / 8) by (unfold x; lra). assert (Hx' : 0 <= x <= 1) by lra.
  assert (Hs : 0 < sin x) by (apply sin_gt_0; pose proof PI2_1; lra).
  assert (S1 : 0 < sin (/ 4)) by (apply sin_gt_0; pose proof PI2_1; lra).
  assert (S2 : sin (/ 4) <= / 4) by (left; apply sin_lt_x; lra).
  set (a := late_angle dt k) in *.
  assert (a0 : 0 <= a) by (apply late_angle0; lra).
  assert (D : (1 - cos (/ 4)) * x <= sin (/ 4) - a).
  { apply (Rmult_le_reg_l (sin x)); [exact Hs|].
    assert (E2 : sin x * a = x * (sin (/ 4 + x) - sin x)) by (replace dt with (2 * x) in E by (unfold x; field); lra).
    rewrite Rmult_minus_distr_l, E2, sin_plus. pose proof (x_cos_sin x Hx') as C.
    assert (sin (/ 4) * (x * cos x) <= sin (/ 4) * sin x) by (apply Rmult_le_compat_l; lra). lra. }
  assert (C1 : cos (/ 4) <= 1) by (destruct (COS_bound (/ 4)); assumption).
  assert (D0 : 0 <= (1 - cos (/ 4)) * x) by (apply Rmult_le_pos; lra).
  assert (F := circle_far a (sin (/ 4)) ltac:(lra)).
  assert (Sy : norm (vsub (on_circle a) (on_circle (sin (/ 4)))) = norm (vsub (on_circle (sin (/ 4))) (on_circle a))).
  { unfold norm. f_equal. generalize (on_circle a), (on_circle (sin (/ 4))). intros. unfold dot; cbn. ring. }
  rewrite Sy. eapply Rle_trans; [|exact F].
  replace ((1 - cos (/ 4)) / 4 * dt) with ((1 - cos (/ 4)) * x / 2) by (unfold x; field). lra.
Qed.
Lemma drive_order_one : exists n s sc X, wf n s sc /\ (2 <= n)%nat /\ (n mod 2 = 0)%nat /\ drive_ok (vars sc) /\ unit_spins sc /\
  bath_solves n s sc 0 (/ 4) X /\ exists c, 0 < c /\ forall zs, (1 <= length zs)%nat -> Forall (quiet 0) zs -> exists sc' i, (i < n)%nat /\
    lrun zs (lfin (with_dt sc (/ 4 / INR (length zs))) 0) = Ok (lfin sc' 0) /\
    c * (/ 4 / INR (length zs)) <= norm (vsub (S_ sc' i) (X (t sc + / 4) i)).
Proof.
  exists 2%nat, 2%nat, swing_chain, swing_motion.
  split; [exact swing_wf|]. split; [lia|]. split; [reflexivity|]. split; [exact swing_drive|]. split; [exact swing_unit|].
  split; [apply swing_bath|].
  exists ((1 - cos (/ 4)) / 4). split.
  { pose proof (cos_low (/ 4) ltac:(lra)). lra. }
  intros zs Hl Hq. assert (Hk1 : 1 <= INR (length zs)) by (apply (le_INR 1); exact Hl).
  assert (Hdt : 0 < / 4 / INR (length zs)) by (unfold Rdiv; apply Rmult_lt_0_compat; [lra|apply Rinv_0_lt_compat; lra]).
  destruct (late_runs (/ 4 / INR (length zs)) Hdt zs Hq) as (sc' & Hr).
  { replace (INR (length zs) * (/ 4 / INR (length zs))) with (/ 4) by (field; lra). lra. }
  exists sc', 0%nat. split; [lia|]. split; [exact Hr|].
  cbn [t swing_chain]. rewrite Rplus_0_l. apply (late_error zs sc' 0 Hl Hq Hr).
Qed.

(** ** A damped pair: spins falling towards the field *)
(** 1 / cosh and tanh *)
Definition sech (x : R) : R := 2 / (exp x + exp (- x)).
Definition th (x : R) : R := (exp x - exp (- x)) / (exp x + exp (- x)).
Lemma ch_pos x : 0 < exp x + exp (- x).
Proof. pose proof (exp_pos x). pose proof (exp_pos (- x)). lra. Qed.
Lemma sech_th x : sech x * sech x = 1 - th x * th x.
Proof.
  pose proof (ch_pos x). unfold sech, th.
  assert (E : exp x * exp (- x) = 1) by (rewrite <- exp_plus, Rplus_opp_r; apply exp_0).
  set (a := exp x) in *. set (b := exp (- x)) in *.
  replace (1 - (a - b) / (a + b) * ((a - b) / (a + b))) with (4 * (a * b) / ((a + b) * (a + b))) by (field; lra).
  rewrite E. field. lra.
Qed.
Definition fall_chain (c : R) : chain R :=
  mkChain [vzero; vzero] [mk3 0 0 (-1); mk3 0 0 (-1)] [mk3 (sech c) 0 (th c); mk3 (sech c) 0 (th c)] 0 (ex_conf 2 1 Dnone) true.
Lemma fall_wf c : wf 2 1 (fall_chain c).
Proof. constructor; cbn; auto; lia. Qed.
Lemma fall_unit c : unit_spins (fall_chain c).
Proof. pose proof (sech_th c). unfold unit_spins; cbn [spins fall_chain]. repeat constructor; unfold unit3, dot; cbn [vx vy vz]; lra. Qed.
Lemma fall_drive {c} : drive_ok (vars (fall_chain c)).
Proof. cbn. exact I. Qed.
Definition fall_motion (g c x : R) (i : nat) : vec := mk3 (sech (g * x + c) * cos x) (- (sech (g * x + c) * sin x)) (th (g * x + c)).
Lemma lim_eq f x l l' : l = l' -> derivable_pt_lim f x l -> derivable_pt_lim f x l'.
Proof. intros ->. auto. Qed.
Lemma lin_deriv g c x : derivable_pt_lim (fun x => g * x + c) x g.
Proof.
  assert (L := derivable_pt_lim_scal (fun y => y) g x 1 (derivable_pt_lim_id x)). rewrite Rmult_1_r in L.
  eapply lim_eq; [apply Rplus_0_r|]. apply (derivable_pt_lim_plus (fun x => g * x) (fun _ => c)); [exact L|apply derivable_pt_lim_const].
Qed.
Lemma exp_deriv g c x : derivable_pt_lim (fun x => exp (g * x + c)) x (exp (g * x + c) * g).
Proof. apply (derivable_pt_lim_comp (fun x => g * x + c) exp); [apply lin_deriv|apply derivable_pt_lim_exp]. Qed.
Lemma pt_ext f h x l : (forall y : R, f y = h y) -> derivable_pt_lim f x l -> derivable_pt_lim h x l.
Proof. intros E H eps He. destruct (H eps He) as (d & Hd). exists d. intros k Hk Hkd. rewrite <- !E. apply Hd; assumption. Qed.
Lemma ch_deriv g c x : derivable_pt_lim (fun x => exp (g * x + c) + exp (- (g * x + c))) x (g * (exp (g * x + c) - exp (- (g * x + c)))).
Proof.
  apply (pt_ext (fun x => exp (g * x + c) + exp (- g * x + - c))); [intro y; repeat f_equal; ring|].
  eapply lim_eq; [|apply derivable_pt_lim_plus; apply exp_deriv]. replace (- (g * x + c)) with (- g * x + - c) by ring. ring.
Qed.
Lemma sh_deriv g c x : derivable_pt_lim (fun x => exp (g * x + c) - exp (- (g * x + c))) x (g * (exp (g * x + c) + exp (- (g * x + c)))).
Proof.
  apply (pt_ext (fun x => exp (g * x + c) - exp (- g * x + - c))); [intro y; repeat f_equal; ring|].
  eapply lim_eq; [|apply derivable_pt_lim_minus; apply exp_deriv]. replace (- (g * x + c)) with (- g * x + - c) by ring. ring.
Qed.
Lemma sech_deriv g c x : derivable_pt_lim (fun x => sech (g * x + c)) x (- g * th (g * x + c) * sech (g * x + c)).
Proof.
  pose proof (ch_pos (g * x + c)). unfold sech, th.
  eapply lim_eq; [|apply (derivable_pt_lim_div (fun _ => 2) (fun x => exp (g * x + c) + exp (- (g * x + c)))); [apply derivable_pt_lim_const|apply ch_deriv|lra]].
  cbv beta. unfold Rsqr. field. lra.
Qed.
Lemma th_deriv g c x : derivable_pt_lim (fun x => th (g * x + c)) x (g * (1 - th (g * x + c) * th (g * x + c))).
Proof.
  pose proof (ch_pos (g * x + c)). unfold th.
  eapply lim_eq; [|apply (derivable_pt_lim_div (fun x => exp (g * x + c) - exp (- (g * x + c))) (fun x => exp (g * x + c) + exp (- (g * x + c)))); [apply sh_deriv|apply ch_deriv|lra]].
  cbv beta. unfold Rsqr. field. lra.
Qed.
Lemma fall_om c S x i : (i < 2)%nat -> om 2 S (cutJ 2 (J_ (fall_chain c))) (B_ (fall_chain c) 1 x) i = mk3 0 0 1.
Proof.
  intro Hi. assert (Z : forall p, cutJ 2 (J_ (fall_chain c)) p = vzero).
  { intro p. unfold cutJ, J_, at_. destruct (p =? 2 - 1)%nat; [reflexivity|]. destruct p as [|[|[|p]]]; reflexivity. }
  unfold om. rewrite !Z. destruct i as [|[|i]]; [| |lia]; apply v3_ext; cbn; ring.
Qed.
Lemma fall_solves g c T : bath_solves 2 1 (fall_chain c) g T (fall_motion g c).
Proof.
  split.
  - intros i Hi. unfold fall_motion. cbn [t fall_chain]. rewrite Rmult_0_r, Rplus_0_l, cos_0, sin_0.
    destruct i as [|[|i]]; [| |lia]; apply v3_ext; cbn; ring.
  - intros x i _ Hi. cbv zeta. rewrite open_field_om, fall_om by (lia || exact Hi).
    replace ((i =? 0) || (i + 1 =? 2))%nat%bool with true by (destruct i as [|[|i]]; [reflexivity|reflexivity|lia]).
    assert (Sx := sech_deriv g c x). assert (Tx := th_deriv g c x). pose proof (sech_th (g * x + c)) as I.
    pose proof (cs1 x) as CS.
    unfold fall_motion, damped. set (se := sech (g * x + c)) in *. set (z := th (g * x + c)) in *.
    split; [|split].
    + cbn [vx]. eapply lim_eq; [|apply (derivable_pt_lim_mult (fun x => sech (g * x + c)) cos); [exact Sx|apply derivable_pt_lim_cos]].
      fold se. cbn. ring.
    + cbn [vy]. eapply lim_eq; [|apply derivable_pt_lim_opp; apply (derivable_pt_lim_mult (fun x => sech (g * x + c)) sin); [exact Sx|apply derivable_pt_lim_sin]].
      fold se. cbn. ring.
    + cbn [vz]. eapply lim_eq; [|exact Tx]. rewrite <- I. cbn.
      transitivity (g * (se * se * (sin x * sin x + cos x * cos x))); [|ring].
      replace (sin x * sin x + cos x * cos x) with 1 by (unfold Rsqr in CS; lra). ring.
Qed.
Lemma fall_field c S x i : (i < 2)%nat -> open_field 2 1 (fall_chain c) S x i <> vzero.
Proof. intros Hi. rewrite open_field_om, fall_om by (lia || exact Hi). intro E. apply (f_equal vz) in E. cbn in E. lra. Qed.

(** *** The program's step on this chain is only first order in the time step *)
Lemma exp_3 x : 0 <= x <= 1 -> exp x <= 1 + x + x * x * / 2 + 3 * x ^ 3.
Proof.
  intro H. assert (E0 : forall y, 0 <= y <= 1 -> Rabs (exp y) <= 3 * y ^ 0).
  { intros y Hy. pose proof (exp_pos y). rewrite Rabs_pos_eq by lra. pose proof exp_le_3.
    destruct (Req_dec y 1) as [->|N]; [simpl; lra|]. assert (exp y < exp 1) by (apply exp_increasing; lra). simpl; lra. }
  assert (E1 : forall y, 0 <= y <= 1 -> Rabs (exp y - 1) <= 3 * y ^ 1).
  { intros y Hy. apply (mvt0 (fun x => exp x - 1) (fun x => exp x - 0) y 3 0); try lra.
    - intros. apply derivable_pt_lim_minus; [apply derivable_pt_lim_exp|apply derivable_pt_lim_const].
    - rewrite exp_0. ring.
    - intros z Hz. rewrite Rminus_0_r. apply E0. lra. }
  assert (E2 : forall y, 0 <= y <= 1 -> Rabs (exp y - 1 - y) <= 3 * y ^ 2).
  { intros y Hy. apply (mvt0 (fun x => exp x - 1 - x) (fun x => exp x - 0 - 1) y 3 1); try lra.
    - intros. apply derivable_pt_lim_minus; [|apply derivable_pt_lim_id]. apply derivable_pt_lim_minus; [apply derivable_pt_lim_exp|apply derivable_pt_lim_const].
    - rewrite exp_0. ring.
    - intros z Hz. rewrite Rminus_0_r. apply E1. lra. }
  assert (E3 : Rabs (exp x - 1 - x - x * x * / 2) <= 3 * x ^ 3).
  { apply (mvt0 (fun x => exp x - 1 - x - x * x * / 2) (fun x => exp x - 0 - 1 - x) x 3 2); try lra.
    - intros. apply derivable_pt_lim_minus; [|apply half_sq_deriv]. apply derivable_pt_lim_minus; [|apply derivable_pt_lim_id].
      apply derivable_pt_lim_minus; [apply derivable_pt_lim_exp|apply derivable_pt_lim_const].
    - rewrite exp_0. ring.
    - intros z Hz. rewrite Rminus_0_r. apply E2. lra. }
  apply abs_inv in E3. lra.
Qed.
Lemma fall_turn s d : unit3 s -> let z := vz s in let f := sqrt (2 - z * z) in
  @vz R (rotate RNum s (damped 1 s (mk3 0 0 1)) d) = z + (1 - z * z) * (sin (f * d) / f - (1 - cos (f * d)) * z / (f * f)).
Proof.
  intros Hs z f. rewrite rotate_R_unit_eq by exact Hs. unfold unit3, dot in Hs.
  assert (Hz : z * z <= 1) by (unfold z; pose proof (Rle_0_sqr (vx s)); pose proof (Rle_0_sqr (vy s)); unfold Rsqr in *; lra).
  assert (F : f * f = 2 - z * z) by (apply sqrt_sqrt; lra).
  assert (F1 : 0 < f) by (apply sqrt_lt_R0; lra).
  assert (N : norm (damped 1 s (mk3 0 0 1)) = f).
  { unfold norm, f. f_equal. unfold dot, damped, z. cbn. nra. }
  unfold rodr, nrm. rewrite N. cbn [vz].
  assert (D1 : vz (damped 1 s (mk3 0 0 1)) = 1) by (unfold damped; cbn; ring).
  assert (D2 : dot s (mk3 (vx (damped 1 s (mk3 0 0 1)) / f) (vy (damped 1 s (mk3 0 0 1)) / f) (vz (damped 1 s (mk3 0 0 1)) / f)) = z / f).
  { unfold dot, damped, z. cbn. field. lra. }
  assert (D3 : vz (cross (mk3 (vx (damped 1 s (mk3 0 0 1)) / f) (vy (damped 1 s (mk3 0 0 1)) / f) (vz (damped 1 s (mk3 0 0 1)) / f)) s) = - (1 - z * z) / f).
  { unfold damped. cbn. transitivity (- (vx s * vx s + vy s * vy s) / f); [field; lra|].
    replace (vx s * vx s + vy s * vy s) with (1 - z * z) by (unfold z; lra). reflexivity. }
  rewrite D2, D3, D1. fold z.
  replace (z + (1 - z * z) * (sin (f * d) / f - (1 - cos (f * d)) * z / (f * f)))
    with (z + (1 - z * z) * sin (f * d) / f - (f * f - 1) * (1 - cos (f * d)) * z / (f * f))
    by (rewrite F; field; split; [lra|nra]).
  match goal with |- @eq _ ?a ?b => change (@eq R a b) end. field. lra.
Qed.
(** (1 + z) / (1 - z) grows by exp (2 d) along the motion and by more under the program *)
Lemma fall_gain z f d : 3 / 5 <= z < 1 -> f * f = 2 - z * z -> 0 < f -> 0 < d <= / 1000 ->
  let z' := z + (1 - z * z) * (sin (f * d) / f - (1 - cos (f * d)) * z / (f * f)) in
  z <= z' < 1 /\ (1 + z) / (1 - z) * (exp (2 * d) * (1 + d * d / 4)) <= (1 + z') / (1 - z').
Proof.
  intros Hz Ff F0 Hd z'. set (A := sin (f * d) / f - (1 - cos (f * d)) * z / (f * f)) in *.
  assert (Hf : 1 <= f <= 3 / 2) by nra.
  assert (fd : 0 < f * d) by (apply Rmult_lt_0_compat; lra).
  assert (d3 : 0 < d * d * d <= / 1000 * (d * d)).
  { split; [repeat apply Rmult_lt_0_compat; lra|]. rewrite (Rmult_comm (/ 1000)). apply Rmult_le_compat_l; [apply Rle_0_sqr|lra]. }
  assert (d2 : 0 < d * d <= / 1000 * d).
  { split; [apply Rmult_lt_0_compat; lra|]. apply Rmult_le_compat_r; lra. }
  assert (S3 : d - 2 * (d * d * d) <= sin (f * d) / f <= d).
  { pose proof (sin_3 (f * d) ltac:(lra)) as Q. apply abs_inv in Q. assert (L : sin (f * d) < f * d) by (apply sin_lt_x; exact fd). split.
    - apply Rle_trans with ((f * d - (f * d) ^ 3) / f).
      + replace ((f * d - (f * d) ^ 3) / f) with (d - (f * f) * (d * d * d)) by (field; lra).
        assert ((f * f) * (d * d * d) <= 2 * (d * d * d)) by (apply Rmult_le_compat_r; [lra|rewrite Ff; nra]). lra.
      + apply Rmult_le_compat_r; [left; apply Rinv_0_lt_compat; lra|]. lra.
    - apply Rle_trans with (f * d / f); [|right; field; lra]. apply Rmult_le_compat_r; [left; apply Rinv_0_lt_compat; lra|lra]. }
  assert (C3 : 0 <= (1 - cos (f * d)) * z / (f * f) <= z * (d * d) / 2 + 2 * (d * d * d)).
  { pose proof (cos_3 (f * d) ltac:(lra)) as Q. apply abs_inv in Q. destruct (COS_bound (f * d)) as [_ Q2].
    assert (I : 0 < / (f * f)) by (apply Rinv_0_lt_compat; apply Rmult_lt_0_compat; lra). split.
    - apply Rmult_le_pos; [apply Rmult_le_pos; lra|lra].
    - apply Rle_trans with ((f * d * (f * d) * / 2 + (f * d) ^ 3) * z / (f * f)).
      + apply Rmult_le_compat_r; [lra|]. apply Rmult_le_compat_r; lra.
      + replace ((f * d * (f * d) * / 2 + (f * d) ^ 3) * z / (f * f)) with (z * (d * d) / 2 + (f * z) * (d * d * d)) by (field; lra).
        assert ((f * z) * (d * d * d) <= 2 * (d * d * d)) by (apply Rmult_le_compat_r; [lra|nra]). lra. }
  set (a := d - z * (d * d) / 2 - 4 * (d * d * d)) in *.
  assert (Ha : a <= A <= d) by (unfold a, A; lra).
  assert (zd : 0 <= z * (d * d) <= d * d) by (split; [apply Rmult_le_pos; lra|]; rewrite <- (Rmult_1_l (d * d)) at 2; apply Rmult_le_compat_r; lra).
  assert (a0 : 0 < a) by (unfold a; lra).
  assert (y0 : 0 <= (1 + z) * A <= 2 * d) by (split; [apply Rmult_le_pos; lra|]; apply Rmult_le_compat; lra).
  assert (E1 : 1 - z' = (1 - z) * (1 - (1 + z) * A)) by (unfold z'; ring).
  assert (E2 : 1 + z' = (1 + z) * (1 + (1 - z) * A)) by (unfold z'; ring).
  assert (P1 : 0 < 1 - z') by (rewrite E1; apply Rmult_lt_0_compat; lra).
  split; [split; [|lra]|].
  { unfold z'. assert (0 <= (1 - z * z) * A); [|lra]. apply Rmult_le_pos; [nra|lra]. }
  rewrite E1, E2.
  replace ((1 + z) * (1 + (1 - z) * A) / ((1 - z) * (1 - (1 + z) * A))) with ((1 + z) / (1 - z) * ((1 + (1 - z) * A) / (1 - (1 + z) * A))) by (field; lra).
  apply Rmult_le_compat_l. { apply Rmult_le_pos; [lra|left; apply Rinv_0_lt_compat; lra]. }
  pose proof (exp_3 (2 * d) ltac:(lra)) as X.
  replace (3 * (2 * d) ^ 3) with (24 * (d * d * d)) in X by ring. replace (2 * d * (2 * d) * / 2) with (2 * (d * d)) in X by field.
  assert (X2 : exp (2 * d) <= 2) by lra.
  assert (B1 : exp (2 * d) * (1 + d * d / 4) <= 1 + 2 * d + 2 * (d * d) + 24 * (d * d * d) + d * d / 2).
  { rewrite Rmult_plus_distr_l, Rmult_1_r. assert (exp (2 * d) * (d * d / 4) <= 2 * (d * d / 4)) by (apply Rmult_le_compat_r; lra). lra. }
  assert (aa : d * d - 9 * (d * d * d) <= a * a).
  { assert (d * (d - 2 * (z * (d * d) / 2 + 4 * (d * d * d))) <= a * a).
    { unfold a. set (e := z * (d * d) / 2 + 4 * (d * d * d)). replace (d - z * (d * d) / 2 - 4 * (d * d * d)) with (d - e) by (unfold e; ring).
      pose proof (Rle_0_sqr e). unfold Rsqr in *. lra. }
    assert (d * (z * (d * d)) <= d * (d * d)) by (apply Rmult_le_compat_l; lra).
    assert (d * (d * d * d) <= d * (d * d)) by (apply Rmult_le_compat_l; lra). lra. }
  assert (AA : a * a <= A * A) by (apply Rmult_le_compat; lra).
  assert (zz : (1 + z) * (a * a) <= (1 + z) * (A * A)) by (apply Rmult_le_compat_l; lra).
  assert (za : (1 + z) * (d * d - 9 * (d * d * d)) <= (1 + z) * (a * a)) by (apply Rmult_le_compat_l; lra).
  assert (z3 : z * (d * d * d) <= 1 * (d * d * d)) by (apply Rmult_le_compat_r; lra).
  assert (z2 : 3 / 5 * (d * d) <= z * (d * d)) by (apply Rmult_le_compat_r; lra).
  assert (B2 : 1 + 2 * A + 2 * ((1 + z) * (A * A)) <= (1 + (1 - z) * A) / (1 - (1 + z) * A)).
  { apply (Rmult_le_reg_r (1 - (1 + z) * A)); [lra|].
    replace ((1 + (1 - z) * A) / (1 - (1 + z) * A) * (1 - (1 + z) * A)) with (1 + (1 - z) * A) by (field; lra).
    assert (0 <= 2 * ((1 + z) * A) * ((1 + z) * A) * A) by (repeat apply Rmult_le_pos; lra).
    replace ((1 + 2 * A + 2 * ((1 + z) * (A * A))) * (1 - (1 + z) * A)) with (1 + (1 - z) * A - 2 * ((1 + z) * A) * ((1 + z) * A) * A) by ring. lra. }
  apply Rle_trans with (1 + 2 * A + 2 * ((1 + z) * (A * A))); [|exact B2].
  eapply Rle_trans; [exact B1|]. unfold a in *. lra.
Qed.

Section Fall.
Context (dt : R) (Hdt : 0 < dt <= / 1000).
Notation c0 := (ln 2).
Notation pth := (lpath 2 1 (fall_chain c0) 1 dt).
Lemma exp_ln2 : exp c0 = 2 /\ exp (- c0) = / 2.
Proof. rewrite exp_Ropp, exp_ln by lra. split; reflexivity. Qed.
Lemma fall_start i : (i < 2)%nat -> vz (S_ (fall_chain c0) i) = 3 / 5.
Proof.
  intro Hi. assert (E : th c0 = 3 / 5) by (unfold th; destruct exp_ln2 as [-> ->]; field).
  destruct i as [|[|i]]; [exact E|exact E|lia].
Qed.
Lemma fall_next k : pth (S k) 1%nat = rotate RNum (pth k 1%nat) (damped 1 (pth k 1%nat) (mk3 0 0 1)) dt.
Proof.
  cbn [lpath]. set (U := pth k). set (B := B_ (fall_chain c0) 1 _).
  assert (So : forall y V, lstR 2 1 vzero vzero 0 (J_ (fall_chain c0)) B y V 1%nat = V 1%nat).
  { intros y V. unfold lstR. replace (onsub 2 0 1) with false; [reflexivity|]. symmetry. apply Bool.not_true_iff_false. rewrite onsub_spec. cbn. lia. }
  unfold ltrR. rewrite So. unfold lstR at 1.
  replace (onsub 2 1 1) with true by (symmetry; apply onsub_spec; split; [lia|reflexivity]).
  rewrite So, lom_quiet. cbv zeta. replace (isend 2 1) with true by reflexivity. rewrite So. unfold B. rewrite fall_om by lia. reflexivity.
Qed.
Lemma fall_grow k : 3 / 5 <= vz (pth k 1%nat) < 1 /\
  4 * (exp (2 * (INR k * dt)) * (1 + INR k * (dt * dt / 4))) <= (1 + vz (pth k 1%nat)) / (1 - vz (pth k 1%nat)).
Proof.
  induction k as [|k [Hz IH]].
  - cbn [lpath INR]. rewrite fall_start by lia. rewrite !Rmult_0_l, Rmult_0_r, exp_0. split; lra.
  - rewrite fall_next. assert (Hu := lpath_unit 2 1 (fall_chain c0) 1 (fall_wf c0) (fall_unit c0) dt k 1%nat ltac:(lia)).
    set (v := pth k 1%nat) in *. rewrite (fall_turn v dt Hu). cbv zeta. set (z := vz v) in *.
    assert (F0 : 0 < 2 - z * z) by nra.
    destruct (fall_gain z (sqrt (2 - z * z)) dt Hz (sqrt_sqrt _ (Rlt_le _ _ F0)) (sqrt_lt_R0 _ F0) Hdt) as [G1 G2].
    cbv zeta in G2. split; [lra|]. eapply Rle_trans; [|exact G2].
    set (q := exp (2 * dt) * (1 + dt * dt / 4)) in *.
    assert (q0 : 0 < q). { apply Rmult_lt_0_compat; [apply exp_pos|]. pose proof (Rle_0_sqr dt). unfold Rsqr in *. lra. }
    apply Rle_trans with (4 * (exp (2 * (INR k * dt)) * (1 + INR k * (dt * dt / 4))) * q); [|apply Rmult_le_compat_r; lra].
    unfold q. rewrite S_INR. replace (2 * ((INR k + 1) * dt)) with (2 * (INR k * dt) + 2 * dt) by ring. rewrite exp_plus.
    set (E := exp (2 * (INR k * dt))). set (e := exp (2 * dt)).
    assert (0 < E * e) by (apply Rmult_lt_0_compat; apply exp_pos).
    replace (4 * (E * (1 + INR k * (dt * dt / 4))) * (e * (1 + dt * dt / 4))) with (4 * ((E * e) * ((1 + INR k * (dt * dt / 4)) * (1 + dt * dt / 4)))) by ring.
    apply Rmult_le_compat_l; [lra|]. apply Rmult_le_compat_l; [lra|].
    assert (0 <= INR k * (dt * dt / 4) * (dt * dt / 4)).
    { pose proof (Rle_0_sqr dt). unfold Rsqr in *. repeat apply Rmult_le_pos; try lra. apply pos_INR. }
    lra.
Qed.
Lemma fall_far k : INR k * dt = 1 ->
  let W := 4 * exp 2 in W / 2 / ((W + 1) * (2 * W + 1)) * dt <= vz (pth k 1%nat) - vz (fall_motion 1 c0 1 1).
Proof.
  intros Hk W. destruct (fall_grow k) as [Hz G]. set (z := vz (pth k 1%nat)) in *.
  rewrite Hk, Rmult_1_r in G. replace (INR k * (dt * dt / 4)) with (dt / 4 * (INR k * dt)) in G by field. rewrite Hk, Rmult_1_r in G.
  assert (W4 : 4 < W) by (unfold W; assert (exp 0 < exp 2) by (apply exp_increasing; lra); rewrite exp_0 in *; lra).
  assert (Ey : vz (fall_motion 1 c0 1 1) = 1 - 2 / (W + 1)).
  { unfold fall_motion, th. cbn [vz]. rewrite Rmult_1_l, Ropp_plus_distr, !exp_plus. destruct exp_ln2 as [-> ->]. rewrite exp_Ropp.
    assert (E2 : exp 2 = exp 1 * exp 1) by (rewrite <- exp_plus; f_equal; ring). unfold W in *. rewrite E2 in *.
    pose proof (exp_pos 1). field. split; lra. }
  set (w := (1 + z) / (1 - z)) in *.
  assert (Ez : z = 1 - 2 / (w + 1)) by (unfold w; field; lra).
  rewrite Ey. replace (4 * (exp 2 * (1 + dt / 4))) with (W * (1 + dt / 4)) in G by (unfold W; ring).
  set (w1 := W * (1 + dt / 4)) in *.
  assert (Hw1 : W < w1 <= 2 * W) by (unfold w1; nra).
  assert (I : / (w + 1) <= / (w1 + 1)) by (apply Rinv_le_contravar; lra).
  assert (D : 2 / (W + 1) - 2 / (w1 + 1) = W / 2 / ((W + 1) * (w1 + 1)) * dt) by (assert (0 < W * dt) by (apply Rmult_lt_0_compat; lra); unfold w1; field; repeat split; lra).
  assert (Q : W / 2 / ((W + 1) * (2 * W + 1)) * dt <= W / 2 / ((W + 1) * (w1 + 1)) * dt).
  { apply Rmult_le_compat_r; [lra|]. apply Rmult_le_compat_l; [lra|]. apply Rinv_le_contravar; [apply Rmult_lt_0_compat; lra|].
    apply Rmult_le_compat_l; lra. }
  unfold Rdiv in *. lra.
Qed.
Lemma fall_runs zs : Forall (quiet 1) zs -> exists sc', lrun zs (lfin (with_dt (fall_chain c0) dt) 1) = Ok (lfin sc' 1).
Proof.
  intros Hq. apply (run_lively 2 1 (fall_chain c0) 1 (fall_wf c0)); auto using fall_unit; try lra.
  - apply fall_drive.
  - cbn. lra.
  - cbn. lra.
  - intros k _. assert (G : forall V y, live 2 (J_ (fall_chain c0)) (B_ (fall_chain c0) 1 y) V).
    { intros V y p Hp. rewrite fall_om by exact Hp. intro E; apply (f_equal vz) in E; cbn [vz vzero] in E; lra. }
    unfold lively. cbv zeta. auto.
Qed.
End Fall.
Lemma damped_order_one : exists n s sc g X, wf n s sc /\ (2 <= n)%nat /\ (n mod 2 = 0)%nat /\ undriven (vars sc) /\ unit_spins sc /\ 0 < g /\
  bath_solves n s sc g 1 X /\ exists c m, 0 < c /\ forall zs, (m <= length zs)%nat -> Forall (quiet g) zs -> exists sc' i, (i < n)%nat /\
    lrun zs (lfin (with_dt sc (/ INR (length zs))) g) = Ok (lfin sc' g) /\
    c * / INR (length zs) <= norm (vsub (S_ sc' i) (X (t sc + 1) i)).
Proof.
  exists 2%nat, 1%nat, (fall_chain (ln 2)), 1, (fall_motion 1 (ln 2)).
  split; [apply fall_wf|]. split; [lia|]. split; [reflexivity|]. split; [left; reflexivity|]. split; [apply fall_unit|]. split; [lra|].
  split; [apply fall_solves|].
  set (W := 4 * exp 2). exists (W / 2 / ((W + 1) * (2 * W + 1))), 1000%nat. split.
  { assert (0 < W) by (unfold W; pose proof (exp_pos 2); lra). apply Rmult_lt_0_compat; [lra|].
    apply Rinv_0_lt_compat. apply Rmult_lt_0_compat; lra. }
  intros zs Hl Hq. assert (Hk1 : 1000 <= INR (length zs)) by (replace 1000 with (INR 1000) by (rewrite INR_IZR_INZ; reflexivity); apply le_INR; exact Hl).
  set (dt := / INR (length zs)).
  assert (Hdt : 0 < dt <= / 1000) by (split; [apply Rinv_0_lt_compat; lra|apply Rinv_le_contravar; lra]).
  destruct (fall_runs dt Hdt zs Hq) as (sc' & Hr).
  exists sc', 1%nat. split; [lia|]. split; [exact Hr|].
  rewrite (path_run 2 1 (fall_chain (ln 2)) 1 (fall_wf _) ltac:(lia) eq_refl fall_drive dt zs sc' 1 Hq Hr 1%nat).
  assert (E : INR (length zs) * dt = 1) by (unfold dt; field; lra).
  pose proof (fall_far dt Hdt (length zs) E) as F. cbv zeta in F. fold W in F.
  cbn [t fall_chain]. rewrite Rplus_0_l.
  apply norm_ge_comp. right. right. eapply Rle_trans; [exact F|]. apply Rle_abs.
Qed.
