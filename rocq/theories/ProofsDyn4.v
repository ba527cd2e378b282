(** Chain-level consequences: consistency, strong fields, free spins, locality, odd lengths. *)
From Coq Require Import Reals Lra Lia List ZArith Arith Bool String.
From Verif Require Import Num Monad NumR Spin Config Chain SpecVec SpecChain Samples
  ProofsSpin ProofsChain ProofsEnergy ProofsDrive ProofsNew ProofsDyn ProofsDynR ProofsDyn2 ProofsDyn3.
Import ListNotations.
Local Open Scope R_scope.

(** ** Consistency *)
Lemma lft_mod n p : (p < n)%nat -> lft n p = ((p + (n - 1)) mod n)%nat.
Proof.
  intro H. unfold lft. destruct (Nat.eqb_spec p 0) as [E|E].
  - subst. rewrite Nat.mod_small by lia. lia.
  - replace (p + (n - 1))%nat with ((p - 1) + 1 * n)%nat by lia.
    rewrite Nat.mod_add, Nat.mod_small by lia. reflexivity.
Qed.
Lemma om_local n s sc i : (i < n)%nat -> om n (S_ sc) (J_ sc) (B_ sc s (t sc)) i = local_field n s sc i.
Proof. intro H. unfold om, local_field. rewrite lft_mod, rgt_mod by assumption. reflexivity. Qed.

Lemma drive_cont c x : vcont (fun d => drive_field c (x + d / 2)).
Proof.
  destruct (drive_velocity c x) as (A & B & C).
  assert (E : forall f l, derivable_pt_lim f x l -> continuity_pt (fun d => f (x + d / 2)) 0).
  { intros f l H. apply (continuity_pt_comp (fun d => x + d / 2) f).
    - apply ct_plus; [apply ct_const|]. unfold Rdiv. apply ct_mult; [|apply ct_const].
      apply derivable_continuous_pt, derivable_pt_id.
    - replace (x + 0 / 2) with x by field. eapply dl_cont, H. }
  repeat split; (eapply (E (fun r => _ (drive_field c r))); eassumption).
Qed.

Lemma B_cont sc s p : vcont (fun d => B_ sc s (t sc + d / 2) p).
Proof.
  unfold B_. destruct (p <? s)%nat.
  - apply vcont_add; [apply vcont_const|apply drive_cont].
  - apply vcont_const.
Qed.

Lemma step_curve n s sc d p : (n mod 2 = 0)%nat -> (p < n)%nat ->
  S_ (stepR n s (with_dt sc d)) p = X3 n (J_ sc) (fun d => B_ sc s (t sc + d / 2)) (S_ sc) d p.
Proof.
  intros He Hp. rewrite S_step by assumption. replace (2 * (n / 2))%nat with n by lia. reflexivity.
Qed.

Lemma consistent n s sc : wf n s sc -> (2 <= n)%nat -> (n mod 2 = 0)%nat -> drive_ok (vars sc) -> unit_spins sc ->
  exists C : R -> nat -> vec,
    (forall d sc', update ERNum (fin (with_dt sc d)) = Ok (fin sc') ->
       forall i, (i < n)%nat -> S_ sc' i = C d i) /\
    (forall i, (i < n)%nat -> has_velocity (fun d => C d i) 0 (cross (S_ sc i) (local_field n s sc i))) /\
    ((forall i, (i < n)%nat -> local_field n s sc i <> vzero) ->
     exists del, 0 < del /\ forall d, Rabs d < del -> exists sc', update ERNum (fin (with_dt sc d)) = Ok (fin sc')).
Proof.
  intros W Hn He Hok Hu. pose proof (proj1 (unit_spins_iff n s sc W) Hu) as HU.
  assert (Wd : forall d, wf n s (with_dt sc d)).
  { intro d. destruct W as [w1 w2 w3 w4 w5 w6 w7]. constructor; cbn; auto. }
  set (Bd := fun d => B_ sc s (t sc + d / 2)).
  exists (X3 n (J_ sc) Bd (S_ sc)). split; [|split].
  - intros d sc' H i Hi.
    destruct (fin_step_of n s (with_dt sc d) _ (Wd d) Hn Hok Hu H (finspins_fin sc')) as [E _].
    apply fin_inj in E. subst sc'. apply step_curve; assumption.
  - intros i Hi. rewrite <- om_local by assumption.
    replace (B_ sc s (t sc)) with (Bd 0) by (unfold Bd; f_equal; field).
    apply V3; auto. intros; apply B_cont.
  - intro H. destruct (nv_small n (J_ sc) Bd (fun p _ => B_cont sc s p) (S_ sc) HU He) as (del & Hdel & A).
    { intros p Hp. unfold Bd. replace (t sc + 0 / 2) with (t sc) by field. rewrite om_local by assumption. auto. }
    exists del. split; [assumption|]. intros d Hd. exists (stepR n s (with_dt sc d)).
    apply update_ER; auto. unfold nvc. replace (2 * (n / 2))%nat with n by lia. exact (A d Hd).
Qed.

(** ** Strong fields exclude NaN *)
Lemma strong_om n s sc (S : nat -> vec) Jm x p :
  0 <= Jm ->
  (forall i, (i < n)%nat -> Rabs (vx (J_ sc i)) <= Jm /\ Rabs (vy (J_ sc i)) <= Jm /\ Rabs (vz (J_ sc i)) <= Jm) ->
  (forall i, (i < n)%nat -> 2 * Jm + drive_amp (vars sc) < norm (h_ sc i)) ->
  (forall i, (i < 2 * (n / 2))%nat -> unit3 (S i)) ->
  (p < 2 * (n / 2))%nat -> om (2 * (n / 2)) S (J_ sc) (B_ sc s x) p <> vzero.
Proof.
  intros HJ0 HJ Hh HS Hp E. set (M := (2 * (n / 2))%nat) in *. assert (M <= n)%nat by (unfold M; lia).
  pose proof (lft_lt M p Hp) as L. pose proof (rgt_lt M p Hp) as Rg.
  set (a := vhad (J_ sc (lft M p)) (S (lft M p))). set (b := vhad (J_ sc p) (S (rgt M p))).
  assert (Ea : norm a <= Jm).
  { destruct (HJ (lft M p) ltac:(lia)) as (A1 & A2 & A3).
    pose proof (norm_vhad_le (J_ sc (lft M p)) (S (lft M p)) Jm HJ0 A1 A2 A3) as Q.
    rewrite (unit3_norm (S (lft M p))) in Q by auto. unfold a. lra. }
  assert (Eb : norm b <= Jm).
  { destruct (HJ p ltac:(lia)) as (A1 & A2 & A3).
    pose proof (norm_vhad_le (J_ sc p) (S (rgt M p)) Jm HJ0 A1 A2 A3) as Q.
    rewrite (unit3_norm (S (rgt M p))) in Q by auto. unfold b. lra. }
  assert (EB : B_ sc s x p = vadd a b).
  { unfold om in E. fold a b in E. pose proof (f_equal vx E). pose proof (f_equal vy E). pose proof (f_equal vz E).
    cbn in *. apply v3_ext; cbn; lra. }
  assert (NB : norm (B_ sc s x p) <= 2 * Jm) by (rewrite EB; pose proof (norm_triangle a b); lra).
  assert (Nh : norm (h_ sc p) <= norm (B_ sc s x p) + drive_amp (vars sc)).
  { unfold B_. destruct (p <? s)%nat.
    - set (g := drive_field (vars sc) x).
      replace (h_ sc p) with (vadd (vadd (h_ sc p) g) (vscale (-1) g)) at 1
        by (unfold vadd, vscale; destruct (h_ sc p), g; cbn; f_equal; ring).
      eapply Rle_trans; [apply norm_triangle|]. apply Rplus_le_compat_l.
      replace (norm (vscale (-1) g)) with (norm g) by (unfold norm; f_equal; unfold dot; cbn; ring).
      apply drive_amp_ok.
    - pose proof (amp_nonneg (vars sc)). lra. }
  specialize (Hh p ltac:(lia)). lra.
Qed.

Lemma strong_field n s sc Jm : wf n s sc -> (2 <= n)%nat -> drive_ok (vars sc) -> unit_spins sc -> 0 <= Jm ->
  (forall i, (i < n)%nat -> Rabs (vx (J_ sc i)) <= Jm /\ Rabs (vy (J_ sc i)) <= Jm /\ Rabs (vz (J_ sc i)) <= Jm) ->
  (forall i, (i < n)%nat -> 2 * Jm + drive_amp (vars sc) < norm (h_ sc i)) ->
  forall k, exists sc', iterM (update ERNum) k (fin sc) = Ok (fin sc') /\ unit_spins sc'.
Proof.
  intros W Hn Hok Hu HJ0 HJ Hh k. exists (evol n s k sc). split; [|apply unit_evol; assumption].
  apply iter_ER_ok; auto. intros j _. change (Nat.iter j (stepR n s) sc) with (evol n s j sc).
  pose proof (proj1 (unit_spins_iff n s _ (wf_evol n s j sc W)) (unit_evol n s j sc W Hu)) as HU.
  unfold nvc. rewrite J_evol, B_evol, vars_evol. set (M := (2 * (n / 2))%nat).
  assert (UM : forall i, (i < M)%nat -> unit3 (S_ (evol n s j sc) i)) by (intros; apply HU; unfold M in *; lia).
  unfold nv; cbv zeta. split; [|split]; intros p Hp; apply onsub_spec in Hp; destruct Hp as [Hp _];
    apply (strong_om n s sc) with (Jm := Jm); auto.
  - apply stage_unit. assumption.
  - apply stage_unit. apply stage_unit. assumption.
Qed.

(** ** Free spins *)
Lemma om_free M J B (S : nat -> vec) p : (forall q, (q < M)%nat -> J q = vzero) -> (p < M)%nat ->
  om M S J B p = vscale (-1) (B p).
Proof.
  intros HJ Hp. unfold om. rewrite (HJ p Hp), (HJ _ (lft_lt M p Hp)). apply v3_ext; cbn; ring.
Qed.

Lemma free_trot M J B dt (S : nat -> vec) p : (forall q, (q < M)%nat -> J q = vzero) -> (p < M)%nat ->
  (forall q, (q < M)%nat -> unit3 (S q)) ->
  trotF RNum M J B (dt / 2) dt S p = rotate RNum (S p) (vscale (-1) (B p)) dt.
Proof.
  intros HJ Hp HS. unfold trotF. unfold stageF at 1. destruct (onsub M 0 p) eqn:E0.
  - rewrite omF_R, om_free by assumption.
    unfold stageF at 1. assert (E1 : onsub M 1 p = false).
    { apply onsub_spec in E0. apply not_true_iff_false. rewrite onsub_spec. lia. }
    rewrite E1. unfold stageF. rewrite E0, omF_R, om_free by assumption.
    rewrite rotate_R_add by auto. f_equal. field.
  - unfold stageF at 1. assert (E1 : onsub M 1 p = true).
    { apply not_true_iff_false in E0. rewrite onsub_spec in E0. apply onsub_spec. lia. }
    rewrite E1, omF_R, om_free by assumption. unfold stageF. rewrite E0. reflexivity.
Qed.

Lemma free_nv M J B dt2 dt S : (forall q, (q < M)%nat -> J q = vzero) ->
  (forall q, (q < M)%nat -> B q <> vzero) -> nv M J B dt2 dt S.
Proof.
  intros HJ HB.
  assert (K : forall p X, (p < M)%nat -> om M X J B p <> vzero).
  { intros p X Hp. rewrite om_free by assumption. intro E. apply (HB p Hp).
    pose proof (f_equal vx E). pose proof (f_equal vy E). pose proof (f_equal vz E). cbn in *. apply v3_ext; cbn; lra. }
  unfold nv; cbv zeta. split; [|split]; intros p Hp; apply onsub_spec in Hp; apply K; tauto.
Qed.

Lemma free_update n s sc : wf n s sc -> (2 <= n)%nat -> (n mod 2 = 0)%nat -> drive_ok (vars sc) -> unit_spins sc ->
  (forall i, (i < n)%nat -> J_ sc i = vzero) ->
  (forall i, (i < n)%nat -> B_ sc s (t sc + c_dt (vars sc) / 2) i <> vzero) ->
  exists sc', update ERNum (fin sc) = Ok (fin sc') /\
    forall i, (i < n)%nat ->
      fin3 (S_ sc' i) = rotate ERNum (fin3 (S_ sc i))
        (fin3 (vscale (-1) (B_ sc s (t sc + c_dt (vars sc) / 2) i))) (Some (c_dt (vars sc))).
Proof.
  intros W Hn He Hok Hu HJ HB. pose proof (proj1 (unit_spins_iff n s sc W) Hu) as HU.
  exists (stepR n s sc). split.
  - apply update_ER; auto. unfold nvc. replace (2 * (n / 2))%nat with n by lia. apply free_nv; assumption.
  - intros i Hi. rewrite S_step by assumption. replace (2 * (n / 2))%nat with n by lia.
    rewrite free_trot by assumption. unfold mid. symmetry. apply rotate_ER_R.
    + apply unit3_nonzero. auto.
    + apply vscale_nonzero; [lra|auto].
Qed.

(** ** Locality *)
Lemma local_update (N : NumOps) n s (sc1 sc2 sc1' sc2' : chain (num N)) p r :
  wf n s sc1 -> wf n s sc2 -> (2 <= n)%nat -> (n mod 2 = 0)%nat -> hs_ok (vars sc1) ->
  vars sc1 = vars sc2 -> t sc1 = t sc2 -> (p < n)%nat ->
  r = (if p mod 2 =? 0 then 3%Z else 2%Z)%nat ->
  (forall d, (- r <= d <= r)%Z -> let q := Z.to_nat ((Z.of_nat p + d) mod Z.of_nat n) in
     nth_error (spins sc1) q = nth_error (spins sc2) q) ->
  (forall d, (- r <= d < r)%Z -> let q := Z.to_nat ((Z.of_nat p + d) mod Z.of_nat n) in
     nth_error (j_couple sc1) q = nth_error (j_couple sc2) q) ->
  (forall d, (- r < d < r)%Z -> let q := Z.to_nat ((Z.of_nat p + d) mod Z.of_nat n) in
     nth_error (static_h sc1) q = nth_error (static_h sc2) q) ->
  update N sc1 = Ok sc1' -> update N sc2 = Ok sc2' ->
  nth_error (spins sc1') p = nth_error (spins sc2') p.
Proof.
  intros W1 W2 Hn He Hh Ev Et Hp Hr HS HJ HH H1 H2.
  destruct (update_pure N n s sc1 W1 Hn Hh) as (sp1 & E1 & L1 & A1).
  destruct (update_pure N n s sc2 W2 Hn) as (sp2 & E2 & L2 & A2). { rewrite <- Ev. assumption. }
  rewrite E1 in H1. rewrite E2 in H2. injection H1 as <-. injection H2 as <-. cbn [spins].
  rewrite !(nth_error_nth' _ (z3 N)) by lia. f_equal.
  specialize (A1 p). specialize (A2 p). unfold at3 at 1 in A1. unfold at3 at 1 in A2. rewrite A1, A2.
  replace (2 * (n / 2))%nat with n by lia. rewrite <- Ev, <- Et.
  assert (K : forall l l' : list (v3 (num N)), forall q, nth_error l q = nth_error l' q -> at3 N l q = at3 N l' q).
  { intros l l' q E. unfold at3. destruct (nth_error l q) eqn:F.
    - rewrite (nth_error_nth _ _ _ F). symmetry in E. rewrite (nth_error_nth _ _ _ E). reflexivity.
    - symmetry in E. apply nth_error_None in F, E. rewrite !nth_overflow by assumption. reflexivity. }
  apply trotF_local with (r := r); auto.
  - intros d Hd. apply K, (HS d Hd).
  - intros d Hd. apply K, (HJ d Hd).
  - intros d Hd. unfold fieldF. assert (E := K _ _ _ (HH d Hd)). fold (site n p d) in E. rewrite E. reflexivity.
Qed.

(** ** Odd lengths: energy is not conserved *)
Definition odd_conf : config R :=
  set_dt (set_drive (ex_conf 3 0 Dnone) Dnone) PI.
Definition odd_chain : chain R :=
  mkChain [vzero; vzero; mk3 1 1 1] [mk3 0 0 1; mk3 0 0 1; mk3 0 0 1]
          [mk3 1 0 0; mk3 0 0 1; mk3 1 0 0] 0 odd_conf false.

Lemma odd_wf : wf 3 0 odd_chain.
Proof. constructor; cbn; auto; lia. Qed.

Lemma rot_x_pi : rotate RNum (mk3 1 0 0) (vscale (-1) (mk3 0 0 1)) PI = mk3 (-1) 0 0.
Proof.
  rewrite rotate_R_unit_eq by (unfold unit3, dot; cbn; ring).
  assert (U : unit3 (vscale (-1) (mk3 0 0 1))) by (unfold unit3, dot; cbn; ring).
  rewrite nrm_id, unit3_norm, Rmult_1_l by assumption.
  unfold rodr, dot, cross, vscale; cbn. rewrite cos_PI, sin_PI. apply v3_ext; cbn; ring.
Qed.
Lemma rot_z_any a : rotate RNum (mk3 0 0 1) (vscale (-1) (mk3 0 0 1)) a = mk3 0 0 1.
Proof.
  rewrite rotate_R_unit_eq by (unfold unit3, dot; cbn; ring).
  assert (U : unit3 (vscale (-1) (mk3 0 0 1))) by (unfold unit3, dot; cbn; ring).
  rewrite nrm_id, unit3_norm, Rmult_1_l by assumption.
  unfold rodr, dot, cross, vscale; cbn. apply v3_ext; cbn; ring.
Qed.

Lemma odd_not_conserved : exists sc sc' e e', wf 3 0 sc /\ unit_spins sc /\ drive (vars sc) = Dnone /\
  update ERNum (fin sc) = Ok (fin sc') /\
  total_energy2 ERNum (fin sc) = Ok (Some e) /\ total_energy2 ERNum (fin sc') = Ok (Some e') /\ e <> e'.
Proof.
  assert (Hu : unit_spins odd_chain).
  { unfold unit_spins; cbn. repeat constructor; unfold unit3, dot; cbn; ring. }
  assert (HJ : forall q, (q < 2)%nat -> J_ odd_chain q = vzero).
  { intros [|[|q]] Hq; try reflexivity; lia. }
  assert (HB : forall q, (q < 3)%nat -> B_ odd_chain 0 (mid odd_chain) q = mk3 0 0 1).
  { intros [|[|[|q]]] Hq; try reflexivity; lia. }
  assert (HU : forall q, (q < 2)%nat -> unit3 (S_ odd_chain q)).
  { intros q Hq. apply (proj1 (unit_spins_iff 3 0 _ odd_wf) Hu). lia. }
  exists odd_chain, (stepR 3 0 odd_chain). do 2 eexists.
  split; [exact odd_wf|]. split; [exact Hu|]. split; [reflexivity|]. split; [|split; [|split]].
  - apply update_ER; auto using odd_wf. { exact I. }
    apply free_nv; [exact HJ|]. intros q Hq. change (2 * (3 / 2))%nat with 2%nat in Hq. rewrite HB by lia.
    intro E. apply (f_equal vz) in E. cbn in E. lra.
  - rewrite (total_energy2_value 3 0 odd_chain odd_wf); [reflexivity|lia|exact I].
  - rewrite (total_energy2_value 3 0 _ (wf_step 3 0 _ odd_wf)); [reflexivity|lia|exact I].
  - assert (E0 : S_ (stepR 3 0 odd_chain) 0 = mk3 (-1) 0 0).
    { rewrite S_step by lia. change (2 * (3 / 2))%nat with 2%nat.
      rewrite free_trot; [|exact HJ|lia|exact HU]. rewrite HB by lia. apply rot_x_pi. }
    assert (E1 : S_ (stepR 3 0 odd_chain) 1 = mk3 0 0 1).
    { rewrite S_step by lia. change (2 * (3 / 2))%nat with 2%nat.
      rewrite free_trot; [|exact HJ|lia|exact HU]. rewrite HB by lia. apply rot_z_any. }
    assert (E2 : S_ (stepR 3 0 odd_chain) 2 = mk3 1 0 0).
    { rewrite S_step by lia. change (2 * (3 / 2))%nat with 2%nat. rewrite trotF_out by lia. reflexivity. }
    unfold ring_energy, Rsum, bond. change ((0 + 1) mod 3)%nat with 1%nat. change ((1 + 1) mod 3)%nat with 2%nat.
    change ((2 + 1) mod 3)%nat with 0%nat. rewrite E0, E1, E2.
    unfold J_, B_, h_, S_, at_, dot, vhad; cbn. lra.
Qed.

(** A chain with strong fields, any drive *)
Definition strong_chain (s : Z) (dr : drive_type) : chain R :=
  mkChain (j_couple (ex_chain s dr)) [mk3 10 0 0; mk3 0 10 0; mk3 0 0 10; mk3 10 0 (-10)]
          (spins (ex_chain s dr)) (-1) (ex_conf 4 s dr) true.
Lemma strong_wf s dr : (s <= 4)%nat -> wf 4 s (strong_chain (Z.of_nat s) dr).
Proof. intro H. constructor; cbn; auto; lia. Qed.

Lemma norm_ge_comp a c : c <= Rabs (vx a) \/ c <= Rabs (vy a) \/ c <= Rabs (vz a) -> c <= norm a.
Proof. pose proof (comp_le_norm a). lra. Qed.

Lemma strong_runs s dr k : (s <= 4)%nat ->
  exists sc', iterM (update ERNum) k (fin (strong_chain (Z.of_nat s) dr)) = Ok (fin sc') /\ unit_spins sc'.
Proof.
  intro Hs. apply (strong_field 4 s _ 2 (strong_wf s dr Hs)); try lia; try lra.
  - apply ex_drive.
  - apply ex_unit.
  - intros [|[|[|[|i]]]] Hi; try lia; cbn; repeat split; apply Rabs_le; lra.
  - assert (A : drive_amp (vars (strong_chain (Z.of_nat s) dr)) <= 2).
    { destruct dr; cbn; try lra.
      - apply Rmax_lub; [lra|]. apply Rabs_le; lra.
      - apply norm_le_sq; [lra|]. unfold dot; cbn. lra. }
    intros i Hi. apply Rlt_le_trans with 10; [lra|]. apply norm_ge_comp.
    destruct i as [|[|[|[|i]]]]; try lia; cbn.
    + left. rewrite Rabs_right; lra.
    + right; left. rewrite Rabs_right; lra.
    + right; right. rewrite Rabs_right; lra.
    + left. rewrite Rabs_right; lra.
Qed.
