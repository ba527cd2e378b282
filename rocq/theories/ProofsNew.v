(** Construction of a chain. *)
From Coq Require Import Reals Lra Lia List ZArith Arith Bool Psatz.
From Verif Require Import Num Monad NumR Spin Config Chain Langevin SpecVec SpecChain
  Samples ProofsSpin ProofsChain ProofsEnergy.
Import ListNotations.
Local Open Scope R_scope.

Section Generic.
Context (N : NumOps).

Lemma new_spin_step_ok be b_e b_ei u st : exists r, new_spin_step N be b_e b_ei u st = Ok r.
Proof.
  unfold new_spin_step. destruct u as [[u1 u2] u3]. cbv zeta.
  unfold new_xyz. cbn [idx nth_error bind]. eexists; reflexivity.
Qed.

Lemma new_spins_ok be b_e b_ei u n : forall k st,
  exists l, new_spins N be b_e b_ei u k n st = Ok l /\ length l = n.
Proof.
  induction n; intros k st; cbn [new_spins].
  - exists []; auto.
  - destruct (new_spin_step_ok be b_e b_ei (u k) st) as [[s st'] E]. rewrite E. cbn [bind].
    destruct (IHn (S k) st') as (l & El & Hl). rewrite El. cbn [bind].
    exists (s :: l). cbn. auto.
Qed.

Lemma mapM_length {A B} (f : A -> res B) l : forall r, mapM f l = Ok r -> length r = length l.
Proof.
  induction l; cbn; intros r H; [injection H; intros; subst; reflexivity|].
  destruct (f a); cbn in H; try discriminate. destruct (mapM f l); cbn in H; try discriminate.
  injection H; intros; subst. cbn. f_equal; auto.
Qed.

Lemma mapM_nth {A B} (f : A -> res B) l : forall r i d d', mapM f l = Ok r -> (i < length l)%nat ->
  f (nth i l d) = Ok (nth i r d').
Proof.
  induction l; cbn; intros r i d d' H Hi; [lia|].
  destruct (f a) eqn:E; cbn in H; try discriminate. destruct (mapM f l) eqn:E'; cbn in H; try discriminate.
  injection H; intros; subst. destruct i; [exact E|]. apply (IHl a1 i); [reflexivity|lia].
Qed.

Lemma mapM_panic {A B} (f : A -> res B) a l p : f a = Panic p -> mapM f (a :: l) = Panic p.
Proof. intro H. cbn. rewrite H. reflexivity. Qed.

Lemma as_usize_small z : (0 <= z < 2 ^ 31)%Z -> as_usize z = Z.to_nat z.
Proof. intro H. unfold as_usize. rewrite Z.mod_small by lia. reflexivity. Qed.

Lemma new_field_ok conf hn z x :
  (3 <= length (hfield conf))%nat -> (3 <= length (hs conf))%nat ->
  exists v, new_field N conf hn z x = Ok v.
Proof.
  intros Hf Hs. unfold new_field.
  destruct (x <? ssize conf)%Z; rewrite !(idx_ok _ _ (nofZ N 0)) by lia; cbn [bind]; eexists; reflexivity.
Qed.

Lemma mapM_total {A B} (f : A -> res B) l : (forall a, In a l -> exists b, f a = Ok b) ->
  exists r, mapM f l = Ok r.
Proof.
  induction l; intro H; cbn; [eauto|].
  destruct (H a) as [b E]; [left; reflexivity|]. rewrite E. cbn.
  destruct IHl as [r Er]; [intros; apply H; right; assumption|]. rewrite Er. cbn. eauto.
Qed.

Lemma chain_new_ok conf d : conf_ok N conf ->
  exists sc, chain_new N conf d = Ok sc /\
    length (spins sc) = Z.to_nat (hsize conf) /\
    length (j_couple sc) = Z.to_nat (hsize conf) /\
    length (static_h sc) = Z.to_nat (hsize conf) /\
    t sc = nopp N (trel conf) /\ vars sc = conf /\ has_file sc = c_log conf.
Proof.
  intros (Hh & Hj & Hv & Hf & Hs). unfold chain_new. cbv zeta.
  rewrite as_usize_small by assumption.
  match goal with |- context [new_spins N ?a ?b ?c ?u ?k ?n ?st] =>
    destruct (new_spins_ok a b c u n k st) as (l & El & Hl); rewrite El end. cbn [bind].
  unfold normal_new. rewrite Hj, Hv. cbn [bind].
  match goal with |- context [mapM ?f ?l] =>
    destruct (mapM_total f l) as [r Er]; [|rewrite Er] end.
  { intros a _. apply new_field_ok; assumption. }
  cbn [bind]. eexists. split; [reflexivity|]. cbn.
  apply mapM_length in Er. rewrite map_length, seq_length in *. repeat split; auto.
Qed.

Lemma chain_new_bad_jvar conf d :
  nfinite N (jvar conf) = false -> (0 <= hsize conf < 2 ^ 31)%Z -> chain_new N conf d = Panic Unwrap.
Proof.
  intros Hj Hh. unfold chain_new; cbv zeta.
  match goal with |- context [new_spins N ?a ?b ?c ?u ?k ?n ?st] =>
    destruct (new_spins_ok a b c u n k st) as (l & El & Hl); rewrite El end. cbn [bind].
  unfold normal_new. rewrite Hj. reflexivity.
Qed.
Lemma chain_new_bad_hvar conf d :
  nfinite N (jvar conf) = true -> nfinite N (hvar conf) = false -> (0 <= hsize conf < 2 ^ 31)%Z ->
  chain_new N conf d = Panic Unwrap.
Proof.
  intros Hj Hv Hh. unfold chain_new; cbv zeta.
  match goal with |- context [new_spins N ?a ?b ?c ?u ?k ?n ?st] =>
    destruct (new_spins_ok a b c u n k st) as (l & El & Hl); rewrite El end. cbn [bind].
  unfold normal_new. rewrite Hj. cbn [bind]. rewrite Hv. reflexivity.
Qed.

Lemma idx_short {A} (l : list A) i : (length l <= i)%nat -> idx l i = Panic IndexOOB.
Proof. apply idx_panic. Qed.

Lemma chain_new_short_field conf d :
  nfinite N (jvar conf) = true -> nfinite N (hvar conf) = true -> (0 < hsize conf < 2 ^ 31)%Z ->
  (length (hfield conf) < 3)%nat \/ ((length (hs conf) < 3)%nat /\ (0 < ssize conf)%Z) ->
  chain_new N conf d = Panic IndexOOB.
Proof.
  intros Hj Hv Hh Hl. unfold chain_new; cbv zeta.
  match goal with |- context [new_spins N ?a ?b ?c ?u ?k ?n ?st] =>
    destruct (new_spins_ok a b c u n k st) as (l & El & Hl'); rewrite El end. cbn [bind].
  unfold normal_new. rewrite Hj, Hv. cbn [bind].
  replace (Z.to_nat (hsize conf)) with (S (Z.to_nat (hsize conf) - 1)) by lia.
  change (seq 0 (S ?k)) with (0%nat :: seq 1 k).
  rewrite (mapM_panic _ _ _ IndexOOB); [reflexivity|].
  unfold new_field.
  assert (I : forall (A : Type) (l : list A) i, idx l i = Panic IndexOOB \/ exists a, idx l i = Ok a).
  { intros A l0 i. unfold idx. destruct (nth_error l0 i); eauto. }
  change (Z.of_nat 0) with 0%Z.
  destruct (Z.ltb_spec 0 (ssize conf)).
  - destruct (I _ (hfield conf) 0%nat) as [E|[a0 E]]; rewrite E; cbn [bind]; [reflexivity|]. 
    destruct (I _ (hs conf) 0%nat) as [E0|[b0 E0]]; rewrite E0; cbn [bind]; [reflexivity|]. 
    destruct (I _ (hfield conf) 1%nat) as [E1|[a1 E1]]; rewrite E1; cbn [bind]; [reflexivity|]. 
    destruct (I _ (hs conf) 1%nat) as [E2|[b1 E2]]; rewrite E2; cbn [bind]; [reflexivity|]. 
    destruct Hl as [Hl|[Hl _]].
    + rewrite (idx_short (hfield conf) 2) by lia. reflexivity.
    + destruct (I _ (hfield conf) 2%nat) as [E3|[a2 E3]]; rewrite E3; cbn [bind]; [reflexivity|]. 
      rewrite (idx_short (hs conf) 2) by lia. reflexivity.
  - destruct Hl as [Hl|[_ Hl]]; [|lia].
    destruct (I _ (hfield conf) 0%nat) as [E|[a0 E]]; rewrite E; cbn [bind]; [reflexivity|]. 
    destruct (I _ (hfield conf) 1%nat) as [E1|[a1 E1]]; rewrite E1; cbn [bind]; [reflexivity|]. 
    rewrite (idx_short (hfield conf) 2) by lia. reflexivity.
Qed.

(** hs is not looked at when the subsystem is empty *)
Lemma chain_new_short_hs_ok conf d :
  (0 <= hsize conf < 2 ^ 31)%Z -> nfinite N (jvar conf) = true -> nfinite N (hvar conf) = true ->
  (3 <= length (hfield conf))%nat -> (ssize conf <= 0)%Z ->
  exists sc, chain_new N conf d = Ok sc.
Proof.
  intros Hh Hj Hv Hf Hs. unfold chain_new; cbv zeta.
  match goal with |- context [new_spins N ?a ?b ?c ?u ?k ?n ?st] =>
    destruct (new_spins_ok a b c u n k st) as (l & El & Hl'); rewrite El end. cbn [bind].
  unfold normal_new. rewrite Hj, Hv. cbn [bind].
  match goal with |- context [mapM ?f ?l] =>
    destruct (mapM_total f l) as [r Er]; [|rewrite Er] end.
  { intros a _. unfold new_field. destruct (Z.ltb_spec (Z.of_nat a) (ssize conf)); [lia|].
    rewrite !(idx_ok _ _ (nofZ N 0)) by lia; cbn [bind]; eexists; reflexivity. }
  cbn [bind]. eauto.
Qed.

End Generic.

(** ** Values in exact arithmetic *)

Lemma chain_new_fields conf (d : newdraw ERNum) (zj zh : nat -> vec) sc :
  (3 <= length (hfield conf))%nat -> (3 <= length (hs conf))%nat ->
  (0 <= hsize conf < 2 ^ 31)%Z ->
  (forall i, nd_j d i = fin3 (zj i)) -> (forall i, nd_h d i = fin3 (zh i)) ->
  chain_new ERNum (config_map Some conf) d = Ok sc ->
  forall i, (i < Z.to_nat (hsize conf))%nat ->
    at3 ERNum (static_h sc) i =
      fin3 (vadd (vadd (hvec (hfield conf))
                       (if (Z.of_nat i <? ssize conf)%Z then hvec (hs conf) else vzero))
                 (vscale (hvar conf) (zh i))) /\
    at3 ERNum (j_couple sc) i =
      fin3 (vadd (mk3 1 1 (lambda conf)) (vscale (jvar conf) (zj i))).
Proof.
  intros Hf Hs Hh Hzj Hzh H i Hi. unfold chain_new in H; cbv zeta in H.
  match type of H with context [new_spins ERNum ?a ?b ?c ?u ?k ?n ?st] =>
    destruct (new_spins_ok ERNum a b c u n k st) as (l & El & Hl); rewrite El in H end.
  cbn [bind] in H. unfold normal_new in H. cbn [nfinite ERNum config_map jvar hvar bind hsize] in H.
  match type of H with context [mapM ?f ?l] =>
    destruct (mapM f l) as [r| |] eqn:Er; try discriminate end.
  cbn [bind] in H. injection H as <-. cbn [static_h j_couple].
  split.
  - unfold at3. pose proof (mapM_nth _ _ _ i 0%nat (z3 ERNum) Er) as P.
    rewrite seq_length in P. specialize (P Hi). rewrite seq_nth in P by assumption. cbn [plus] in P.
    unfold new_field in P. cbn [ssize config_map hfield hs] in P. rewrite Hzh in P.
    destruct (Z.of_nat i <? ssize conf)%Z.
    + rewrite !(idx_ok _ _ (Some 0)) in P by (rewrite map_length; lia). cbn [bind] in P.
      rewrite !(map_nth Some) in P. injection P as P. etransitivity; [symmetry; exact P|].
      unfold fin3; apply v3_ext; cbn; f_equal; ring.
    + rewrite !(idx_ok _ _ (Some 0)) in P by (rewrite map_length; lia). cbn [bind] in P.
      rewrite !(map_nth Some) in P. injection P as P. etransitivity; [symmetry; exact P|].
      unfold fin3; apply v3_ext; cbn; f_equal; ring.
  - unfold at3. rewrite nth_map_seq by assumption. rewrite Hzj.
    unfold fin3; apply v3_ext; cbn; f_equal; ring.
Qed.

(** ** Initial spins *)
(** One step: if the new spin is a number, so were the old angles, both directions are unit
    vectors and their overlap is the drawn one. *)
Lemma cos_none a : ncos ERNum a = None -> a = None.
Proof. destruct a; cbn; congruence. Qed.

Lemma er_div_some a b c : er_div a b = Some c -> exists x y, a = Some x /\ b = Some y /\ y <> 0 /\ c = x / y.
Proof.
  destruct a as [x|], b as [y|]; cbn; try discriminate. destruct (Req_EM_T y 0); intro H; try discriminate.
  injection H; intros; subst. exists x, y; auto.
Qed.
Lemma er_acos_some a c : er_acos a = Some c -> exists x, a = Some x /\ -1 <= x <= 1 /\ c = acos x.
Proof.
  destruct a as [x|]; cbn; try discriminate. destruct (Rlt_dec x (-1)); try discriminate.
  destruct (Rlt_dec 1 x); try discriminate. intro H; injection H; intros; subst.
  exists x; repeat split; auto; lra.
Qed.
Lemma er_ln_some a c : er_ln a = Some c -> exists x, a = Some x /\ 0 < x /\ c = ln x.
Proof.
  destruct a as [x|]; cbn; try discriminate. destruct (Rlt_dec 0 x); intro H; try discriminate.
  injection H; intros; subst. exists x; auto.
Qed.

Definition angles_dir (st : ER * ER) : v3 ER := new_from_angles ERNum (fst st) (snd st).

Lemma new_xyz_dirn th ph :
  new_xyz ERNum [Some (cos th * sin ph); Some (sin th * sin ph); Some (cos ph)] = Ok (fin3 (dirn th ph)).
Proof.
  pose proof (dirn_unit th ph) as U. pose proof (unit3_nonzero _ U) as Z.
  change [Some (cos th * sin ph); Some (sin th * sin ph); Some (cos ph)]
    with (map Some [vx (dirn th ph); vy (dirn th ph); vz (dirn th ph)]).
  rewrite new_xyz_ER by (apply sumsq3_pos; assumption).
  replace (sumsq [vx (dirn th ph); vy (dirn th ph); vz (dirn th ph)]) with (dot (dirn th ph) (dirn th ph))
    by (unfold dot; cbn; ring).
  rewrite U, sqrt_1. f_equal. f_equal. apply v3_ext; cbn; field.
Qed.

Lemma new_spin_step_spin be b_e b_ei u st s st' :
  new_spin_step ERNum be b_e b_ei u st = Ok (s, st') ->
  forall v, s = fin3 v -> exists th' ph', st' = (Some th', Some ph') /\ v = dirn th' ph'.
Proof.
  intros H v Hv. unfold new_spin_step in H. destruct u as [[u1 u2] u3]. cbv zeta in H.
  match type of H with context [rot_perp ERNum ?a ?b ?c] => destruct (rot_perp ERNum a b c) as [th' ph'] end.
  cbn [fst snd] in H.
  destruct (new_xyz ERNum _) as [s0| |] eqn:E; cbn [bind] in H; try discriminate.
  injection H; intros; subst.
  destruct th' as [th'|], ph' as [ph'|].
  - exists th', ph'. split; [reflexivity|].
    change (new_xyz ERNum [Some (cos th' * sin ph'); Some (sin th' * sin ph'); Some (cos ph')] = Ok (fin3 v)) in E.
    rewrite new_xyz_dirn in E. injection E; intros. apply fin3_inj. unfold fin3, v3map; cbn. congruence.
  - exfalso. unfold new_xyz in E. cbn in E. discriminate.
  - exfalso. unfold new_xyz in E. cbn in E. discriminate.
  - exfalso. unfold new_xyz in E. cbn in E. discriminate.
Qed.

(** NaN old angles give NaN new angles *)
Lemma rotate_ER_nan_dt s f : rotate ERNum s f None = nan3.
Proof.
  unfold rotate; cbv zeta. change (nmul ERNum ?x None) with (er2 Rmult x None).
  rewrite er2_none_r. destruct s as [[?|] [?|] [?|]]; reflexivity.
Qed.

Lemma theta_nan : theta ERNum nan3 = None.
Proof. reflexivity. Qed.

Lemma er_minus_none x : er2 Rminus x None = None.
Proof. apply er2_none_r. Qed.

Lemma gs_dot_nan (old perp : v3 (num ERNum)) :
  nadd ERNum (nadd ERNum (nmul ERNum (vx perp) (vx old)) (nmul ERNum (vy perp) (vy old)))
    (nmul ERNum (vz perp) (vz old)) = None -> gs ERNum old perp = nan3.
Proof.
  intro H. unfold gs; cbv zeta. rewrite H.
  assert (M : forall (x : num ERNum) y z, nsub ERNum x (ndiv ERNum (nmul ERNum None y) z) = None)
    by (intros x y z; apply er_minus_none).
  rewrite !M. reflexivity.
Qed.

Lemma rotate_ER_nan_field s dt : rotate ERNum s nan3 dt = nan3.
Proof. unfold rotate; cbv zeta. destruct s as [[?|] [?|] [?|]], dt; reflexivity. Qed.

Lemma rot_perp_some st r a th' ph' :
  rot_perp ERNum st r a = (Some th', Some ph') ->
  exists th ph x rv, st = (Some th, Some ph) /\ a = Some x /\ r = fin3 rv.
Proof.
  intro H. unfold rot_perp in H.
  destruct a as [x|]; [|cbn [nopp ERNum er1 option_map] in H; rewrite rotate_ER_nan_dt in H; discriminate].
  destruct (nadd ERNum (nadd ERNum (nmul ERNum (vx r) (vx (new_from_angles ERNum (fst st) (snd st))))
      (nmul ERNum (vy r) (vy (new_from_angles ERNum (fst st) (snd st)))))
    (nmul ERNum (vz r) (vz (new_from_angles ERNum (fst st) (snd st))))) eqn:E.
  2:{ rewrite (gs_dot_nan _ _ E), rotate_ER_nan_field in H. discriminate. }
  clear H. destruct st as [th ph], r as [rx ry rz]. cbn [fst snd vx vy vz] in E.
  destruct rx as [rx|]; [|discriminate].
  destruct th as [th|]; [|discriminate].
  destruct ph as [ph|]; [|discriminate].
  destruct ry as [ry|]; [|discriminate].
  destruct rz as [rz|]; [|discriminate].
  exists th, ph, x, (mk3 rx ry rz). auto.
Qed.

Lemma new_spin_step_fin b u1 u2 u3 st s th' ph' :
  new_spin_step ERNum (Some b) (Some (exp b)) (Some (1 / exp b)) (u1, u2, Some u3) st
    = Ok (s, (Some th', Some ph')) ->
  s = fin3 (dirn th' ph') /\
  exists th ph, st = (Some th, Some ph) /\
    exp (b * dot (dirn th' ph') (dirn th ph)) = exp b - u3 * (exp b - exp (- b)).
Proof.
  intro H. unfold new_spin_step in H. cbv zeta in H.
  match type of H with context [rot_perp ERNum ?a ?b ?c] =>
    destruct (rot_perp ERNum a b c) as [t' p'] eqn:ER_ end.
  cbn [fst snd] in H.
  destruct (new_xyz ERNum _) as [s0| |] eqn:E; cbn [bind] in H; try discriminate.
  injection H; intros; subst. clear H.
  change (new_xyz ERNum [Some (cos th' * sin ph'); Some (sin th' * sin ph'); Some (cos ph')] = Ok s) in E.
  rewrite new_xyz_dirn in E. split; [congruence|].
  destruct (rot_perp_some _ _ _ _ _ ER_) as (th & ph & x & rv & -> & Ea & Er).
  exists th, ph. split; [reflexivity|].
  rewrite Ea, Er in ER_. rewrite (rot_perp_angle _ _ _ _ _ _ ER_).
  destruct (er_acos_some _ _ Ea) as (y & Ey & Hy & ->).
  destruct (er_div_some _ _ _ Ey) as (l & b' & El & Eb & Hb & ->). injection Eb as <-.
  destruct (er_ln_some _ _ El) as (z & Ez & Hz & ->).
  change (Some (exp b - u3 * (exp b - 1 / exp b)) = Some z) in Ez. injection Ez as <-.
  rewrite cos_acos by assumption.
  replace (b * (ln (exp b - u3 * (exp b - 1 / exp b)) / b)) with (ln (exp b - u3 * (exp b - 1 / exp b)))
    by (field; assumption).
  rewrite exp_ln by assumption. rewrite exp_Ropp. unfold Rdiv. ring.
Qed.

Lemma new_spins_fin b (u : nat -> ER * ER * ER) (u3 : nat -> R) (n : nat) :
  (forall i, snd (u i) = Some (u3 i)) ->
  forall k st l, new_spins ERNum (Some b) (Some (exp b)) (Some (1 / exp b)) u k n st = Ok l ->
  forall i v, (i < n)%nat -> at3 ERNum l i = fin3 v ->
  exists w : nat -> vec, exists th ph, st = (Some th, Some ph) /\ w 0%nat = dirn th ph /\
    forall j, (j <= i)%nat -> at3 ERNum l j = fin3 (w (S j)) /\ unit3 (w (S j)) /\
      exp (b * dot (w (S j)) (w j)) = exp b - u3 (k + j)%nat * (exp b - exp (- b)).
Proof.
  intro Hu. induction n; intros k st l H i v Hi Hv; [lia|].
  cbn [new_spins] in H.
  destruct (new_spin_step ERNum _ _ _ (u k) st) as [[s st']| |] eqn:Es; cbn [bind] in H; try discriminate.
  destruct (new_spins ERNum _ _ _ u (S k) n st') as [r| |] eqn:En; cbn [bind] in H; try discriminate.
  injection H; intros; subst. clear H.
  pose proof (Hu k) as Hk. destruct (u k) as [[a1 a2] a3] eqn:Euk. cbn in Hk. subst a3.
  destruct i as [|i].
  - unfold at3 in Hv. cbn [nth] in Hv.
    destruct (new_spin_step_spin _ _ _ _ _ _ _ Es v Hv) as (th' & ph' & -> & ->).
    destruct (new_spin_step_fin _ _ _ _ _ _ _ _ Es) as (-> & th & ph & -> & Hd).
    exists (fun j => match j with O => dirn th ph | _ => dirn th' ph' end), th, ph.
    split; [reflexivity|]. split; [reflexivity|]. intros j Hj. assert (j = 0)%nat as -> by lia.
    split; [reflexivity|]. split; [apply dirn_unit|]. rewrite Nat.add_0_r. exact Hd.
  - assert (Hv' : at3 ERNum r i = fin3 v) by exact Hv.
    destruct (IHn _ _ _ En i v ltac:(lia) Hv') as (w & th' & ph' & -> & Hw & Hall).
    destruct (new_spin_step_fin _ _ _ _ _ _ _ _ Es) as (-> & th & ph & -> & Hd).
    exists (fun j => match j with O => dirn th ph | S j => w j end), th, ph.
    split; [reflexivity|]. split; [reflexivity|]. intros [|j] Hj.
    + split; [unfold at3; cbn [nth]; f_equal; congruence|].
      rewrite Hw. split; [apply dirn_unit|]. rewrite Nat.add_0_r. exact Hd.
    + destruct (Hall j ltac:(lia)) as (A & B & C).
      split; [exact A|]. split; [exact B|]. rewrite <- Nat.add_succ_comm. exact C.
Qed.

Lemma chain_new_spins conf (d : newdraw ERNum) (u3 : nat -> R) sc :
  (0 <= hsize conf < 2 ^ 31)%Z ->
  (forall i, snd (nd_u d i) = Some (u3 i)) ->
  chain_new ERNum (config_map Some conf) d = Ok sc ->
  forall i v, (i < Z.to_nat (hsize conf))%nat -> at3 ERNum (spins sc) i = fin3 v ->
  exists w : nat -> vec, 
    forall j, (j <= i)%nat -> at3 ERNum (spins sc) j = fin3 (w (S j)) /\ unit3 (w (S j)) /\
      exp (beta conf * dot (w (S j)) (w j)) = exp (beta conf) - u3 j * (exp (beta conf) - exp (- beta conf)).
Proof.
  intros Hh Hu H i v Hi Hv. unfold chain_new in H; cbv zeta in H.
  match type of H with context [new_spins ERNum ?a ?b ?c ?u ?k ?n ?st] =>
    destruct (new_spins_ok ERNum a b c u n k st) as (l & El & Hl); rewrite El in H end.
  cbn [bind] in H.
  destruct (normal_new _ _ _) as [jn| |] eqn:Ej; cbn [bind] in H; try discriminate.
  destruct (normal_new ERNum _ (hvar _)) as [hn| |] eqn:Eh; cbn [bind] in H; try discriminate.
  destruct (mapM _ _) as [r| |] eqn:Er; cbn [bind] in H; try discriminate.
  injection H as <-. cbn [spins] in *.
  cbn [config_map hsize beta] in El.
  rewrite as_usize_small in El by assumption.
  change (nexp ERNum (Some (beta conf))) with (Some (exp (beta conf))) in El.
  assert (Ed : ndiv ERNum (nofZ ERNum 1) (Some (exp (beta conf))) = Some (1 / exp (beta conf))).
  { apply er_div_ok. apply Rgt_not_eq, exp_pos. }
  rewrite Ed in El.
  destruct (new_spins_fin _ _ u3 _ Hu _ _ _ El i v Hi Hv) as (w & th & ph & _ & _ & Hall).
  exists w. exact Hall.
Qed.

(** When the construction of one more spin succeeds *)
Lemma er_ln_ok x : 0 < x -> er_ln (Some x) = Some (ln x).
Proof. intro H. cbn. destruct (Rlt_dec 0 x); [reflexivity|contradiction]. Qed.

Lemma boltz_arg b u : 0 <= u <= 1 ->
  let z := exp b - u * (exp b - exp (- b)) in
  0 < z /\ (b <> 0 -> -1 <= ln z / b <= 1).
Proof.
  intros Hu z. pose proof (exp_pos b) as Pb. pose proof (exp_pos (- b)) as Pm.
  assert (Hz : z = (1 - u) * exp b + u * exp (- b)) by (unfold z; ring).
  assert (Pz : 0 < z).
  { rewrite Hz. destruct (Req_dec u 0) as [->|Hu0]; [lra|].
    apply Rplus_le_lt_0_compat; [apply Rmult_le_pos; lra|apply Rmult_lt_0_compat; lra]. }
  split; [exact Pz|]. intro Hb.
  assert (L : forall x y, 0 < x -> x <= y -> ln x <= ln y).
  { intros x y Hx [H|H]; [left; apply ln_increasing; assumption|right; congruence]. }
  destruct (Rlt_dec 0 b) as [Hp|Hn].
  - assert (Hle : exp (- b) <= exp b) by (left; apply exp_increasing; lra).
    assert (A : ln (exp (- b)) <= ln z) by (apply L; [apply exp_pos|rewrite Hz; nra]).
    assert (B : ln z <= ln (exp b)) by (apply L; [assumption|rewrite Hz; nra]).
    rewrite ln_exp in A, B. split.
    + apply Rmult_le_reg_r with b; [assumption|]. unfold Rdiv. rewrite Rmult_assoc, Rinv_l by assumption. lra.
    + apply Rmult_le_reg_r with b; [assumption|]. unfold Rdiv. rewrite Rmult_assoc, Rinv_l by assumption. lra.
  - assert (Hq : b < 0) by lra.
    assert (Hle : exp b <= exp (- b)) by (left; apply exp_increasing; lra).
    assert (A : ln (exp b) <= ln z) by (apply L; [apply exp_pos|rewrite Hz; nra]).
    assert (B : ln z <= ln (exp (- b))) by (apply L; [assumption|rewrite Hz; nra]).
    rewrite ln_exp in A, B. replace (ln z / b) with ((- ln z) / (- b)) by (field; assumption). split.
    + apply Rmult_le_reg_r with (- b); [lra|]. unfold Rdiv. rewrite Rmult_assoc, Rinv_l by lra. lra.
    + apply Rmult_le_reg_r with (- b); [lra|]. unfold Rdiv. rewrite Rmult_assoc, Rinv_l by lra. lra.
Qed.

(** From finite angles: the next spin is a number except in two null sets of draws *)
Lemma new_spin_step_defined b u1 u2 u3 th ph :
  b <> 0 -> 0 <= u2 <= 1 -> 0 <= u3 <= 1 ->
  let rdir := dirn (2 * PI * u1) (acos (1 - 2 * u2)) in
  cross (dirn th ph) rdir <> vzero ->
  exists d, unit3 d /\
    exp (b * dot d (dirn th ph)) = exp b - u3 * (exp b - exp (- b)) /\
    (vx d <> 0 -> exists st', new_spin_step ERNum (Some b) (Some (exp b)) (Some (1 / exp b))
        (Some u1, Some u2, Some u3) (Some th, Some ph) = Ok (fin3 d, st')).
Proof.
  intros Hb H2 H3 rdir Hc.
  destruct (boltz_arg b u3 H3) as [Pz Pa]. specialize (Pa Hb).
  set (z := exp b - u3 * (exp b - exp (- b))) in *.
  destruct (rot_perp_defined th ph rdir (acos (ln z / b)) Hc) as (d & U & D & F & _).
  exists d. split; [exact U|]. split.
  - rewrite D, cos_acos by assumption. replace (b * (ln z / b)) with (ln z) by (field; assumption).
    apply exp_ln; assumption.
  - intro Hx. destruct (F Hx) as (th' & ph' & E & Ed).
    exists (Some th', Some ph'). unfold new_spin_step; cbv zeta.
    assert (E1 : nacos ERNum (nsub ERNum (nofZ ERNum 1) (nmul ERNum (nofZ ERNum 2) (Some u2)))
                 = Some (acos (1 - 2 * u2))) by (apply er_acos_ok; lra).
    rewrite E1.
    assert (E2 : nacos ERNum (ndiv ERNum (nln ERNum (nsub ERNum (Some (exp b)) (nmul ERNum (Some u3)
                  (nsub ERNum (Some (exp b)) (Some (1 / exp b)))))) (Some b)) = Some (acos (ln z / b))).
    { cbn [nacos nln nsub nmul ndiv ERNum er2].
      replace (exp b - u3 * (exp b - 1 / exp b)) with z
        by (unfold z; rewrite exp_Ropp; unfold Rdiv; ring).
      rewrite er_ln_ok, er_div_ok, er_acos_ok by assumption. reflexivity. }
    rewrite E2.
    match goal with |- context [rot_perp ERNum ?s ?r ?a] =>
      replace (rot_perp ERNum s r a) with (Some th', Some ph') by (symmetry; exact E) end.
    cbn [fst snd].
    match goal with |- context [new_xyz ERNum ?l] =>
      replace (new_xyz ERNum l) with (Ok (fin3 (dirn th' ph'))) by (symmetry; apply new_xyz_dirn) end.
    cbn [bind]. rewrite Ed. reflexivity.
Qed.

(** The distribution of the drawn cosine *)
Lemma boltz_monotone b u c : b <> 0 -> exp (b * c) = exp b - u * (exp b - exp (- b)) ->
  u = 1 - boltz_cdf b c.
Proof.
  intros Hb H. unfold boltz_cdf. rewrite H.
  assert (exp b - exp (- b) <> 0).
  { intro Z. assert (E : exp b = exp (- b)) by lra. apply exp_inv in E. lra. }
  field; assumption.
Qed.

Lemma boltz_cdf_incr b x y : b <> 0 -> x < y -> boltz_cdf b x < boltz_cdf b y.
Proof.
  intros Hb Hxy. unfold boltz_cdf. destruct (Rlt_dec 0 b).
  - apply Rmult_lt_compat_r.
    + apply Rinv_0_lt_compat. assert (exp (- b) < exp b) by (apply exp_increasing; lra). lra.
    + assert (exp (b * x) < exp (b * y)) by (apply exp_increasing; nra). lra.
  - assert (exp b < exp (- b)) by (apply exp_increasing; lra).
    assert (exp (b * y) < exp (b * x)) by (apply exp_increasing; nra).
    replace ((exp (b * x) - exp (- b)) / (exp b - exp (- b))) with ((exp (- b) - exp (b * x)) / (exp (- b) - exp b))
      by (field; lra).
    replace ((exp (b * y) - exp (- b)) / (exp b - exp (- b))) with ((exp (- b) - exp (b * y)) / (exp (- b) - exp b))
      by (field; lra).
    apply Rmult_lt_compat_r; [apply Rinv_0_lt_compat; lra|lra].
Qed.

Lemma boltz_cdf_ends b : b <> 0 -> boltz_cdf b (-1) = 0 /\ boltz_cdf b 1 = 1.
Proof.
  intro Hb. unfold boltz_cdf.
  assert (exp b - exp (- b) <> 0).
  { intro Z. assert (E : exp b = exp (- b)) by lra. apply exp_inv in E. lra. }
  rewrite Rmult_1_r. replace (b * -1) with (- b) by ring. split; field; assumption.
Qed.

Lemma boltz_cdf_deriv b x : b <> 0 ->
  derivable_pt_lim (boltz_cdf b) x (b / (exp b - exp (- b)) * exp (b * x)).
Proof.
  intro Hb. unfold boltz_cdf.
  assert (exp b - exp (- b) <> 0).
  { intro Z. assert (E : exp b = exp (- b)) by lra. apply exp_inv in E. lra. }
  assert (D1 : derivable_pt_lim (fun y => b * y) x (b * 1)).
  { apply derivable_pt_lim_scal. apply derivable_pt_lim_id. }
  assert (D2 : derivable_pt_lim (comp exp (fun y => b * y)) x (exp (b * x) * (b * 1))).
  { apply derivable_pt_lim_comp; [exact D1|apply derivable_pt_lim_exp]. }
  assert (D3 := derivable_pt_lim_minus _ _ _ _ _ D2 (derivable_pt_lim_const (exp (- b)) x)).
  assert (D4 := derivable_pt_lim_scal _ (/ (exp b - exp (- b))) _ _ D3).
  match type of D4 with derivable_pt_lim _ _ ?l => replace (b / (exp b - exp (- b)) * exp (b * x)) with l
    by (field; assumption) end.
  intros e He. destruct (D4 e He) as [dl Hd]. exists dl. intros h Hh Hl.
  specialize (Hd h Hh Hl). unfold mult_real_fct, minus_fct, comp, fct_cte in Hd.
  match goal with |- Rabs ?A < _ => match type of Hd with Rabs ?B < _ => replace A with B by (unfold Rdiv; ring) end end.
  exact Hd.
Qed.

(** ** drive = staticfield *)
Definition twin (hf hsv : vec) (c c' : chain (num ERNum)) : Prop :=
  j_couple c' = j_couple c /\ spins c' = spins c /\ t c' = t c /\
  ssize (vars c') = ssize (vars c) /\ c_dt (vars c') = c_dt (vars c) /\
  length (static_h c') = length (static_h c) /\
  drive (vars c) = Dstaticfield /\ hs (vars c) = [Some (vx hsv); Some (vy hsv); Some (vz hsv)] /\
  drive (vars c') = Dnone /\
  forall i, (i < length (static_h c))%nat ->
    at3 ERNum (static_h c) i = fin3 (if i <? as_usize (ssize (vars c)) then vadd hf hsv else hf)%nat /\
    at3 ERNum (static_h c') i = fin3 (if i <? as_usize (ssize (vars c)) then vadd hf (vscale 2 hsv) else hf)%nat.

Lemma twin_update hf hsv c c' : twin hf hsv c c' ->
  match update ERNum c, update ERNum c' with
  | Ok a, Ok a' => twin hf hsv a a'
  | Panic p, Panic q => p = q
  | OutOfFuel, OutOfFuel => True
  | _, _ => False
  end.
Proof.
  intros (Hj & Hsp & Ht & Hss & Hdt & Hl & Hd & Hh & Hd' & Hf).
  unfold update; cbv zeta. unfold h_ext. rewrite Hd, Hd', Hh. cbn [idx nth_error bind].
  set (L := mapi _ 0 (static_h c)). set (L' := mapi _ 0 (static_h c')).
  assert (E : L' = L).
  { apply (list_ext_nth (z3 ERNum)); unfold L, L'; [rewrite !mapi_length; assumption|].
    rewrite mapi_length. intros i Hi.
    rewrite (nth_mapi _ _ 0 i _ (z3 ERNum)) by assumption.
    rewrite (nth_mapi _ _ 0 i _ (z3 ERNum)) by lia. cbn [plus].
    destruct (Hf i ltac:(lia)) as [A B]. unfold at3 in A, B. 
    rewrite Hss. destruct (i <? as_usize (ssize (vars c)))%nat.
    - etransitivity; [apply (f_equal (fun q => sum_vec ERNum q _) B)|].
      symmetry; etransitivity; [apply (f_equal (fun q => sum_vec ERNum q _) A)|].
      unfold sum_vec, fin3; apply v3_ext; cbn; f_equal; ring.
    - etransitivity; [exact B|]. symmetry; exact A. }
  rewrite E, Hj, Hdt, Hsp, Ht.
  destruct (trotter ERNum (j_couple c) L (c_dt (vars c)) (spins c)) as [sp|p|] eqn:Et; cbn [bind]; auto.
  unfold twin; cbn. repeat split; auto; apply Hf; assumption.
Qed.

Lemma twin_iter hf hsv k : forall c c', twin hf hsv c c' ->
  match iterM (update ERNum) k c, iterM (update ERNum) k c' with
  | Ok a, Ok a' => spins a = spins a' /\ t a = t a'
  | Panic p, Panic q => p = q
  | OutOfFuel, OutOfFuel => True
  | _, _ => False
  end.
Proof.
  induction k; intros c c' H; cbn [iterM].
  - destruct H as (_ & A & B & _). auto.
  - pose proof (twin_update _ _ _ _ H) as U.
    destruct (update ERNum c), (update ERNum c'); cbn [bind]; auto; try contradiction.
    apply IHk; assumption.
Qed.

Lemma static_new_field conf (d : newdraw ERNum) (zj zh : nat -> vec) sc :
  (3 <= length (hfield conf))%nat -> (3 <= length (hs conf))%nat ->
  (0 <= hsize conf < 2 ^ 31)%Z ->
  (forall i, nd_j d i = fin3 (zj i)) -> (forall i, nd_h d i = fin3 (zh i)) -> hvar conf = 0 ->
  chain_new ERNum (config_map Some conf) d = Ok (fin sc) ->
  forall i, (i < Z.to_nat (hsize conf))%nat ->
    h_ sc i = vadd (hvec (hfield conf)) (if (Z.of_nat i <? ssize conf)%Z then hvec (hs conf) else vzero).
Proof.
  intros Hf Hs Hh Hj Hz Hv H i Hi.
  destruct (chain_new_fields conf d zj zh _ Hf Hs Hh Hj Hz H i Hi) as [A _].
  assert (A' := eq_trans (eq_sym (hs_fin sc i)) A). apply fin3_inj in A'. rewrite A', Hv.
  apply v3_ext; cbn; ring.
Qed.

Lemma static_twice_energy conf (d : newdraw ERNum) (zj zh : nat -> vec) sc :
  (3 <= length (hfield conf))%nat -> (3 <= length (hs conf))%nat ->
  (1 <= hsize conf < 2 ^ 31)%Z -> (0 <= ssize conf <= hsize conf)%Z ->
  (forall i, nd_j d i = fin3 (zj i)) -> (forall i, nd_h d i = fin3 (zh i)) ->
  hvar conf = 0 -> drive conf = Dstaticfield ->
  chain_new ERNum (config_map Some conf) d = Ok (fin sc) ->
  let n := Z.to_nat (hsize conf) in
  total_energy2 ERNum (fin sc) = Ok (Some (ring_energy n (S_ sc) (J_ sc)
    (fun i => if (Z.of_nat i <? ssize conf)%Z
              then vadd (hvec (hfield conf)) (vscale 2 (hvec (hs conf)))
              else hvec (hfield conf)) / INR n)) /\
  total_energy ERNum (fin sc) = total_energy2 ERNum (fin sc).
Proof.
  intros Hf Hs Hh Hss Hj Hz Hv Hd H n.
  assert (C : conf_ok ERNum (config_map Some conf)).
  { unfold conf_ok; cbn. rewrite !map_length. repeat split; auto; lia. }
  destruct (chain_new_ok ERNum _ d C) as (sc' & E & L1 & L2 & L3 & Et & Ev & _).
  assert (sc' = fin sc) by congruence. subst sc'. clear E.
  assert (V : vars sc = conf).
  { cbn in Ev. destruct (vars sc), conf. unfold config_map in Ev; cbn in Ev.
    assert (M : forall l1 l2 : list R, map Some l1 = map Some l2 -> l1 = l2).
    { clear. induction l1; destruct l2; cbn; intro H; try discriminate; auto. injection H; intros. f_equal; auto. }
    injection Ev; intros.
    repeat match goal with Q : map Some _ = map Some _ |- _ => apply M in Q end.
    subst; reflexivity. }
  cbn in L1, L2, L3. rewrite map_length in L1, L2, L3.
  assert (W : wf n (Z.to_nat (ssize conf)) sc).
  { constructor; rewrite ?V; auto; unfold n; lia. }
  assert (D : drive_ok (vars sc)) by (rewrite V; unfold drive_ok; rewrite Hd; assumption).
  rewrite (total_energy2_value _ _ _ W), (total_energy_value _ _ _ W) by (auto; unfold n; lia).
  split; [|reflexivity]. do 3 f_equal. apply ring_energy_ext; auto.
  intros i Hi. unfold B_. rewrite V. unfold drive_field. rewrite Hd.
  rewrite (static_new_field conf d zj zh sc) by (auto; lia).
  fold (hvec (hs conf)).
  destruct (Z.ltb_spec (Z.of_nat i) (ssize conf)), (Nat.ltb_spec i (Z.to_nat (ssize conf))); try lia;
    apply v3_ext; cbn; ring.
Qed.

Lemma static_twice_dynamics conf (d : newdraw ERNum) (zj zh : nat -> vec) sc (c' : chain (num ERNum)) :
  (3 <= length (hfield conf))%nat -> length (hs conf) = 3%nat ->
  (0 <= hsize conf < 2 ^ 31)%Z -> (0 <= ssize conf <= hsize conf)%Z ->
  (forall i, nd_j d i = fin3 (zj i)) -> (forall i, nd_h d i = fin3 (zh i)) ->
  hvar conf = 0 -> drive conf = Dstaticfield ->
  chain_new ERNum (config_map Some conf) d = Ok sc ->
  vars c' = set_drive (config_map Some conf) Dnone ->
  j_couple c' = j_couple sc -> spins c' = spins sc -> t c' = t sc ->
  length (static_h c') = Z.to_nat (hsize conf) ->
  (forall i, (i < Z.to_nat (hsize conf))%nat -> at3 ERNum (static_h c') i =
     fin3 (if (Z.of_nat i <? ssize conf)%Z
              then vadd (hvec (hfield conf)) (vscale 2 (hvec (hs conf)))
              else hvec (hfield conf))) ->
  forall k,
  match iterM (update ERNum) k sc, iterM (update ERNum) k c' with
  | Ok a, Ok a' => spins a = spins a' /\ t a = t a'
  | Panic p, Panic q => p = q
  | OutOfFuel, OutOfFuel => True
  | _, _ => False
  end.
Proof.
  intros Hf Hs Hh Hss Hj Hz Hv Hd H Ec Ej Es Et El Ef k.
  apply (twin_iter (hvec (hfield conf)) (hvec (hs conf))).
  assert (C : conf_ok ERNum (config_map Some conf)).
  { unfold conf_ok; cbn. rewrite !map_length. repeat split; auto; lia. }
  destruct (chain_new_ok ERNum _ d C) as (sc' & E & L1 & L2 & L3 & Et' & Ev & _).
  assert (sc' = sc) by congruence. subst sc'. clear E. cbn [config_map hsize] in L1, L2, L3.
  unfold twin. rewrite Ev, Ec, El, L3. cbn [ssize set_drive config_map c_dt drive hs].
  repeat split; auto.
  - destruct (hs conf) as [|a [|b [|c [|]]]]; try discriminate. reflexivity.
  - destruct (chain_new_fields conf d zj zh _ Hf ltac:(lia) Hh Hj Hz H i H0) as [A _].
    rewrite A, Hv. rewrite as_usize_small by lia.
    destruct (Z.ltb_spec (Z.of_nat i) (ssize conf)), (Nat.ltb_spec i (Z.to_nat (ssize conf))); try lia;
      f_equal; apply v3_ext; cbn; ring.
  - rewrite Ef by assumption. rewrite as_usize_small by lia.
    destruct (Z.ltb_spec (Z.of_nat i) (ssize conf)), (Nat.ltb_spec i (Z.to_nat (ssize conf))); try lia; reflexivity.
Qed.

(** ** Non-vacuity: draws for which all spins are numbers exist for every length *)
Definition v0 : vec := mk3 (cos (1/100)) (sin (1/100)) 0.

Lemma cos001 : 0 < cos (1/100).
Proof. apply cos_gt_0; pose proof PI2_1; lra. Qed.

Lemma v0_dirn : dirn (1/100) (PI / 2) = v0.
Proof. unfold dirn, v0. rewrite sin_PI2, cos_PI2. f_equal; ring. Qed.

Lemma rdir_eq : dirn (2 * PI * (1/4)) (acos (1 - 2 * (1/2))) = mk3 0 1 0.
Proof.
  replace (1 - 2 * (1/2)) with 0 by field. rewrite acos_0.
  replace (2 * PI * (1/4)) with (PI / 2) by field.
  unfold dirn. rewrite sin_PI2, cos_PI2. f_equal; ring.
Qed.

Lemma unit_dot1 a b : unit3 a -> unit3 b -> dot a b = 1 -> a = b.
Proof.
  unfold unit3. intros A B D.
  assert (Z : vsub a b = vzero).
  { apply dot_zero. replace (dot (vsub a b) (vsub a b)) with (dot a a - 2 * dot a b + dot b b)
      by (unfold dot, vsub; cbn; ring). lra. }
  unfold vsub, vzero in Z. injection Z; intros. apply v3_ext; lra.
Qed.

Lemma cross_v0 : cross v0 (mk3 0 1 0) <> vzero.
Proof. unfold cross, v0, vzero; cbn. intro H. injection H; intros. pose proof cos001. lra. Qed.

Lemma step_straight b th ph : b <> 0 -> dirn th ph = v0 ->
  exists th' ph', new_spin_step ERNum (Some b) (Some (exp b)) (Some (1 / exp b))
    (Some (1/4), Some (1/2), Some 0) (Some th, Some ph) = Ok (fin3 v0, (Some th', Some ph')) /\
    dirn th' ph' = v0.
Proof.
  intros Hb Hd.
  destruct (new_spin_step_defined b (1/4) (1/2) 0 th ph Hb ltac:(lra) ltac:(lra)) as (d & U & E & F).
  { rewrite rdir_eq, Hd. apply cross_v0. }
  assert (D : dot d (dirn th ph) = 1).
  { rewrite Rmult_0_l, Rminus_0_r in E. apply exp_inv in E.
    apply Rmult_eq_reg_l with b; [lra|assumption]. }
  apply unit_dot1 in D; [|assumption|apply dirn_unit]. rewrite Hd in D. subst d.
  destruct F as (st' & Es). { unfold v0; cbn. pose proof cos001. lra. }
  destruct (new_spin_step_spin _ _ _ _ _ _ _ Es v0 eq_refl) as (th' & ph' & -> & Ev).
  exists th', ph'. auto.
Qed.

Definition straight_draw : newdraw ERNum :=
  mkNewDraw (N := ERNum) (fun _ => (Some (1/4), Some (1/2), Some 0)) (fun _ => fin3 vzero) (fun _ => fin3 vzero).

Lemma straight_spins b n : b <> 0 -> forall k th ph, dirn th ph = v0 ->
  new_spins ERNum (Some b) (Some (exp b)) (Some (1 / exp b)) (nd_u straight_draw) k n (Some th, Some ph)
  = Ok (repeat (fin3 v0) n).
Proof.
  intro Hb. induction n; intros k th ph Hd; cbn [new_spins repeat]; [reflexivity|].
  destruct (step_straight b th ph Hb Hd) as (th' & ph' & E & Hd').
  etransitivity; [apply (f_equal (fun q => bind q _) E)|].
  cbn [bind]. etransitivity; [apply (f_equal (fun q => bind q _) (IHn (S k) _ _ Hd'))|]. reflexivity.
Qed.

Lemma straight_new conf : beta conf <> 0 -> (0 <= hsize conf < 2 ^ 31)%Z ->
  (3 <= length (hfield conf))%nat -> (3 <= length (hs conf))%nat ->
  exists sc, chain_new ERNum (config_map Some conf) straight_draw = Ok sc /\
    spins sc = repeat (fin3 v0) (Z.to_nat (hsize conf)).
Proof.
  intros Hb Hh Hf Hs.
  assert (C : conf_ok ERNum (config_map Some conf)).
  { unfold conf_ok; cbn. rewrite !map_length. repeat split; auto; lia. }
  destruct (chain_new_ok ERNum _ straight_draw C) as (sc & E & _). exists sc. split; [exact E|].
  unfold chain_new in E; cbv zeta in E. cbn [config_map hsize beta] in E.
  rewrite as_usize_small in E by assumption.
  change (nexp ERNum (Some (beta conf))) with (Some (exp (beta conf))) in E.
  assert (Ed : ndiv ERNum (nofZ ERNum 1) (Some (exp (beta conf))) = Some (1 / exp (beta conf))).
  { apply er_div_ok. apply Rgt_not_eq, exp_pos. }
  assert (Ep : ndiv ERNum (npi ERNum) (nofZ ERNum 2) = Some (PI / 2)) by (apply er_div_ok; lra).
  assert (Et : nlit ERNum 1 2 = Some (1/100)).
  { cbn. reflexivity. }
  rewrite Ed, Ep, Et, (straight_spins _ _ Hb 0 _ _ v0_dirn) in E. cbn [bind] in E.
  destruct (normal_new _ _ _); cbn [bind] in E; try discriminate.
  destruct (normal_new _ _ _); cbn [bind] in E; try discriminate.
  destruct (mapM _ _); cbn [bind] in E; try discriminate.
  injection E as <-. reflexivity.
Qed.

(** ** Statements with nth_error *)
Lemma nth_error_at3 (N : NumOps) (l : list (v3 (num N))) i v :
  nth_error l i = Some v <-> (i < length l)%nat /\ at3 N l i = v.
Proof.
  unfold at3. split.
  - intro H. split; [apply nth_error_Some; congruence|]. apply nth_error_nth; assumption.
  - intros [H <-]. apply nth_error_nth'; assumption.
Qed.

Lemma conf_ok_map conf : (0 <= hsize conf < 2 ^ 31)%Z -> (3 <= length (hfield conf))%nat ->
  (3 <= length (hs conf))%nat -> conf_ok ERNum (config_map Some conf).
Proof. intros. unfold conf_ok; cbn. rewrite !map_length. repeat split; auto; lia. Qed.

Lemma new_fields_value conf (d : newdraw ERNum) (zj zh : nat -> vec) sc :
  (3 <= length (hfield conf))%nat -> (3 <= length (hs conf))%nat -> (0 <= hsize conf < 2 ^ 31)%Z ->
  (forall i, nd_j d i = fin3 (zj i)) -> (forall i, nd_h d i = fin3 (zh i)) ->
  chain_new ERNum (config_map Some conf) d = Ok sc ->
  forall i, (Z.of_nat i < hsize conf)%Z ->
    nth_error (static_h sc) i = Some (fin3 (vadd (vadd (hvec (hfield conf))
                       (if (Z.of_nat i <? ssize conf)%Z then hvec (hs conf) else vzero))
                 (vscale (hvar conf) (zh i)))) /\
    nth_error (j_couple sc) i = Some (fin3 (vadd (mk3 1 1 (lambda conf)) (vscale (jvar conf) (zj i)))).
Proof.
  intros Hf Hs Hh Hj Hz H i Hi.
  destruct (chain_new_ok ERNum _ d (conf_ok_map conf Hh Hf Hs)) as (sc' & E & L1 & L2 & L3 & _).
  assert (sc' = sc) by congruence. subst sc'.
  cbn [config_map hsize] in L1, L2, L3.
  destruct (chain_new_fields conf d zj zh _ Hf Hs Hh Hj Hz H i ltac:(lia)) as [A B].
  split; apply (nth_error_at3 ERNum); (split; [lia|assumption]).
Qed.

Lemma new_spins_boltzmann conf (d : newdraw ERNum) (u3 : nat -> R) sc :
  (3 <= length (hfield conf))%nat -> (3 <= length (hs conf))%nat -> (0 <= hsize conf < 2 ^ 31)%Z ->
  (forall i, snd (nd_u d i) = Some (u3 i)) ->
  chain_new ERNum (config_map Some conf) d = Ok sc ->
  forall i v, nth_error (spins sc) i = Some (fin3 v) ->
    unit3 v /\
    forall k, i = S k -> exists w, nth_error (spins sc) k = Some (fin3 w) /\ unit3 w /\
      exp (beta conf * dot v w) = exp (beta conf) - u3 i * (exp (beta conf) - exp (- beta conf)).
Proof.
  intros Hf Hs Hh Hu H i v Hv.
  destruct (chain_new_ok ERNum _ d (conf_ok_map conf Hh Hf Hs)) as (sc' & E & L1 & _).
  assert (sc' = sc) by congruence. subst sc'. cbn [config_map hsize] in L1.
  apply (nth_error_at3 ERNum) in Hv. destruct Hv as [Hi Hv].
  destruct (chain_new_spins conf d u3 sc Hh Hu H i v ltac:(lia) Hv) as (w & W).
  destruct (W i (le_n i)) as (A & B & C).
  assert (EQ : fin3 v = fin3 (w (S i))) by (rewrite <- A, <- Hv; reflexivity). apply fin3_inj in EQ. subst v.
  split; [exact B|]. intros k ->. exists (w (S k)).
  destruct (W k ltac:(lia)) as (A' & B' & C').
  split; [apply (nth_error_at3 ERNum); split; [lia|assumption]|]. split; [exact B'|]. exact C.
Qed.

Lemma lchain_new_base (N : NumOps) conf g (d : newdraw N) :
  lchain_new N conf g d =
  match chain_new N conf d with
  | Ok c => Ok (mkL (mkChain (j_couple c) (static_h c) (spins c) (t c) (vars c) true) g)
  | Panic p => Panic p
  | OutOfFuel => OutOfFuel
  end.
Proof. unfold lchain_new. destruct (chain_new N conf d); reflexivity. Qed.

Lemma boltz_transform : forall b, b <> 0 ->
  (forall u c, exp (b * c) = exp b - u * (exp b - exp (- b)) -> u = 1 - boltz_cdf b c) /\
  (forall x y, x < y -> boltz_cdf b x < boltz_cdf b y) /\
  boltz_cdf b (-1) = 0 /\ boltz_cdf b 1 = 1 /\
  (forall x, derivable_pt_lim (boltz_cdf b) x (b / (exp b - exp (- b)) * exp (b * x))).
Proof.
  intros b Hb. split; [intros; apply boltz_monotone; assumption|].
  split; [intros; apply boltz_cdf_incr; assumption|].
  destruct (boltz_cdf_ends b Hb). repeat split; auto. intro. apply boltz_cdf_deriv; assumption.
Qed.

Lemma static_twice_dynamics' conf (d : newdraw ERNum) (zj zh : nat -> vec) sc (c' : chain (num ERNum)) :
  (3 <= length (hfield conf))%nat -> length (hs conf) = 3%nat ->
  (0 <= hsize conf < 2 ^ 31)%Z -> (0 <= ssize conf <= hsize conf)%Z ->
  (forall i, nd_j d i = fin3 (zj i)) -> (forall i, nd_h d i = fin3 (zh i)) ->
  hvar conf = 0 -> drive conf = Dstaticfield ->
  chain_new ERNum (config_map Some conf) d = Ok sc ->
  vars c' = set_drive (config_map Some conf) Dnone ->
  j_couple c' = j_couple sc -> spins c' = spins sc -> t c' = t sc ->
  length (static_h c') = Z.to_nat (hsize conf) ->
  (forall i, (i < Z.to_nat (hsize conf))%nat -> nth i (static_h c') nan3 =
     fin3 (if (Z.of_nat i <? ssize conf)%Z
              then vadd (hvec (hfield conf)) (vscale 2 (hvec (hs conf)))
              else hvec (hfield conf))) ->
  forall k,
  match iterM (update ERNum) k sc, iterM (update ERNum) k c' with
  | Ok a, Ok a' => spins a = spins a' /\ t a = t a'
  | Panic p, Panic q => p = q
  | OutOfFuel, OutOfFuel => True
  | _, _ => False
  end.
Proof.
  intros Hf Hs Hh Hss Hj Hz Hv Hd H Ec Ej Es Et El Ef.
  apply (static_twice_dynamics conf d zj zh); auto.
  intros i Hi. rewrite <- (Ef i Hi). unfold at3. apply nth_indep. lia.
Qed.

Lemma c19_case : exists sc,
  chain_new ERNum (config_map Some (ex_conf 4 2 Dstaticfield)) straight_draw = Ok (fin sc) /\
  hvar (ex_conf 4 2 Dstaticfield) = 0 /\ drive (ex_conf 4 2 Dstaticfield) = Dstaticfield.
Proof.
  set (conf := ex_conf 4 2 Dstaticfield).
  assert (Hb : beta conf <> 0) by (cbn; lra).
  destruct (straight_new conf Hb) as (sc & E & Es); cbn; try lia.
  assert (C : conf_ok ERNum (config_map Some conf)) by (apply conf_ok_map; cbn; lia).
  destruct (chain_new_ok ERNum _ straight_draw C) as (sc' & E' & L1 & L2 & L3 & Et & Ev & Ef).
  assert (sc' = sc) by congruence. subst sc'.
  assert (F := new_fields_value conf straight_draw (fun _ => vzero) (fun _ => vzero) sc
     ltac:(cbn; lia) ltac:(cbn; lia) ltac:(cbn; lia) (fun _ => eq_refl) (fun _ => eq_refl) E).
  set (hfun := fun i => vadd (vadd (hvec (hfield conf))
                       (if (Z.of_nat i <? ssize conf)%Z then hvec (hs conf) else vzero))
                 (vscale (hvar conf) vzero)).
  set (jv := vadd (mk3 1 1 (lambda conf)) (vscale (jvar conf) vzero)).
  exists (mkChain (repeat jv 4) (map hfun (seq 0 4)) (repeat v0 4) (- trel conf) conf (c_log conf)).
  split; [|auto]. rewrite E. f_equal.
  destruct sc as [j h sp tm vr hf]. cbn [j_couple static_h spins t vars has_file] in *.
  change (Z.to_nat (hsize (config_map Some conf))) with 4%nat in *.
  change (Z.to_nat (hsize conf)) with 4%nat in *.
  assert (LX : forall l1 l2 : list (v3 (num ERNum)), length l1 = 4%nat -> length l2 = 4%nat ->
     (forall i, (i < 4)%nat -> nth_error l1 i = nth_error l2 i) -> l1 = l2).
  { intros l1 l2 H1 H2 Hn.
    destruct l1 as [|a [|b [|c [|e [|]]]]]; try discriminate.
    destruct l2 as [|a' [|b' [|c' [|e' [|]]]]]; try discriminate.
    pose proof (Hn 0%nat ltac:(lia)). pose proof (Hn 1%nat ltac:(lia)).
    pose proof (Hn 2%nat ltac:(lia)). pose proof (Hn 3%nat ltac:(lia)). cbn in *. congruence. }
  unfold fin, chain_map; cbn [j_couple static_h spins t vars has_file].
  f_equal; auto.
  - apply LX; auto. intros i Hi. destruct (F i ltac:(cbn; lia)) as [_ B]. rewrite B.
    destruct i as [|[|[|[|]]]]; try lia; reflexivity.
  - apply LX; auto. intros i Hi. destruct (F i ltac:(cbn; lia)) as [A _]. rewrite A.
    destruct i as [|[|[|[|]]]]; try lia; reflexivity.
Qed.

Lemma lchain_new_shape (N : NumOps) conf g (d : newdraw N) sc : chain_new N conf d = Ok sc ->
  exists l, lchain_new N conf g d = Ok l /\ spins (base l) = spins sc /\
    j_couple (base l) = j_couple sc /\ static_h (base l) = static_h sc /\ t (base l) = t sc /\
    vars (base l) = vars sc /\ has_file (base l) = true /\ gamma l = g.
Proof. intro H. rewrite lchain_new_base, H. eexists; split; [reflexivity|]. cbn. auto 8. Qed.
