(** Theorems about spins: properties C01 to C09 of properties.jsonl.
    [ERNum] is exact real arithmetic with NaN, [F64 L] is IEEE binary64 with maths library [L]. *)
From Coq Require Import Reals List ZArith Lra Lia.
From Coq Require Import Floats.SpecFloat.
From Verif Require Import Num Monad NumR NumF64 Spin SpecVec ProofsSpin ProofsF64.
Import ListNotations.
Local Open Scope R_scope.

(** * C01: constructors *)
Theorem C01_new_unit : spin_new ERNum = fin3 (mk3 1 0 0) /\ unit3 (mk3 1 0 0).
Proof. exact spin_new_unit. Qed.
Print Assumptions C01_new_unit.

Theorem C01_angles_unit : forall th ph,
  new_from_angles ERNum (Some th) (Some ph) = fin3 (dirn th ph) /\
  (forall s, set_angles ERNum s (Some th) (Some ph) = fin3 (dirn th ph)) /\
  unit3 (dirn th ph).
Proof. exact new_angles_unit. Qed.
Print Assumptions C01_angles_unit.

Theorem C01_xyz_unit : forall v, v <> vzero ->
  exists u c, new_xyz ERNum [Some (vx v); Some (vy v); Some (vz v)] = Ok (fin3 u) /\
              unit3 u /\ 0 < c /\ u = vscale c v.
Proof. exact new_xyz_three. Qed.
Print Assumptions C01_xyz_unit.
Example C01_xyz_unit_case : mk3 3 0 4 <> vzero.
Proof. intro H; injection H; lra. Qed.

Theorem C01_xyz_rescale : forall v c, 0 < c -> v <> vzero ->
  new_xyz ERNum [Some (c * vx v); Some (c * vy v); Some (c * vz v)] =
  new_xyz ERNum [Some (vx v); Some (vy v); Some (vz v)].
Proof. exact new_xyz_rescale. Qed.
Print Assumptions C01_xyz_rescale.

Theorem C01_xyz_zero : forall x y z rest,
  sumsq (x :: y :: z :: rest) = 0 ->
  new_xyz ERNum (map Some (x :: y :: z :: rest)) = Ok nan3.
Proof. exact new_xyz_ER_zero. Qed.
Print Assumptions C01_xyz_zero.
Example C01_xyz_zero_case : sumsq [0; 0; 0] = 0.
Proof. cbn; ring. Qed.

Theorem C01_xyz_short_panics : forall (N : NumOps) (l : list (num N)),
  (length l < 3)%nat -> new_xyz N l = Panic IndexOOB.
Proof. exact new_xyz_short. Qed.
Print Assumptions C01_xyz_short_panics.

(** Extra components enter the norm: the result is a unit vector only if they are all zero. *)
Theorem C01_xyz_long : forall x y z rest v,
  new_xyz ERNum (map Some (x :: y :: z :: rest)) = Ok (fin3 v) ->
  (unit3 v <-> Forall (fun r => r = 0) rest).
Proof. exact new_xyz_long_unit. Qed.
Print Assumptions C01_xyz_long.
Example C01_xyz_long_case : exists v,
  new_xyz ERNum (map Some [1; 2; 3; 4]) = Ok (fin3 v) /\ ~ unit3 v.
Proof.
  eexists. split.
  - apply new_xyz_ER. cbn; lra.
  - intro H. eapply C01_xyz_long in H; [|apply new_xyz_ER; cbn; lra].
    inversion H; lra.
Qed.

(** * C02: rotation keeps spins on the unit sphere *)
Theorem C02_rotate_unit : forall s f dt, s <> vzero -> f <> vzero ->
  exists s', rotate ERNum (fin3 s) (fin3 f) (Some dt) = fin3 s' /\ unit3 s'.
Proof. exact rotate_unit_result. Qed.
Print Assumptions C02_rotate_unit.

Theorem C02_rotations_unit : forall (l : list (vec * R)) s,
  s <> vzero -> Forall (fun p => fst p <> vzero) l ->
  exists s', fold_left (fun a p => rotate ERNum a (fin3 (fst p)) (Some (snd p))) l (fin3 s) = fin3 s'
             /\ (l <> [] -> unit3 s') /\ s' <> vzero.
Proof. exact rotations_unit_result. Qed.
Print Assumptions C02_rotations_unit.
Example C02_rotations_unit_case :
  mk3 0 2 0 <> vzero /\ Forall (fun p => fst p <> vzero) [(mk3 1 2 3, 1/10); (mk3 0 0 (-1), -5)].
Proof.
  split; [intro H; injection H; lra|].
  repeat constructor; intro H; injection H; lra.
Qed.

(** * C03: rotation is the solution of dS/dt = S x W *)
Theorem C03_rotate_solves_precession : forall s W,
  unit3 s -> W <> vzero ->
  exists C : R -> vec,
    (forall dt, rotate ERNum (fin3 s) (fin3 W) (Some dt) = fin3 (C dt)) /\
    C 0 = s /\ (forall x, has_velocity C x (cross (C x) W)).
Proof. exact rotate_precession. Qed.
Print Assumptions C03_rotate_solves_precession.

Theorem C03_precession_is_rotate : forall s W (C : R -> vec),
  unit3 s -> W <> vzero -> C 0 = s -> (forall x, has_velocity C x (cross (C x) W)) ->
  forall dt, rotate ERNum (fin3 s) (fin3 W) (Some dt) = fin3 (C dt).
Proof. exact rotate_precession_unique. Qed.
Print Assumptions C03_precession_is_rotate.
(** A case: a spin along x in a field along z precesses clockwise. *)
Example C03_case : unit3 (mk3 1 0 0) /\ mk3 0 0 1 <> vzero /\
  forall dt, rotate ERNum (fin3 (mk3 1 0 0)) (fin3 (mk3 0 0 1)) (Some dt)
             = fin3 (mk3 (cos dt) (- sin dt) 0).
Proof.
  assert (U : unit3 (mk3 1 0 0)) by (unfold unit3, dot; cbn; ring).
  assert (Z : mk3 0 0 1 <> vzero) by (intro H; injection H; lra).
  split; [exact U|split; [exact Z|]].
  apply (C03_precession_is_rotate (mk3 1 0 0) (mk3 0 0 1) (fun x => mk3 (cos x) (- sin x) 0) U Z).
  - rewrite cos_0, sin_0, Ropp_0; reflexivity.
  - intro x. unfold has_velocity; cbn. repeat split.
    + replace (- sin x * 1 - 0 * 0) with (- sin x) by ring. apply derivable_pt_lim_cos.
    + replace (0 * 0 - cos x * 1) with (- cos x) by ring.
      apply (derivable_pt_lim_opp sin), derivable_pt_lim_sin.
    + replace (cos x * 0 - - sin x * 0) with 0 by ring. apply derivable_pt_lim_const.
Qed.

(** * C04: rigid motion, one-parameter group *)
Theorem C04_rigid : forall s1 s2 f dt, unit3 s1 -> unit3 s2 -> f <> vzero ->
  exists r1 r2, rotate ERNum (fin3 s1) (fin3 f) (Some dt) = fin3 r1 /\
                rotate ERNum (fin3 s2) (fin3 f) (Some dt) = fin3 r2 /\
                dot r1 r2 = dot s1 s2 /\ dot r1 f = dot s1 f.
Proof. exact rotate_same_dot. Qed.
Print Assumptions C04_rigid.

Theorem C04_group : forall s f a b, unit3 s -> f <> vzero ->
  rotate ERNum (rotate ERNum (fin3 s) (fin3 f) (Some a)) (fin3 f) (Some b) =
  rotate ERNum (fin3 s) (fin3 f) (Some (a + b)).
Proof. exact rotate_group. Qed.
Print Assumptions C04_group.

Theorem C04_inverse : forall s f a, unit3 s -> f <> vzero ->
  rotate ERNum (rotate ERNum (fin3 s) (fin3 f) (Some a)) (fin3 f) (Some (- a)) = fin3 s.
Proof. exact rotate_inverse. Qed.
Print Assumptions C04_inverse.

Theorem C04_rescale : forall s f c dt, unit3 s -> f <> vzero -> 0 < c ->
  rotate ERNum (fin3 s) (fin3 (vscale c f)) (Some dt) =
  rotate ERNum (fin3 s) (fin3 f) (Some (c * dt)).
Proof. exact rotate_rescale. Qed.
Print Assumptions C04_rescale.

Theorem C04_period : forall s f dt (k : Z), unit3 s -> f <> vzero ->
  rotate ERNum (fin3 s) (fin3 f) (Some (dt + IZR k * (2 * PI / norm f))) =
  rotate ERNum (fin3 s) (fin3 f) (Some dt).
Proof. exact rotate_period. Qed.
Print Assumptions C04_period.
Example C04_case : unit3 (mk3 0 1 0) /\ unit3 (mk3 (3/5) 0 (4/5)) /\ mk3 1 1 1 <> vzero.
Proof.
  repeat split; unfold unit3, dot; cbn; try lra. intro H; injection H; lra.
Qed.

(** * C05: a vanishing field poisons the spin (binary64) *)
Theorem C05_zero_field_nan : forall L s field dt,
  zero3 field -> rotate (F64 L) s field dt = nan3f.
Proof. exact rotate_F64_zero_field. Qed.
Print Assumptions C05_zero_field_nan.
Example C05_zero_field_case : zero3 (mk3 (f_ofZ 0) (SFopp (f_ofZ 0)) (f_ofZ 0)).
Proof. exists false, true, false. reflexivity. Qed.

Theorem C05_nan_is_forever : forall L (l : list (v3 f64 * f64)) s,
  some_nan s -> l <> [] ->
  fold_left (fun a p => rotate (F64 L) a (fst p) (snd p)) l s = nan3f.
Proof. exact rotations_F64_nan. Qed.
Print Assumptions C05_nan_is_forever.
Example C05_nan_case : some_nan (mk3 (f_ofZ 1) S754_nan (f_ofZ 0)).
Proof. right; left; reflexivity. Qed.

(** The same in exact arithmetic. *)
Theorem C05_zero_field_nan_exact : forall s dt, rotate ERNum s (fin3 vzero) dt = nan3.
Proof. exact rotate_ER_zero_field. Qed.
Print Assumptions C05_zero_field_nan_exact.

(** * C06: Gram-Schmidt *)
Theorem C06_gs : forall old perp,
  old <> vzero -> cross old perp <> vzero ->
  exists u, gs ERNum (fin3 old) (fin3 perp) = fin3 u /\ unit3 u /\ dot u old = 0 /\
            0 < dot u perp /\ exists a b, u = vadd (vscale a old) (vscale b perp).
Proof. exact gs_spec. Qed.
Print Assumptions C06_gs.
Example C06_gs_case : mk3 2 0 0 <> vzero /\ cross (mk3 2 0 0) (mk3 5 1 0) <> vzero.
Proof. split; intro H; injection H; lra. Qed.

Theorem C06_gs_degenerate : forall old perp,
  old = vzero \/ cross old perp = vzero -> gs ERNum (fin3 old) (fin3 perp) = nan3.
Proof. exact gs_nan. Qed.
Print Assumptions C06_gs_degenerate.
Example C06_gs_degenerate_case : cross (mk3 1 2 3) (mk3 (-2) (-4) (-6)) = vzero.
Proof. apply v3_ext; cbn; ring. Qed.

(** * C07: rot_perp *)
Theorem C07_rot_perp_angle : forall th ph r a th' ph',
  rot_perp ERNum (Some th, Some ph) (fin3 r) (Some a) = (Some th', Some ph') ->
  dot (dirn th' ph') (dirn th ph) = cos a.
Proof. exact rot_perp_angle. Qed.
Print Assumptions C07_rot_perp_angle.

Theorem C07_rot_perp_defined : forall th ph r a,
  cross (dirn th ph) r <> vzero ->
  exists d, unit3 d /\ dot d (dirn th ph) = cos a /\
    (vx d <> 0 -> exists th' ph',
      rot_perp ERNum (Some th, Some ph) (fin3 r) (Some a) = (Some th', Some ph') /\ dirn th' ph' = d) /\
    (vx d = 0 -> exists q, rot_perp ERNum (Some th, Some ph) (fin3 r) (Some a) = (None, q)).
Proof. exact rot_perp_defined. Qed.
Print Assumptions C07_rot_perp_defined.
Example C07_case : cross (dirn 0 (PI / 2)) (mk3 0 0 1) <> vzero.
Proof.
  unfold dirn, cross; rewrite sin_PI2, cos_PI2, cos_0, sin_0; cbn. intro H; injection H; lra.
Qed.

(** * C08: angles round-trip *)
Theorem C08_roundtrip : forall s, unit3 s -> vx s <> 0 ->
  exists th ph, theta ERNum (fin3 s) = Some th /\ phi ERNum (fin3 s) = Some ph /\ dirn th ph = s.
Proof. exact theta_phi_roundtrip. Qed.
Print Assumptions C08_roundtrip.
Example C08_roundtrip_case : unit3 (mk3 (-3/5) (4/5) 0) /\ vx (mk3 (-3/5) (4/5) 0) <> 0.
Proof. split; [unfold unit3, dot; cbn; lra | cbn; lra]. Qed.

(** In binary64 a spin along +y (x = +0) gets azimuth 3 pi/2 (5305678314021330 * 2^-50 =
    4.712388980384690), the azimuth of -y. *)
Theorem C08_plus_y_azimuth : forall L z m e,
  l_atan L (S754_infinity false) = S754_finite false 7074237752028440 (-52) ->
  theta (F64 L) (mk3 (S754_zero false) (S754_finite false m e) z)
  = S754_finite false 5305678314021330 (-50).
Proof. exact (fun L z m e => theta_F64_plus_y L _ z m e eq_refl). Qed.
Print Assumptions C08_plus_y_azimuth.

(** With x = -0 the same direction gets the right azimuth pi/2. *)
Theorem C08_minus_zero_azimuth : forall L z m e,
  l_atan L (S754_infinity true) = S754_finite true 7074237752028440 (-52) ->
  theta (F64 L) (mk3 (S754_zero true) (S754_finite false m e) z)
  = S754_finite false 7074237752028440 (-52).
Proof. exact (fun L z m e => theta_F64_minus0_y L _ z m e eq_refl). Qed.
Print Assumptions C08_minus_zero_azimuth.

(** * C09: equality of spins *)
Theorem C09_eq_iff : forall a b,
  spin_eqb ERNum a b = true <->
  exists a' b', a = fin3 a' /\ b = fin3 b' /\
    Rabs (vx a' - vx b') < 1 / 1000 /\ Rabs (vy a' - vy b') < 1 / 1000 /\ Rabs (vz a' - vz b') < 1 / 1000.
Proof. exact spin_eqb_ER_iff. Qed.
Print Assumptions C09_eq_iff.

Theorem C09_eq_sym : forall a b, spin_eqb ERNum a b = spin_eqb ERNum b a.
Proof. exact spin_eqb_ER_sym. Qed.
Print Assumptions C09_eq_sym.

Theorem C09_eq_refl : forall a, spin_eqb ERNum a a = true <-> exists a', a = fin3 a'.
Proof. exact spin_eqb_ER_refl. Qed.
Print Assumptions C09_eq_refl.

(** In binary64: reflexive exactly on spins whose components are all finite. *)
Theorem C09_eq_refl_f64 : forall L a,
  spin_eqb (F64 L) a a = true <->
  f_finite (vx a) = true /\ f_finite (vy a) = true /\ f_finite (vz a) = true.
Proof. exact spin_eqb_F64_refl. Qed.
Print Assumptions C09_eq_refl_f64.

Theorem C09_eq_not_transitive :
  exists a b c, spin_eqb ERNum (fin3 a) (fin3 b) = true /\ spin_eqb ERNum (fin3 b) (fin3 c) = true /\
                spin_eqb ERNum (fin3 a) (fin3 c) = false.
Proof. exact spin_eqb_not_transitive. Qed.
Print Assumptions C09_eq_not_transitive.
