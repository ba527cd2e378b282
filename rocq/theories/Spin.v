(** Transcription of /repo/src/spin.rs. *)
From Coq Require Import ZArith List.
From Verif Require Import Num Monad.
Import ListNotations.

Section Spin.
Context (N : NumOps).
Notation T := (num N).
Notation "x + y" := (nadd N x y) : num_scope.
Notation "x - y" := (nsub N x y) : num_scope.
Notation "x * y" := (nmul N x y) : num_scope.
Notation "x / y" := (ndiv N x y) : num_scope.
Notation "- x" := (nopp N x) : num_scope.
Notation "# z" := (nofZ N z%Z) (at level 0, z at level 0) : num_scope.
Notation "x < y" := (nltb N x y) : num_scope.
Local Open Scope num_scope.

(** `iter().map(|x| x*x).sum::<f64>()`: left fold from 0.  (Since Rust 1.83 the
    fold starts from -0.0; sums of squares are the same number except that the
    empty sum differs in the sign of zero.) *)
Definition sum_sq (l : list T) : T := fold_left (fun a x => a + x * x) l #0.

Definition arr (v : v3 T) : list T := [vx v; vy v; vz v].

(** Spin::new, spin.rs:23-27 (also Default, :198-202) *)
Definition spin_new : v3 T := mk3 #1 #0 #0.

(** Spin::new_xyz, spin.rs:39-44; the argument is a slice of any length *)
Definition new_xyz (input : list T) : res (v3 T) :=
  let norm := nsqrt N (sum_sq input) in
  let* x := idx input 0 in
  let* y := idx input 1 in
  let* z := idx input 2 in
  Ok (mk3 (x / norm) (y / norm) (z / norm)).

(** Spin::new_from_angles, spin.rs:57-61 *)
Definition new_from_angles (theta phi : T) : v3 T :=
  mk3 (ncos N theta * nsin N phi) (nsin N theta * nsin N phi) (ncos N phi).

(** Spin::set_angles, spin.rs:150-152 (the old direction is overwritten) *)
Definition set_angles (s : v3 T) (theta phi : T) : v3 T :=
  mk3 (ncos N theta * nsin N phi) (nsin N theta * nsin N phi) (ncos N phi).

(** Spin::gs, spin.rs:84-95 *)
Definition gs (old perp : v3 T) : v3 T :=
  let dot := vx perp * vx old + vy perp * vy old + vz perp * vz old in
  let on := sum_sq (arr old) in
  let sub := mk3 (vx perp - dot * vx old / on)
                 (vy perp - dot * vy old / on)
                 (vz perp - dot * vz old / on) in
  let s := nsqrt N (sum_sq (arr sub)) in
  mk3 (vx sub / s) (vy sub / s) (vz sub / s).

(** Spin::theta, spin.rs:135-141 *)
Definition theta (s : v3 T) : T :=
  natan N (vy s / vx s) + (if #0 < vx s then #0 else npi N).

(** Spin::phi, spin.rs:143-145 *)
Definition phi (s : v3 T) : T := nacos N (vz s).

(** Spin::rotate, spin.rs:172-195; returns the new direction *)
Definition rotate (s field : v3 T) (dt : T) : v3 T :=
  let fs := nsqrt N (sum_sq (arr field)) in
  let f := mk3 (vx field / fs) (vy field / fs) (vz field / fs) in
  let dts := fs * dt in
  let dc := ncos N dts in
  let ds := nsin N dts in
  let axp := #0 + vx s * vx f + vy s * vy f + vz s * vz f in
  let axo := mk3 (vy f * vz s - vz f * vy s)
                 (vz f * vx s - vx f * vz s)
                 (vx f * vy s - vy f * vx s) in
  let sxyz := mk3 (vx s * dc + vx f * axp * (#1 - dc) - vx axo * ds)
                  (vy s * dc + vy f * axp * (#1 - dc) - vy axo * ds)
                  (vz s * dc + vz f * axp * (#1 - dc) - vz axo * ds) in
  let ss := nsqrt N (sum_sq (arr sxyz)) in
  mk3 (vx sxyz / ss) (vy sxyz / ss) (vz sxyz / ss).

(** Spin::rot_perp, spin.rs:97-133; angles are pairs (theta, phi) *)
Definition rot_perp (old : T * T) (rot_dir : v3 T) (rot_angle : T) : T * T :=
  let old_spin := new_from_angles (fst old) (snd old) in
  let perp_dir := gs old_spin rot_dir in
  let s := rotate old_spin perp_dir (- rot_angle) in
  (theta s, phi s).

(** PartialEq for Spin, spin.rs:203-213 *)
Definition spin_eqb (a b : v3 T) : bool :=
  (nabs N (vx a - vx b) < nlit N 1 3)
  && (nabs N (vy a - vy b) < nlit N 1 3)
  && (nabs N (vz a - vz b) < nlit N 1 3).

End Spin.
