(** C62: rounding does not make spins drift off the unit sphere (binary64). *)
From Coq Require Import ZArith Reals List Lia Lra Bool Arith String.
From Coq Require Import Floats.SpecFloat.
From Verif Require Import Num Monad NumF64 Spin Config Chain SpecVec SpecChain SpecRound ProofsFlocq ProofsRound ProofsRound2.
Import ListNotations.
Local Open Scope R_scope.

(** Normalising any vector whose squared length is far from overflow and underflow gives a unit
    vector up to 2^-50. *)
Theorem C62_new_xyz : forall L v, mid_range v ->
  exists v' : v3 f64, new_xyz (F64 L) [vx v; vy v; vz v] = Ok v' /\ near_unit (powerRZ 2 (-50)) v'.
Proof. exact new_xyz_near. Qed.
Print Assumptions C62_new_xyz.

(** One rotation, with any maths library meeting [sane]: the result is a unit vector up to 2^-50
    even if the input is off by 1/8. *)
Theorem C62_rotate : forall L s field dt, sane L -> near_unit (1 / 8) s -> mid_range field ->
  is_number dt -> Rabs (value dt) <= powerRZ 2 500 ->
  near_unit (powerRZ 2 (-50)) (rotate (F64 L) s field dt).
Proof. exact rotate_near. Qed.
Print Assumptions C62_rotate.

(** Any number of rotations: the error bound does not grow. *)
Theorem C62_rotations : forall L l, sane L ->
  Forall (fun p => mid_range (fst p) /\ is_number (snd p) /\ Rabs (value (snd p)) <= powerRZ 2 500) l ->
  forall s, near_unit (1 / 8) s ->
  let s' := fold_left (fun a p => rotate (F64 L) a (fst p) (snd p)) l s in
  near_unit (1 / 8) s' /\ (l <> [] -> near_unit (powerRZ 2 (-50)) s').
Proof. exact rotations_near. Qed.
Print Assumptions C62_rotations.

(** Any number of time steps of a whole undriven chain in a strong field: no step fails, all spins
    stay finite, and every moving spin is a unit vector up to 2^-50, without growth in [k]. *)
Theorem C62_chain : forall L n s k sc, sane L -> wf n s sc -> (2 <= n)%nat -> drive (vars sc) = Dnone ->
  strong_sites sc -> is_number (c_dt (vars sc)) -> Rabs (value (c_dt (vars sc))) <= powerRZ 2 500 ->
  Forall (near_unit (1 / 8)) (spins sc) ->
  exists sc' : chain f64, iterM (update (F64 L)) k sc = Ok sc' /\ Forall (near_unit (1 / 8)) (spins sc') /\
    ((1 <= k)%nat -> forall p, (p < 2 * (n / 2))%nat ->
       near_unit (powerRZ 2 (-50)) (nth p (spins sc') (mk3 S754_nan S754_nan S754_nan))).
Proof. exact (fun L n s k sc => updates_near L n s k sc). Qed.
Print Assumptions C62_chain.

(** Hypotheses met: a library with constant (cos, sin) = (3/4, 5/8), and an anisotropic chain whose
    spins are off the sphere by about a tenth. *)
Definition ex_libm : libm := mkLibm (fun _ => f_lit 75 2) (fun _ => f_lit 625 3) (fun x => x) (fun x => x) (fun x => x)
  (fun x => x) (fun x => x) (fun l i => (nth i l S754_nan, S754_nan)).
Definition ex_fconf : config f64 :=
  mkConfig 3 2 (f_ofZ 256) (f_lit 2 2) 2 (f_ofZ 0) 2 (f_ofZ 10) (f_ofZ 1) [] [f_ofZ 1; f_ofZ 0; f_ofZ 0]
    (f_ofZ 0) (f_ofZ 0) 2 (f_ofZ 0) "log"%string false 0 (f_ofZ 2) 1000 (f_ofZ 0) Dnone true.
Definition ex_fchain : chain f64 :=
  mkChain [mk3 (f_ofZ 1) (f_ofZ (-1)) (f_lit 5 1); mk3 (f_ofZ 1) (f_ofZ 1) (f_ofZ 0); mk3 (f_ofZ 1) (f_ofZ 1) (f_ofZ 1)]
    [mk3 (f_ofZ 1) (f_ofZ 0) (f_ofZ 4); mk3 (f_ofZ 0) (f_ofZ 8) (f_ofZ (-5)); mk3 (f_ofZ 0) (f_ofZ 0) (f_ofZ 6)]
    [mk3 (f_ofZ 1) (f_ofZ 0) (f_lit 25 2); mk3 (f_ofZ 0) (f_ofZ (-1)) (f_ofZ 0); mk3 (f_lit 75 2) (f_lit 625 3) (f_ofZ 0)]
    (f_ofZ 0) ex_fconf true.

Local Ltac nf x := let y := eval vm_compute in x in change x with y.
Local Ltac num_tac := split; vm_compute; reflexivity.
Local Ltac val_tac :=
  repeat match goal with |- context [value ?x] => let y := eval vm_compute in x in progress change (value x) with (value y) end;
  unfold value; rewrite <- ?powerRZ_Rpower by lra; cbn [powerRZ]; unfold Rabs; simpl;
  repeat match goal with |- context [Rcase_abs ?r] => destruct (Rcase_abs r) end; try lra.

Example C62_case : sane ex_libm /\ wf 3 2 ex_fchain /\ strong_sites ex_fchain /\
  is_number (c_dt (vars ex_fchain)) /\ Rabs (value (c_dt (vars ex_fchain))) <= powerRZ 2 500 /\
  Forall (near_unit (1 / 8)) (spins ex_fchain) /\ mid_range (mk3 (f_ofZ 1) (f_ofZ 0) (f_ofZ 4)).
Proof.
  split; [|split; [|split; [|split; [|split; [|split]]]]].
  - intros x _. cbn [ex_libm l_cos l_sin]. repeat split; try (vm_compute; reflexivity); val_tac.
  - constructor; cbn; auto; lia.
  - split; cbn [ex_fchain j_couple static_h]; repeat first [apply Forall_nil | apply Forall_cons | split]; cbn [vx vy vz]; try (vm_compute; reflexivity); cbn [vx vy vz]; val_tac.
  - num_tac.
  - apply Rle_trans with 1; [val_tac|]. apply one_le_pow.
  - cbn [ex_fchain spins]; repeat first [apply Forall_nil | apply Forall_cons | split]; cbn [vx vy vz]; try (vm_compute; reflexivity); unfold len2, vvalue, dot; cbn [vx vy vz]; val_tac.
  - apply mid_of; [repeat split; vm_compute; reflexivity|split; [|split]|]; cbn [vx vy vz]; val_tac.
Qed.
