(** Specification vocabulary: the frame that turns with the drive about the z axis. *)
From Coq Require Import Reals List Arith.
From Verif Require Import Num Config Chain SpecVec SpecChain.
Local Open Scope R_scope.

(** A vector seen from a frame turned by the angle [w x] about z *)
Definition seen (w x : R) (v : vec) : vec :=
  mk3 (cos (w * x) * vx v + sin (w * x) * vy v) (cos (w * x) * vy v - sin (w * x) * vx v) (vz v).
(** The drive as seen from that frame: unit field along x on the first [s] sites, and [-w] along z everywhere *)
Definition frame_field (s : nat) (w : R) (i : nat) : vec := mk3 (if (i <? s)%nat then 1 else 0) 0 (- w).
Definition drive_w (sc : chain R) : R := 2 * PI / tau (vars sc).
(** The undriven chain with these static fields, its spins seen from the frame *)
Definition frame_chain (n s : nat) (sc : chain R) : chain R :=
  mkChain (j_couple sc) (map (fun i => vadd (h_ sc i) (frame_field s (drive_w sc) i)) (seq 0 n))
          (map (seen (drive_w sc) (t sc)) (spins sc)) (t sc) (set_drive (vars sc) Dnone) (has_file sc).
(** Couplings equal in x and y, static fields along z *)
Definition round_z (n : nat) (sc : chain R) : Prop :=
  forall i, (i < n)%nat -> vx (J_ sc i) = vy (J_ sc i) /\ vx (h_ sc i) = 0 /\ vy (h_ sc i) = 0.
(** Energy less drive frequency times magnetisation along z *)
Definition frame_energy (n s : nat) (sc : chain R) (S : nat -> vec) (x : R) : R :=
  ring_energy n S (J_ sc) (B_ sc s x) - drive_w sc * Rsum n (fun i => vz (S i)).
