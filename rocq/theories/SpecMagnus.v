(** Terms of the Magnus expansion on the ring, in vector form. *)
From Coq Require Import Reals ZArith Arith.
From Verif Require Import Num Spin Config Chain SpecVec SpecChain SpecMC.
Local Open Scope R_scope.

Definition before_of (n k : nat) : nat := (k + (n - 1)) mod n.
Definition after_of (n k : nat) : nat := (k + 1) mod n.

(** Exchange field acting on site k *)
Definition pull_on (n : nat) (S J : nat -> vec) (k : nat) : vec :=
  vadd (vhad (J (before_of n k)) (S (before_of n k))) (vhad (J k) (S (after_of n k))).

(** Terms of order 1/w: the drive's own shift and the bonds *)
Definition order_one (n : nat) (S J : nat -> vec) : R :=
  Rsum n (fun k => - vz (S k) / 2 - magnus_bond S J k (after_of n k)).

(** Terms of order 1/w^2: site, bond k - k+1, the double cross product of the exchange field
    with the spin, and the twist of that cross product against the neighbours *)
Definition second_bond (S J : nat -> vec) (k m : nat) : R :=
  1 / 2 * (vy (J k) * (vz (S k) * vz (S m)) + vz (J k) * (vy (S k) * vy (S m)))
  + 3 / 2 * (vx (J k) * (vz (S k) * vz (S m)) + vz (J k) * (vx (S k) * vx (S m))).
Definition double_cross (n : nat) (S J : nat -> vec) (k : nat) : R :=
  vx (cross (pull_on n S J k) (cross (pull_on n S J k) (S k))).
Definition twist (n : nat) (S J : nat -> vec) (k : nat) : R :=
  let p := before_of n k in let q := after_of n k in
  let w := cross (pull_on n S J k) (S k) in
  vy w * (vy (J p) * vz (S p) + vy (J k) * vz (S q)) - vz w * (vz (J p) * vy (S p) + vz (J k) * vy (S q)).
Definition order_two (n : nat) (S J : nat -> vec) : R :=
  Rsum n (fun k => vx (S k) / 2 - second_bond S J k (after_of n k) + double_cross n S J k + twist n S J k).

(** The x factor of the site after i taken with the spin two places before i instead of i
    itself *)
Definition slip (n : nat) (S J : nat -> vec) (i : nat) : R :=
  let q := after_of n i in let b := before_of n (before_of n i) in
  vx (S q) * (vx (pull_on n S J q) * (vx (J i) * vx (S i) - vx (J b) * vx (S b))).

(** What site m contributes to the bond term at site i through the coupling k *)
Definition one_way (S J : nat -> vec) (k i m : nat) : R :=
  vz (J k) * vz (S m) * vx (S i) - vx (J k) * vx (S m) * vz (S i).
(** The bond terms of site i; the reverse directions are left out at the two ends of the
    subsystem of s sites *)
Definition ends_first (n s : nat) (S J : nat -> vec) (i : nat) : R :=
  let p := before_of n i in let q := after_of n i in
  one_way S J p i p + one_way S J i i q
  + (if (i =? 0)%nat then 0 else one_way S J p p i) + (if (i =? s - 1)%nat then 0 else one_way S J i q i).

(** Change of a function of the spins when site i is turned to v *)
Definition change (F : (nat -> vec) -> R) (c : chain R) (i : nat) (v : vec) : R :=
  F (S_ (moved c i v)) - F (S_ c).

(** The changes used by the samplers *)
Definition second_order_change (n s : nat) (c : chain R) (i : nat) (v : vec) : R :=
  let w := omega c in let J := J_ c in
  change (fun S => exchange_energy n S J) c i v
  + (if (i <? s)%nat
     then change (fun S => order_one n S J) c i v / w
          + (change (fun S => order_two n S J) c i v + change (fun S => slip n S J i) c i v) / (w * w)
     else 0).
Definition first_order_change (n s : nat) (c : chain R) (i : nat) (v : vec) : R :=
  let w := omega c in let J := J_ c in
  change (fun S => exchange_energy n S J) c i v
  - (if (i <? s)%nat then w * change (fun S => ends_first n s S J i) c i v else 0).

(** The chain driven with period t *)
Definition at_period (c : chain R) (t : R) : chain R := set_vars c (set_tau (vars c) t).
(** F tends to x as the period shrinks *)
Definition fast_limit (F : R -> R) (x : R) : Prop :=
  forall eps, 0 < eps -> exists t0, 0 < t0 /\ forall t, 0 < t < t0 -> Rabs (F t - x) < eps.
(** F exceeds every bound as the period shrinks *)
Definition fast_blowup (F : R -> R) : Prop :=
  forall b, exists t0, 0 < t0 /\ forall t, 0 < t < t0 -> b < Rabs (F t).
(** Change used by the laboratory-frame sampler *)
Definition lab_change (n : nat) (c : chain R) (i : nat) (v : vec) : R :=
  change (fun S => lab_energy n (omega c) S (J_ c)) c i v.
