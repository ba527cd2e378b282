(** Specification vocabulary: binary64 runs beside exact ones. *)
From Coq Require Import ZArith Reals Bool List Arith.
From Coq Require Import Floats.SpecFloat.
From Verif Require Import Num NumR NumF64 Config Chain SpecVec SpecChain SpecRound.
Local Open Scope R_scope.

(** sin and cos of the maths library: numbers in [-1,1], right to 2^-50 (about eight units in the
    last place of a number near one; the platform's library is said to be within one) *)
Definition accurate (L : libm) : Prop := forall x, is_number x ->
  is_number (l_cos L x) /\ is_number (l_sin L x) /\
  Rabs (value (l_cos L x)) <= 1 /\ Rabs (value (l_sin L x)) <= 1 /\
  Rabs (value (l_cos L x) - cos (value x)) <= powerRZ 2 (-50) /\
  Rabs (value (l_sin L x) - sin (value x)) <= powerRZ 2 (-50).

(** distance of a binary64 vector from an exact one *)
Definition off (v : v3 f64) (w : vec) : R := norm (vsub (vvalue v) w).
Definition fspin (c : chain f64) (i : nat) : v3 f64 := nth i (spins c) (mk3 S754_nan S754_nan S754_nan).

(** The exact chain [c] has the couplings, fields, time step, drive and time of the binary64 chain [cF] *)
Definition same_model (cF : chain f64) (c : chain R) : Prop :=
  map vvalue (j_couple cF) = j_couple c /\ map vvalue (static_h cF) = static_h c /\
  value (c_dt (vars cF)) = c_dt (vars c) /\ drive (vars cF) = drive (vars c) /\ value (t cF) = t c /\
  match drive (vars cF) with
  | Dnone => True
  | Dstaticfield => map value (hs (vars cF)) = hs (vars c)
  | _ => value (tau (vars cF)) = tau (vars c) /\ value (c_e (vars cF)) = c_e (vars c)
  end.
(** ... and its spins are within [d] *)
Definition spins_within (n : nat) (d : R) (cF : chain f64) (c : chain R) : Prop :=
  forall i, (i < n)%nat -> off (fspin cF i) (S_ c i) <= d.

(** a time step that can be halved exactly and is at most one *)
Definition plain_dt (x : f64) : Prop := is_number x /\ powerRZ 2 (-1000) <= value x <= 1.

(** couplings at most 1, field components at most 6 *)
Definition mild_sites (c : chain f64) : Prop :=
  Forall (fun J => is_vector J /\ comp_le 1 J) (j_couple c) /\
  Forall (fun h => is_vector h /\ comp_le 6 h) (static_h c).
(** a drive of strength at most 2, a period that is not tiny and a time that is not huge *)
Definition mild_drive (c : chain f64) : Prop :=
  match drive (vars c) with
  | Dnone => True
  | Dstaticfield => (3 <= length (hs (vars c)))%nat /\ Forall (fun x => is_number x /\ Rabs (value x) <= 2) (hs (vars c))
  | _ => (is_number (tau (vars c)) /\ powerRZ 2 (-100) <= Rabs (value (tau (vars c)))) /\
         (is_number (c_e (vars c)) /\ Rabs (value (c_e (vars c))) <= 2) /\
         is_number (t c) /\ Rabs (value (t c)) <= powerRZ 2 100
  end.
(** a z field of at least 4, which a drive in the plane does not reduce *)
Definition strong_z (c : chain f64) : Prop :=
  drive (vars c) <> Dstaticfield /\ Forall (fun h => 4 <= Rabs (value (vz h))) (static_h c).

(** how far the clock of a driven run may be off after [k] steps, in units of a period and of 2^-47 *)
Definition drift (c : chain f64) (k : nat) : R :=
  match drive (vars c) with
  | Dnone | Dstaticfield => 0
  | _ => INR k * ((Rabs (value (t c)) + INR k * value (c_dt (vars c)) + 1) / Rabs (value (tau (vars c))))
  end.
(** The distance of a binary64 run from the exact run after [k] steps, if it was [d] at the start *)
Definition rounding (c : chain f64) (d : R) (k : nat) : R :=
  let T := INR k * value (c_dt (vars c)) in
  exp (4 * T) * (d + INR k * powerRZ 2 (-37) + T * (powerRZ 2 (-32) + powerRZ 2 (-44) * drift c k)).
