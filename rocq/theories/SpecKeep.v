(** Specification vocabulary: energies of binary64 chains and spins that are lost. *)
From Coq Require Import ZArith Reals Bool List Arith.
From Coq Require Import Floats.SpecFloat.
From Verif Require Import Num NumR NumF64 Config Chain SpecVec SpecChain SpecRound SpecClose.
Local Open Scope R_scope.

(** a vector with a component that is not a number *)
Definition lost (v : v3 f64) : Prop := vx v = S754_nan \/ vy v = S754_nan \/ vz v = S754_nan.
(** every spin has length one (the square is within 2^-50 of one) or is lost *)
Definition unit_or_lost (c : chain f64) : Prop := Forall (fun v => near_unit (powerRZ 2 (-50)) v \/ lost v) (spins c).
Definition none_lost (c : chain f64) : Prop := Forall (fun v => ~ lost v) (spins c).

(** a drive that does not look at the clock *)
Definition steady (c : chain f64) : Prop := drive (vars c) = Dnone \/ drive (vars c) = Dstaticfield.

(** the energy of the values of the spins, with the couplings of the exact chain [c] and its fields at time [x] *)
Definition energy_at (n s : nat) (c : chain R) (x : R) (cF : chain f64) : R :=
  ring_energy n (fun i => vvalue (fspin cF i)) (J_ c) (B_ c s x).
