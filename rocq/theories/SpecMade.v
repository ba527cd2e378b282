(** Specification vocabulary: maths libraries beyond sin and cos, and chains as the program makes them in binary64 (C90). *)
From Coq Require Import ZArith Reals Bool List Arith.
From Coq Require Import Floats.SpecFloat.
From Verif Require Import Num Monad NumF64 Config Chain SpecVec SpecChain SpecMC SpecRound SpecClose SpecKeep.
Local Open Scope R_scope.

(** What IEEE 754 and C say about NaN: sin, cos, acos, ln and exp of NaN are NaN.  acos and atan give numbers or NaN, atan numbers of
    at most 2, and acos gives a number for a number in [-1,1] *)
Definition proper (L : libm) : Prop := accurate L /\
  l_cos L S754_nan = S754_nan /\ l_sin L S754_nan = S754_nan /\ l_acos L S754_nan = S754_nan /\ l_ln L S754_nan = S754_nan /\ l_exp L S754_nan = S754_nan /\
  (forall x, is_number (l_acos L x) \/ l_acos L x = S754_nan) /\
  (forall x, (is_number (l_atan L x) /\ Rabs (value (l_atan L x)) <= 2) \/ l_atan L x = S754_nan) /\
  (forall x, is_number x -> Rabs (value x) <= 1 -> is_number (l_acos L x)).

(** a uniform random number *)
Definition uniform (x : f64) : Prop := is_number x /\ 0 <= value x < 1.
Definition uniform_draw (L : libm) (d : mcdraw (F64 L)) : Prop := uniform (@d_u1 (F64 L) d) /\ uniform (@d_u2 (F64 L) d) /\ uniform (@d_u3 (F64 L) d).

(** a unit vector, up to [e], or lost *)
Definition made (e : R) (v : v3 f64) : Prop := near_unit e v \/ lost v.
(** the spins of the ring: all, but for the last one of an odd chain *)
Definition on_ring (c : chain f64) (P : v3 f64 -> Prop) : Prop := forall i, (i < 2 * (length (spins c) / 2))%nat -> P (fspin c i).

(** couplings of at most 2, fields of at most 6 *)
Definition rough_sites (c : chain f64) : Prop :=
  Forall (fun J => is_vector J /\ comp_le 2 J) (j_couple c) /\ Forall (fun h => is_vector h /\ comp_le 6 h) (static_h c).
Definition small (B : R) (x : f64) : Prop := is_number x /\ Rabs (value x) <= B.
(** A configuration like the default one: an anisotropy of at most 1, fields of at most 3 and 2 (on the system), spreads of couplings and
    fields of at most 1/64, a time step as in C86, and a drive with a period that is not tiny, a strength of at most 2 and a start that is
    not in the remote past *)
Definition mild_conf (conf : config f64) : Prop :=
  (2 <= hsize conf < 2 ^ 31)%Z /\ (0 <= ssize conf <= hsize conf)%Z /\ small (1 / 64) (jvar conf) /\ small (1 / 64) (hvar conf) /\ small 1 (lambda conf) /\
  (3 <= length (hfield conf))%nat /\ Forall (small 3) (hfield conf) /\ (3 <= length (hs conf))%nat /\ Forall (small 2) (hs conf) /\ plain_dt (c_dt conf) /\
  is_number (tau conf) /\ powerRZ 2 (-100) <= Rabs (value (tau conf)) /\ small 2 (c_e conf) /\ small (powerRZ 2 100) (trel conf).
(** Random numbers for a new chain: three uniform ones for each spin, and normal ones of at most 32 in size (the generator of rand_distr
    does not make larger ones than about 12) *)
Definition plain_draws (L : libm) (d : newdraw (F64 L)) : Prop := forall k,
  (uniform (fst (fst (@nd_u (F64 L) d k))) /\ uniform (snd (fst (@nd_u (F64 L) d k))) /\ uniform (snd (@nd_u (F64 L) d k))) /\
  (is_vector (@nd_j (F64 L) d k) /\ comp_le 32 (@nd_j (F64 L) d k)) /\ (is_vector (@nd_h (F64 L) d k) /\ comp_le 32 (@nd_h (F64 L) d k)).
(** Temperatures no chain can be drawn for: an inverse temperature whose exponential overflows, infinite temperature (with the exponential
    and the logarithm C and IEEE 754 prescribe there), and NaN *)
Definition no_temperature (L : libm) (b : f64) : Prop :=
  l_exp L b = S754_infinity false \/
  (is_number b /\ value b = 0 /\ l_exp L b = f_ofZ 1 /\ is_number (l_ln L (f_ofZ 1)) /\ value (l_ln L (f_ofZ 1)) = 0) \/
  b = S754_nan.
