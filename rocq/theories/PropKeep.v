(** C87: binary64 steps keep the length of every spin and the energy, or lose a spin for good. *)
From Coq Require Import Reals List ZArith Arith.
From Coq Require Import Floats.SpecFloat.
From Verif Require Import Num Monad NumR NumF64 Spin Config Chain SpecVec SpecChain SpecRound SpecClose SpecKeep
  ProofsCloseSamples ProofsTiny ProofsKeep2 ProofsKeep3 ProofsKeep4 ProofsKeep5.
Local Open Scope R_scope.

(** * C87 *)
(** Any number of steps of any mild chain: the run does not fail, every spin is a unit vector up to 2^-50 or
    is lost, and a lost spin is never found again *)
Theorem C87_unit_or_lost : forall L, accurate L -> forall n s cF, wf n s cF -> (2 <= n)%nat -> mild_sites cF -> mild_drive cF ->
  plain_dt (c_dt (vars cF)) -> unit_or_lost cF -> forall k, steady cF \/ INR k <= powerRZ 2 50 ->
  exists F, iterM (update (F64 L)) k cF = Ok F /\ unit_or_lost F /\ (none_lost F -> none_lost cF).
Proof. exact unit_or_lost_run. Qed.
Print Assumptions C87_unit_or_lost.
Example C87_unit_case : forall x, plain_dt x -> wf 2 0 (blankF x) /\ mild_sites (blankF x) /\ mild_drive (blankF x) /\ steady (blankF x) /\
  plain_dt (c_dt (vars (blankF x))) /\ Forall (near_unit (powerRZ 2 (-50))) (spins (blankF x)).
Proof. exact blankF_ok. Qed.
(** ... and spins can be lost: the field of this pair cancels the coupling on its first spin *)
Example C87_unit_lost : forall L x, exists F, update (F64 L) (blankF x) = Ok F /\ lost (fspin F 0) /\ ~ none_lost F.
Proof. exact blankF_lost. Qed.

(** A lost spin stays lost and takes its neighbours along: after k steps every spin of the ring at most k
    places away is lost, whatever the maths library ... *)
Theorem C87_spread : forall L n s, (2 <= n)%nat -> forall (c : chain f64) k F i j d, wf n s c -> hs_ok (vars c) -> iterM (update (F64 L)) k c = Ok F ->
  (i < 2 * (n / 2))%nat -> (j < 2 * (n / 2))%nat -> (d <= k)%nat -> (j = (i + d) mod (2 * (n / 2)) \/ i = (j + d) mod (2 * (n / 2)))%nat ->
  lost (fspin c i) -> lost (fspin F j).
Proof. exact run_spread. Qed.
Print Assumptions C87_spread.
(** ... so after n/2 steps the whole ring is *)
Theorem C87_all_lost : forall L n s, (2 <= n)%nat -> forall (c : chain f64) k F i, wf n s c -> hs_ok (vars c) -> iterM (update (F64 L)) k c = Ok F ->
  (i < 2 * (n / 2))%nat -> (n / 2 <= k)%nat -> lost (fspin c i) -> forall j, (j < 2 * (n / 2))%nat -> lost (fspin F j).
Proof. exact all_lost. Qed.
Print Assumptions C87_all_lost.

(** One step of an even chain with any drive: the energy in the field at the middle of the step is kept *)
Theorem C87_step : forall L, accurate L -> forall n s cF, wf n s cF -> (2 <= n)%nat -> mild_sites cF -> mild_drive cF ->
  plain_dt (c_dt (vars cF)) -> unit_or_lost cF -> forall c, same_model cF c -> (n mod 2 = 0)%nat ->
  exists F, update (F64 L) cF = Ok F /\ unit_or_lost F /\
    (none_lost F -> Rabs (energy_at n s c (t c + value (c_dt (vars cF)) / 2) F - energy_at n s c (t c + value (c_dt (vars cF)) / 2) cF) <=
       INR n * (powerRZ 2 (-34) * (4 + 48 * value (c_dt (vars cF))) + powerRZ 2 (-41) * drift cF 1)).
Proof. exact step_energy. Qed.
Print Assumptions C87_step.

(** Any number of steps of an even chain whose field does not change *)
Theorem C87_run : forall L, accurate L -> forall n s cF, wf n s cF -> (2 <= n)%nat -> mild_sites cF -> mild_drive cF ->
  plain_dt (c_dt (vars cF)) -> unit_or_lost cF -> forall c, same_model cF c -> (n mod 2 = 0)%nat -> forall k, steady cF ->
  exists F, iterM (update (F64 L)) k cF = Ok F /\ unit_or_lost F /\
    (none_lost F -> forall x, Rabs (energy_at n s c x F - energy_at n s c x cF) <=
       INR n * (INR k * (powerRZ 2 (-34) * (4 + 48 * value (c_dt (vars cF)))))).
Proof. exact run_energy. Qed.
Print Assumptions C87_run.

(** What the program prints: the energy density is that of the spins, or NaN if one is lost *)
Theorem C87_density : forall L, accurate L -> forall n s F c, wf n s F -> (2 <= n)%nat -> mild_sites F -> mild_drive F -> plain_dt (c_dt (vars F)) ->
  steady F -> unit_or_lost F -> same_model F c ->
  exists e, total_energy2 (F64 L) F = Ok e /\
    ((none_lost F /\ is_number e /\ forall x, Rabs (value e - energy_at n s c x F / INR n) <= INR n * powerRZ 2 (-43)) \/ (~ none_lost F /\ e = S754_nan)).
Proof. exact printed_close. Qed.
Print Assumptions C87_density.

(** ... so it never drifts faster than rounding, or is NaN *)
Theorem C87_printed : forall L n s cF k, accurate L -> wf n s cF -> (2 <= n)%nat -> (n mod 2 = 0)%nat -> mild_sites cF -> mild_drive cF -> steady cF ->
  plain_dt (c_dt (vars cF)) -> unit_or_lost cF ->
  exists F e0 e, iterM (update (F64 L)) k cF = Ok F /\ total_energy2 (F64 L) cF = Ok e0 /\ total_energy2 (F64 L) F = Ok e /\
    (e = S754_nan \/ (is_number e0 /\ is_number e /\
      Rabs (value e - value e0) <= INR k * (powerRZ 2 (-34) * (4 + 48 * value (c_dt (vars cF)))) + INR n * powerRZ 2 (-42))).
Proof. exact run_printed. Qed.
Print Assumptions C87_printed.

(** ... and it is not NaN if the z field is strong *)
Theorem C87_strong : forall L n s cF k, accurate L -> wf n s cF -> (2 <= n)%nat -> (n mod 2 = 0)%nat -> mild_sites cF -> strong_z cF -> drive (vars cF) = Dnone ->
  plain_dt (c_dt (vars cF)) -> Forall (near_unit (powerRZ 2 (-50))) (spins cF) ->
  exists F e0 e, iterM (update (F64 L)) k cF = Ok F /\ total_energy2 (F64 L) cF = Ok e0 /\ total_energy2 (F64 L) F = Ok e /\
    Forall (near_unit (powerRZ 2 (-50))) (spins F) /\ is_number e0 /\ is_number e /\
    Rabs (value e - value e0) <= INR k * (powerRZ 2 (-34) * (4 + 48 * value (c_dt (vars cF)))) + INR n * powerRZ 2 (-42).
Proof. exact strong_kept. Qed.
Print Assumptions C87_strong.
Example C87_strong_case : forall x, plain_dt x -> wf 2 1 (stillF x) /\ mild_sites (stillF x) /\ strong_z (stillF x) /\ drive (vars (stillF x)) = Dnone /\
  plain_dt (c_dt (vars (stillF x))) /\ Forall (near_unit (powerRZ 2 (-50))) (spins (stillF x)).
Proof. exact stillF_ok. Qed.
Example C87_plain : plain_dt (c_dt (vars drivenF)) /\ accurate good_libm.
Proof. exact (conj (proj1 (proj2 (proj2 (proj2 (proj2 (proj2 (proj2 driven_ok))))))) good_accurate). Qed.
