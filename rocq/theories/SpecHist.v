(** Vocabulary for the histogram modes (C69, C70). *)
From Coq Require Import String Reals List ZArith Arith.
From Verif Require Import Num Monad NumR Config Chain Files SpecVec SpecChain SpecColumns.
Import ListNotations.
Local Open Scope R_scope.

(** [m] successive steps *)
Definition steps_of {A} (f : nat -> A -> res A) (st : nat -> A) (m : nat) : Prop :=
  forall i, (i < m)%nat -> f i (st i) = Ok (st (S i)).
(** What a file holds, nothing if it does not exist *)
Definition held {T} (f : fs T) (n : string) : list (line T) := match contents f n with Some l => l | None => [] end.
(** A state near the middle of the ensemble: energy per site near the one wanted, hardly any
    magnetisation *)
Definition typical (n s : nat) (sc : chain R) : Prop :=
  Rabs (ring_energy n (S_ sc) (J_ sc) (B_ sc s (t sc)) / INR n - ednsty (vars sc)) <= 5 / 1000 /\
  Rabs (vx (mag_density n sc)) <= 3 / 1000 /\ Rabs (vy (mag_density n sc)) <= 3 / 1000 /\
  Rabs (vz (mag_density n sc)) <= 3 / 1000.
(** Steps between two lines of a histogram *)
Definition lap : nat := Z.to_nat 10000.

(** Steps of a single trajectory before the first period that counts (30 periods), and after it up to
    [samples] periods later, when the clock starts at [-r] *)
Definition warmup (x dt : R) : nat := Z.to_nat (Rfloor (30 * x / dt)).
(** The steps up to [m] that complete a multiple of [c] steps, from the step after [a] on *)
Definition marks (c a m : nat) : list nat := filter (fun k => (k mod c =? 0)%nat) (seq (S a) m).
