(** Vocabulary for what one option on the command line does (C88). *)
From Coq Require Import ZArith List.
From Verif Require Import Num Monad Config Chain.

(** an optional number and the one the help text gives for when it is left out *)
Definition asked {A} (dflt : A) (o : option A) : A := match o with Some x => x | None => dflt end.
(** the configuration of the file with the -t override *)
Definition overridden {T} (x : option T) (c : config T) : config T := match x with Some y => set_tau c y | None => c end.
(** the inverse temperature given by -b, or solved from the energy density *)
Definition temperature (N : NumOps) (fuel : nat) (b : option (num N)) (c : config (num N)) (x : num N) : Prop :=
  match b with Some y => x = y | None => solve_beta N fuel (ednsty c) = Ok x end.
