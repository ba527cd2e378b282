(** Vocabulary for the Langevin runs (C85). *)
From Coq Require Import Reals List ZArith Arith.
From Verif Require Import Num Monad Config Chain Langevin.

(** The states after 0, 1, 2, ... Monte-Carlo moves *)
Definition lmoves (N : NumOps) (d : nat -> mcdraw N) (lc : lchain (num N)) (st : nat -> lchain (num N)) : Prop :=
  st 0 = lc /\ forall k, lmetropolis_update N (d k) (st k) = Ok (st (S k)).
(** The states after 0, 1, 2, ... time steps with the given noise *)
Definition ldynamics (N : NumOps) (noise : nat -> v3 (num N) * v3 (num N)) (lc : lchain (num N)) (st : nat -> lchain (num N)) : Prop :=
  st 0 = lc /\ forall k, lupdate N (fst (noise k)) (snd (noise k)) (st k) = Ok (st (S k)).
(** A run: twenty million moves, then time steps *)
Definition langevin_states (N : NumOps) (d : nat -> mcdraw N) (noise : nat -> v3 (num N) * v3 (num N))
    (lc : lchain (num N)) (st : nat -> lchain (num N)) : Prop :=
  exists warm, lmoves N d lc warm /\ ldynamics N noise (warm (Z.to_nat 20000000)) st.
