(** Vocabulary for the response runs (C66). *)
From Coq Require Import Reals List ZArith Arith.
From Verif Require Import Num Monad NumR Config Chain SpecVec SpecChain.
Import ListNotations.

(** The chain with other static fields *)
Definition with_static {T} (sc : chain T) (l : list (v3 T)) : chain T :=
  mkChain (j_couple sc) l (spins sc) (t sc) (vars sc) (has_file sc).
(** The chain without static fields *)
Definition free (N : NumOps) (sc : chain (num N)) : chain (num N) :=
  with_static sc (map (fun _ => mk3 (nofZ N 0) (nofZ N 0) (nofZ N 0)) (static_h sc)).
(** The drive on the subsystem and nothing else *)
Definition drive_only (sc : chain R) (s : nat) (x : R) (i : nat) : vec :=
  if i <? s then drive_field (vars sc) x else vzero.
(** A trajectory whose static fields are switched off at time 0: the states after 0, 1, 2, ... steps *)
Definition quench (sc : chain (num ERNum)) (x dt : R) (st : nat -> chain (num ERNum)) : Prop :=
  st 0%nat = sc /\ forall k,
    t (st k) = Some (x + INR k * dt)%R /\
    ((x + INR k * dt < 0)%R -> update ERNum (st k) = Ok (st (S k))) /\
    ((0 <= x + INR k * dt)%R -> update_no_field ERNum (st k) = Ok (st (S k))).
