(** Specification vocabulary: a run is twenty million Metropolis moves and then time steps (C93). *)
From Coq Require Import String Bool List ZArith Arith.
From Verif Require Import Num Monad Config Chain Fit Files Writers Runs.
Import ListNotations.
Local Open Scope nat_scope.

Section Warm.
Context (N : NumOps).
Notation T := (num N).
(** [c'] is what twenty million Metropolis moves make of [c] *)
Definition warmed (d : nat -> mcdraw N) (c c' : chain T) : Prop := exists st : nat -> chain T,
  st 0 = c /\ (forall k, (Z.of_nat k < 20000000)%Z -> metropolis_update N (d k) (st k) = Ok (st (S k))) /\ st (Z.to_nat 20000000) = c'.
(** [m] time steps from [c], the last being the first that does not end before [tmax] *)
Definition steps_until (tmax : T) (c : chain T) (st : nat -> chain T) (m : nat) : Prop :=
  st 0 = c /\ (forall k, k < m -> update N (st k) = Ok (st (S k))) /\
  (forall k, k < m -> nltb N (t (st k)) tmax = true) /\ nltb N (t (st m)) tmax = false.
(** Whether time [x] is logged: always, or at whole numbers of periods *)
Definition logged_at (v : config T) (x : T) : Prop :=
  strob v = false \/ (ntou64 N (ndiv N x (c_dt v)) mod ntou64 N (ndiv N (tau v) (c_dt v)) = 0)%Z.
(** The rows of a run: those of the state it starts with, then those of the steps that are logged *)
Definition run_rows (log : chain T -> res (list (list T))) (d : draws N) (c : chain T) (rows : list (list T)) : Prop :=
  exists c0 st m first pick more, warmed (dr_mc d) c c0 /\ vars c0 = vars c /\ steps_until (c_t (vars c)) c0 st m /\
  chain_log N c0 = Ok first /\
  (forall k, 1 <= k <= m -> pick k = true <-> logged_at (vars c) (t (st k))) /\
  (forall k, 1 <= k <= m -> pick k = true -> log (st k) = Ok (more k)) /\
  rows = first ++ flat_map more (filter pick (seq 1 m)).
(** The first checkpoint met at time [x] *)
Definition meets (v : config T) (x : T) (z : Z) : Prop := exists before after,
  [500; 1000; 1500; 2000; 2500; 3000; 3500; 4000]%Z = before ++ z :: after /\
  let near y := nltb N (nabs N (nsub N x (nmul N (nofZ N y) (tau v)))) (ndiv N (c_dt v) (nofZ N 5)) in
  near z = true /\ Forall (fun y => near y = false) before.
(** What a run sends to checkpoint [z]: the snapshots of the steps that meet it *)
Definition run_sends (d : draws N) (c : chain T) (z : Z) (msgs : list (pmsg N)) : Prop :=
  exists c0 st m pick more, warmed (dr_mc d) c c0 /\ vars c0 = vars c /\ steps_until (c_t (vars c)) c0 st m /\
  (forall k, 1 <= k <= m -> pick k = true <-> meets (vars c) (t (st k)) z) /\
  (forall k, 1 <= k <= m -> pick k = true -> snapshot N (st k) = Ok (more k)) /\
  msgs = flat_map more (filter pick (seq 1 m)).
End Warm.
