(** Vocabulary for the Monte-Carlo modes (C77). *)
From Coq Require Import Reals List ZArith Arith.
From Verif Require Import Num Monad NumR Config Chain Fit Runs SpecVec SpecChain SpecMC SpecSampling.
Import ListNotations.
Local Open Scope R_scope.

(** A path that moves by the Metropolis rule with the energy change [D] in place of a difference of
    energies *)
Definition change_path (n : nat) (D : chain R -> nat -> vec -> R) (b : R) (w : nat -> move) (st : nat -> chain R) : Prop :=
  forall k, let c := st k in let i := (mv_site (w k) mod n)%nat in let v := uniform_dir (mv_1 (w k)) (mv_2 (w k)) in
  (accepts b (D c i v) (mv_u (w k)) -> st (S k) = moved c i v) /\
  (~ accepts b (D c i v) (mv_u (w k)) -> st (S k) = c).
(** The states recorded: [m] states of the path, one after every million steps *)
Definition recorded (m : nat) (st : nat -> chain R) : list (chain R) :=
  map (fun q => st (Z.to_nat 1000000 * S q)%nat) (seq 0 m).
(** How the points asked for are shared: at least one for each of the threads, all of them in total *)
Definition shares (th points : Z) (sh : list nat) : Prop :=
  Z.of_nat (length sh) = Z.min th points /\ Forall (fun k => (1 <= k)%nat) sh /\ Z.of_nat (list_sum sh) = points.
(** Chain [i] of the mode starts as [c i] and moves with the random numbers [mv i] *)
Record started (rg : rng ERNum) (conf : config R) (n s : nat) (c : nat -> chain R) (mv : nat -> nat -> move) : Prop := {
  st_new : forall i, chain_new ERNum (config_map Some conf) (dr_new (r_draws ERNum rg i)) = Ok (fin (c i));
  st_vars : forall i, vars (c i) = conf;
  st_wf : forall i, wf n s (c i);
  st_fair : forall i k, fair (mv i k);
  st_moves : forall i k, dr_mc (r_draws ERNum rg i) k = as_draw (mv i k) }.
(** All states recorded, thread by thread *)
Definition records (sh : list nat) (st : nat -> nat -> chain R) : list (list (chain R)) :=
  map (fun i => recorded (nth i sh 0%nat) (st i)) (seq 0 (length sh)).
