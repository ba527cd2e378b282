(** Specification vocabulary for Langevin runs. *)
From Coq Require Import Reals List.
From Verif Require Import Num Monad NumR Chain Langevin SpecVec.
Import ListNotations.
Local Open Scope R_scope.

(** A run: one pair of triples of standard normal draws per step *)
Definition lruns (N : NumOps) (zs : list (v3 (num N) * v3 (num N))) (c : lchain (num N)) : res (lchain (num N)) :=
  foldM (fun z c => lupdate N (fst z) (snd z) c) zs c.
Definition lrun := lruns ERNum.

(** Landau-Lifshitz-Gilbert field of a spin [s] in the field [om] *)
Definition damped (g : R) (s om : vec) : vec := vsub om (vscale g (cross s om)).

(** Draws without effect: no damping (hence no noise), or all zero *)
Definition quiet (g : R) (z : v3 (num ERNum) * v3 (num ERNum)) : Prop :=
  exists a b, z = (fin3 a, fin3 b) /\ (g = 0 \/ (a = vzero /\ b = vzero)).
