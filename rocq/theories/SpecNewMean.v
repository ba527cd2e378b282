(** Means over the draws of SpinChain::new (C81). *)
From Coq Require Import Reals List ZArith Arith.
From Verif Require Import Num Monad NumR Config Chain SpecVec SpecChain SpecMean.
Import ListNotations.
Local Open Scope R_scope.

(** The chain made with the uniform numbers [u] for the directions and the normal numbers [jz], [hz]
    for couplings and fields *)
Definition made (conf : config R) (jz hz : nat -> vec) (u : nat -> R * R * R) : res (chain (num ERNum)) :=
  chain_new ERNum (config_map Some conf)
    (@mkNewDraw ERNum (fun i => (Some (fst (fst (u i))), Some (snd (fst (u i))), Some (snd (u i)))) (fun i => fin3 (jz i)) (fun i => fin3 (hz i))).
(** The mean of an observable of the new chain over grids with an even number of points for each of
    the three numbers of each of the n spins *)
Definition new_mean (n : nat) (conf : config R) (jz hz : nat -> vec) (h : chain (num ERNum) -> R) (M : nat) : R :=
  gmean (0, 0, 0) (grid3 (2 * S M)) n (fun u => on h (made conf jz hz u)).
(** 1 for a chain with a spin that is not a number, and 0 for the others *)
Definition undefined_spin (s : v3 (num ERNum)) : bool := match s with mk3 (Some _) (Some _) (Some _) => false | _ => true end.
Definition undefined (c : chain (num ERNum)) : R := if existsb undefined_spin (spins c) then 1 else 0.
(** The mean cosine between neighbours of the isotropic open chain at inverse temperature b *)
Definition langevin (b : R) : R := (exp b + exp (- b)) / (exp b - exp (- b)) - / b.
(** The direction the construction starts from, and the field it puts on site i *)
Definition first_dir : vec := mk3 (cos (1 / 100)) (sin (1 / 100)) 0.
Definition new_h (conf : config R) (hz : nat -> vec) (i : nat) : vec :=
  vadd (vadd (mk3 (nth 0 (hfield conf) 0) (nth 1 (hfield conf) 0) (nth 2 (hfield conf) 0))
          (if (Z.of_nat i <? ssize conf)%Z then mk3 (nth 0 (hs conf) 0) (nth 1 (hs conf) 0) (nth 2 (hs conf) 0) else vzero))
       (vscale (hvar conf) (hz i)).
(** total_energy2 of the chain, and 0 for a chain with a spin that is not a number *)
Definition measured (c : chain (num ERNum)) : R :=
  if existsb undefined_spin (spins c) then 0 else match total_energy2 ERNum c with Ok (Some e) => e | _ => 0 end.
(** Field on site i at the start of a run, with the drive on the first s sites *)
Definition new_B (conf : config R) (hz : nat -> vec) (s i : nat) : vec :=
  if (i <? s)%nat then vadd (new_h conf hz i) (drive_field conf (- trel conf)) else new_h conf hz i.
