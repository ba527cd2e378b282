(** What the columns of the output files mean: rows of real numbers in terms of the state of the
    chain.  [log_row], [mc_row], [hist_row] ... are independent of the model. *)
From Coq Require Import Reals List ZArith Arith.
From Verif Require Import Num NumR Config Chain SpecVec SpecChain SpecMC.
Import ListNotations.
Local Open Scope R_scope.

Definition comps (v : vec) : list R := [vx v; vy v; vz v].

(** Energy per bond of the first s - 1 sites with the drive, C15 *)
Definition sub_energy (s : nat) (sc : chain R) : R :=
  Rsum (s - 1) (fun i => bond (S_ sc) (J_ sc) i (i + 1)
     + dot (vadd (h_ sc i) (drive_field (vars sc) (t sc))) (S_ sc i)) / INR (s - 1).
(** Magnetisation per site of the first k sites *)
Definition mag_density (k : nat) (sc : chain R) : vec := vscale (/ INR k) (Vsum k (S_ sc)).
(** The two watched spins: a quarter and three quarters into the subsystem *)
Definition watched (s : nat) (sc : chain R) : list R :=
  comps (S_ sc (s / 4)) ++ comps (S_ sc (3 * s / 4)).

(** log<n>.dat: t e_total e_sub mx my mz Mz spins *)
Definition log_row (n s : nat) (sc : chain R) : list R :=
  [t sc; ring_energy n (S_ sc) (J_ sc) (B_ sc s (t sc)) / INR n; sub_energy s sc]
  ++ comps (mag_density s sc) ++ [vz (mag_density n sc)] ++ watched s sc.
(** mc_live.dat: e_total e_sub (as a ring) mx my mz spins *)
Definition mc_row (n s : nat) (sc : chain R) : list R :=
  [ring_energy n (S_ sc) (J_ sc) (B_ sc s (t sc)) / INR n; ring_energy s (S_ sc) (J_ sc) (h_ sc) / INR s]
  ++ comps (mag_density s sc) ++ watched s sc.
(** hist_*.dat: number mx my mz e_sub [spins] *)
Definition hist_short (x : R) (s : nat) (sc : chain R) : list R :=
  x :: comps (mag_density s sc) ++ [sub_energy s sc].
(** evt<n>.dat: tau t e_total e_sub mx my mz *)
Definition tau_row (n s : nat) (sc : chain R) : list R :=
  [tau (vars sc); t sc; ring_energy n (S_ sc) (J_ sc) (B_ sc s (t sc)) / INR n; sub_energy s sc]
  ++ comps (mag_density s sc).
(** Logs of Langevin runs: t e_sub e_sub mx my mz Mz dissipation *)
Definition langevin_row (n s : nat) (sc : chain R) (bt : R) : list R :=
  [t sc; sub_energy s sc; sub_energy s sc] ++ comps (mag_density s sc) ++ [vz (mag_density n sc); bt].

(** Half the energy of the two bonds of site i on the ring *)
Definition half_bonds (n : nat) (sc : chain R) (i : nat) : R :=
  (bond (S_ sc) (J_ sc) ((i + (n - 1)) mod n) i + bond (S_ sc) (J_ sc) i ((i + 1) mod n)) / 2.
(** Row of site j in the output of run_ext: t site energy spin *)
Definition ext_row (sc : chain R) (j : nat) : list R :=
  [t sc; INR j;
   (bond (S_ sc) (J_ sc) (j - 1) j + bond (S_ sc) (J_ sc) j (j + 1)) / 2
   + dot (vadd (h_ sc j) (drive_field (vars sc) (t sc))) (S_ sc j)] ++ comps (S_ sc j).
