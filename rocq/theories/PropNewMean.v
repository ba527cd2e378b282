(** Theorems about the chains made by SpinChain::new, over all its uniform draws: property C81.  Means
    are over grids of uniform numbers with an even number of points each (SpecNewMean), in the limit
    of fine grids. *)
From Coq Require Import Reals List ZArith Arith Lra Lia.
From Verif Require Import Num Monad NumR Config Chain Fit SpecVec SpecChain SpecFit SpecMean SpecNewMean ProofsFitR ProofsNewMean5.
Import ListNotations.
Local Open Scope R_scope.

(** The part of the draws for which a spin is not a number goes to zero *)
Theorem C81_defined : forall n conf jz hz, hsize conf = Z.of_nat n -> (hsize conf < 2 ^ 31)%Z ->
  (3 <= length (hfield conf))%nat -> (3 <= length (hs conf))%nat -> beta conf <> 0 ->
  forall M, new_mean n conf jz hz undefined M <= 3 * INR n / INR (2 * S M).
Proof. exact new_undefined. Qed.
Print Assumptions C81_defined.

(** The magnetisation is not zero: the mean of spin i points along the direction the construction
    starts from, with length L ^ (i + 1), where L = coth b - 1 / b *)
Theorem C81_spins : forall n conf jz hz, hsize conf = Z.of_nat n -> (hsize conf < 2 ^ 31)%Z ->
  (3 <= length (hfield conf))%nat -> (3 <= length (hs conf))%nat -> beta conf <> 0 ->
  forall i w, (i < n)%nat -> Un_cv (new_mean n conf jz hz (over (fun c => dot (S_ c i) w))) (langevin (beta conf) ^ S i * dot first_dir w).
Proof. exact new_spin. Qed.
Print Assumptions C81_spins.

(** Correlations are those of the open chain: L ^ (j - i), also between the last and the first spin *)
Theorem C81_pairs : forall n conf jz hz, hsize conf = Z.of_nat n -> (hsize conf < 2 ^ 31)%Z ->
  (3 <= length (hfield conf))%nat -> (3 <= length (hs conf))%nat -> beta conf <> 0 ->
  forall i j, (i <= j < n)%nat -> Un_cv (new_mean n conf jz hz (over (fun c => dot (S_ c i) (S_ c j)))) (langevin (beta conf) ^ (j - i)).
Proof. exact new_pair. Qed.
Print Assumptions C81_pairs.

(** The energy density total_energy2 of the new chain, isotropic couplings *)
Theorem C81_energy : forall n conf jz hz, hsize conf = Z.of_nat n -> (hsize conf < 2 ^ 31)%Z ->
  (3 <= length (hfield conf))%nat -> (3 <= length (hs conf))%nat -> beta conf <> 0 ->
  forall s, ssize conf = Z.of_nat s -> (s <= n)%nat -> (1 <= n)%nat -> drive_ok conf -> lambda conf = 1 -> jvar conf = 0 ->
  let L := langevin (beta conf) in
  Un_cv (new_mean n conf jz hz measured)
    ((- ((INR n - 1) * L + L ^ (n - 1)) + Rsum n (fun i => L ^ S i * dot first_dir (new_B conf hz s i))) / INR n).
Proof. exact new_energy. Qed.
Print Assumptions C81_energy.

(** At the temperature solve_beta finds for an energy density, and without fields, the mean energy density of
    the new chain is within 0.02 + 2 / n of it *)
Theorem C81_target : forall n s conf jz hz e fuel, hsize conf = Z.of_nat n -> (hsize conf < 2 ^ 31)%Z -> (3 <= length (hfield conf))%nat -> (3 <= length (hs conf))%nat ->
  ssize conf = Z.of_nat s -> (s <= n)%nat -> (1 <= n)%nat -> drive_ok conf -> lambda conf = 1 -> jvar conf = 0 ->
  (forall i, (i < n)%nat -> new_B conf hz s i = vzero) ->
  -1 < e <= - (34 / 100) -> solve_beta ERNum fuel (Some e) = Ok (Some (beta conf)) ->
  exists v, Un_cv (new_mean n conf jz hz measured) v /\ Rabs (v - e) <= 2 / 100 + 2 / INR n.
Proof. exact new_target. Qed.
Print Assumptions C81_target.

(** A configuration with fields for C81_energy, one without for C81_target *)
Example C81_case : let conf := iso_conf 2 [0; 0; 1] [1; 0; 0] in
  hsize conf = Z.of_nat 4 /\ (hsize conf < 2 ^ 31)%Z /\ (3 <= length (hfield conf))%nat /\ (3 <= length (hs conf))%nat /\ beta conf <> 0 /\
  ssize conf = Z.of_nat 2 /\ drive_ok conf /\ lambda conf = 1 /\ jvar conf = 0 /\ new_B conf (fun _ => vzero) 2 0 = mk3 1 0 1.
Proof.
  unfold new_B, new_h, drive_ok, drive_field. cbn. repeat split; try lia; try lra.
  unfold vadd, vscale, vzero. cbn. f_equal; ring.
Qed.
Example C81_target_case : exists b fuel, let conf := iso_conf b [0; 0; 0] [0; 0; 0] in
  solve_beta ERNum fuel (Some (-66 / 100)) = Ok (Some (beta conf)) /\ drive_ok conf /\
  forall i, (i < 4)%nat -> new_B conf (fun _ => vzero) 2 i = vzero.
Proof.
  destruct (solve_beta_ok (-66 / 100) ltac:(lra)) as (b & H & _). exists b, (solve_fuel (-66 / 100)). split; [apply H; lia|]. split; [exact I|].
  intros i Hi. unfold new_B, new_h, drive_field. cbn. destruct i as [|[|[|[|i]]]]; try lia; unfold vadd, vscale, vzero; cbn; f_equal; ring.
Qed.
