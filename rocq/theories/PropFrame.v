(** C75: energy along the motion, the frame turning with the drive, and the quantity conserved there. *)
From Coq Require Import Reals Lra Lia List ZArith Arith.
From Verif Require Import Num Monad NumR Spin Config Chain SpecVec SpecChain SpecOrder SpecFrame Samples ProofsDrive ProofsNew ProofsExist2 ProofsFrame2 ProofsFrameSamples.
Import ListNotations.
Local Open Scope R_scope.

(** * C75 *)
(** The energy changes at the rate at which the drive works on the subsystem *)
Theorem C75_power : forall n s sc, wf n s sc -> forall T X, solves n s sc T X -> forall x, t sc <= x <= t sc + T ->
  derivable_pt_lim (fun r => ring_energy n (X r) (J_ sc) (B_ sc s r)) x
    (2 * PI / tau (vars sc) * Rsum s (fun i => dot (drive_fieldp (vars sc) x) (X x i))).
Proof. exact power_law. Qed.
Print Assumptions C75_power.

(** ... and the program's total energy follows it to second order *)
Theorem C75_energy_order : forall n s sc, wf n s sc -> unit_spins sc -> (2 <= n)%nat -> (n mod 2 = 0)%nat -> drive_ok (vars sc) ->
  forall T, 0 <= T -> exists X K, solves n s sc T X /\ forall dt k sc' e, 0 < dt -> INR k * dt <= T ->
    iterM (update ERNum) k (fin (with_dt sc dt)) = Ok (fin sc') -> total_energy2 ERNum (fin sc') = Ok (Some e) ->
    Rabs (INR n * e - ring_energy n (X (t sc + INR k * dt)) (J_ sc) (B_ sc s (t sc + INR k * dt))) <= K * dt ^ 2.
Proof. exact energy_order. Qed.
Print Assumptions C75_energy_order.

(** Seen from the frame turning with the drive, the driven chain is an undriven one *)
Theorem C75_frame : forall n s sc, wf n s sc -> drive (vars sc) = Dxyplane -> round_z n sc -> forall T X,
  solves n s sc T X <-> solves n s (frame_chain n s sc) T (fun x i => seen (drive_w sc) x (X x i)).
Proof. exact frame_iff. Qed.
Print Assumptions C75_frame.
Theorem C75_frame_energy : forall n s sc, drive (vars sc) = Dxyplane -> round_z n sc -> forall S x,
  ring_energy n (fun i => seen (drive_w sc) x (S i)) (J_ sc) (fun i => vadd (h_ sc i) (frame_field s (drive_w sc) i)) =
  ring_energy n S (J_ sc) (B_ sc s x) - drive_w sc * Rsum n (fun i => vz (S i)).
Proof. exact frame_energy_fields. Qed.
Print Assumptions C75_frame_energy.
Theorem C75_conserved : forall n s sc, wf n s sc -> drive (vars sc) = Dxyplane -> round_z n sc -> forall T X, solves n s sc T X ->
  forall x, t sc <= x <= t sc + T -> frame_energy n s sc (X x) x = frame_energy n s sc (X (t sc)) (t sc).
Proof. exact frame_const. Qed.
Print Assumptions C75_conserved.
Theorem C75_program : forall n s sc, wf n s sc -> unit_spins sc -> (2 <= n)%nat -> (n mod 2 = 0)%nat -> drive_ok (vars sc) ->
  forall T, 0 <= T -> drive (vars sc) = Dxyplane -> round_z n sc ->
  exists K, forall dt k sc' e0 m0 e1 m1, 0 < dt -> INR k * dt <= T ->
    iterM (update ERNum) k (fin (with_dt sc dt)) = Ok (fin sc') ->
    total_energy2 ERNum (fin sc) = Ok (Some e0) -> m_tot ERNum (fin sc) = Ok (fin3 m0) ->
    total_energy2 ERNum (fin sc') = Ok (Some e1) -> m_tot ERNum (fin sc') = Ok (fin3 m1) ->
    Rabs ((INR n * e1 - 2 * PI / tau (vars sc) * vz m1) - (INR n * e0 - 2 * PI / tau (vars sc) * vz m0)) <= K * dt ^ 2.
Proof. exact invariant_order. Qed.
Print Assumptions C75_program.
Example C75_case : wf 2 1 orbit_chain /\ unit_spins orbit_chain /\ drive_ok (vars orbit_chain) /\ drive (vars orbit_chain) = Dxyplane /\ round_z 2 orbit_chain /\
  (forall T, 0 <= T -> exists X, solves 2 1 orbit_chain T X) /\
  forall T, 0 <= T -> exists d, 0 < d /\ forall dt k, 0 < dt < d -> INR k * dt <= T ->
    exists sc', iterM (update ERNum) k (fin (with_dt orbit_chain dt)) = Ok (fin sc').
Proof.
  exact (conj orbit_wf (conj orbit_unit (conj orbit_drive (conj eq_refl (conj orbit_round (conj (ring_exists 2 1 orbit_chain orbit_wf orbit_unit) orbit_runs)))))).
Qed.

(** The fit modes build exactly these fields, with couplings equal in x and y, if the noise is off *)
Theorem C75_fit_chain : forall conf (d : newdraw ERNum) (zj zh : nat -> vec) sc,
  hs conf = [1; 0; 0] -> hfield conf = [0; 0; - (2 * PI / tau conf)] -> hvar conf = 0 -> jvar conf = 0 -> (0 <= hsize conf < 2 ^ 31)%Z ->
  (0 <= ssize conf)%Z -> (forall i, nd_j d i = fin3 (zj i)) -> (forall i, nd_h d i = fin3 (zh i)) ->
  chain_new ERNum (config_map Some conf) d = Ok sc ->
  forall i, (Z.of_nat i < hsize conf)%Z ->
    nth_error (static_h sc) i = Some (fin3 (frame_field (Z.to_nat (ssize conf)) (2 * PI / tau conf) i)) /\
    nth_error (j_couple sc) i = Some (fin3 (mk3 1 1 (lambda conf))).
Proof. exact fit_fields. Qed.
Print Assumptions C75_fit_chain.
Example C75_fit_case : let conf := fit_conf in
  hs conf = [1; 0; 0] /\ hfield conf = [0; 0; - (2 * PI / tau conf)] /\ hvar conf = 0 /\ jvar conf = 0 /\
  exists sc, chain_new ERNum (config_map Some conf) straight_draw = Ok sc /\
    (forall i, nd_j straight_draw i = fin3 vzero) /\ (forall i, nd_h straight_draw i = fin3 vzero).
Proof. exact fit_case. Qed.
