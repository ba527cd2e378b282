(** Theorems about energies, magnetisations and the drive: properties C13 to C18 and C61.
    [fin sc] is the chain [sc] of real data seen in exact arithmetic with NaN; [ring_energy],
    [open_energy], [B_] (static field plus drive on the subsystem) are defined in SpecChain.v. *)
From Coq Require Import Reals List ZArith Lra Lia.
From Verif Require Import Num Monad NumR Spin Config Chain Langevin SpecVec SpecChain Samples
  ProofsSpin ProofsChain ProofsEnergy ProofsDrive.
Import ListNotations.
Local Open Scope R_scope.

(** The example chain meets the hypotheses of all theorems of this file. *)
Example energy_case : forall dr, wf 4 2 (ex_chain 2 dr) /\ drive_ok (vars (ex_chain 2 dr)) /\
  unit_spins (ex_chain 2 dr) /\ beta (vars (ex_chain 2 dr)) <> 0 /\ tau (vars (ex_chain 2 dr)) <> 0.
Proof.
  intro dr. split; [apply (ex_wf 2); lia|]. split; [apply ex_drive|]. split; [apply ex_unit|].
  cbn; split; lra.
Qed.

(** * C13 *)
Theorem C13_total_energy : forall n s sc, wf n s sc -> (1 <= n)%nat -> drive_ok (vars sc) ->
  total_energy ERNum (fin sc) = Ok (Some (ring_energy n (S_ sc) (J_ sc) (B_ sc s (t sc)) / INR n)).
Proof. exact total_energy_value. Qed.
Print Assumptions C13_total_energy.
Theorem C13_total_energy2 : forall n s sc, wf n s sc -> (1 <= n)%nat -> drive_ok (vars sc) ->
  total_energy2 ERNum (fin sc) = Ok (Some (ring_energy n (S_ sc) (J_ sc) (B_ sc s (t sc)) / INR n)).
Proof. exact total_energy2_value. Qed.
Print Assumptions C13_total_energy2.

(** * C14 *)
Theorem C14_mc_total : forall n s sc, wf n s sc -> (1 <= n)%nat ->
  mc_total_energy ERNum (fin sc) = Ok (Some (ring_energy n (S_ sc) (J_ sc) (h_ sc) / INR n)).
Proof. exact mc_total_value. Qed.
Print Assumptions C14_mc_total.
Theorem C14_mc_total_undriven : forall n s sc, wf n s sc -> (1 <= n)%nat -> drive (vars sc) = Dnone ->
  mc_total_energy ERNum (fin sc) = total_energy ERNum (fin sc).
Proof. exact mc_total_is_total. Qed.
Print Assumptions C14_mc_total_undriven.
(** the open energy of the first s sites plus the bond from site s-1 to site 0 *)
Theorem C14_mc_system : forall n s sc, wf n s sc -> (1 <= s)%nat ->
  mc_system_energy ERNum (fin sc) = Ok (Some
    ((open_energy s (S_ sc) (J_ sc) (h_ sc) + bond (S_ sc) (J_ sc) (s - 1) 0) / INR s)).
Proof. exact mc_system_open. Qed.
Print Assumptions C14_mc_system.
Theorem C14_mc_system_full : forall n sc, wf n n sc -> (1 <= n)%nat ->
  mc_system_energy ERNum (fin sc) = mc_total_energy ERNum (fin sc).
Proof. exact mc_system_full. Qed.
Print Assumptions C14_mc_system_full.
Example C14_full_case : wf 4 4 (ex_chain 4 Dnone).
Proof. apply (ex_wf 4). lia. Qed.

(** * C15 *)
Theorem C15_system_energy : forall n s sc, wf n s sc -> (2 <= s)%nat -> drive_ok (vars sc) ->
  system_energy ERNum (fin sc) =
  Ok (Some (Rsum (s - 1) (fun i => bond (S_ sc) (J_ sc) i (i + 1)
              + dot (vadd (h_ sc i) (drive_field (vars sc) (t sc))) (S_ sc i)) / INR (s - 1))).
Proof. exact system_energy_value. Qed.
Print Assumptions C15_system_energy.
Theorem C15_one_site_nan : forall n s sc, wf n s sc -> s = 1%nat -> hs_ok (vars sc) ->
  system_energy ERNum (fin sc) = Ok None.
Proof. exact system_energy_one. Qed.
Print Assumptions C15_one_site_nan.
Example C15_one_site_case : wf 4 1 (ex_chain 1 Dxyplane) /\ hs_ok (vars (ex_chain 1 Dxyplane)).
Proof. split; [apply (ex_wf 1); lia|]. unfold hs_ok; cbn. discriminate. Qed.

(** * C16 *)
Theorem C16_m : forall n s sc, wf n s sc -> m ERNum (fin sc) = Ok (fin3 (Vsum s (S_ sc))).
Proof. exact m_value. Qed.
Print Assumptions C16_m.
Theorem C16_m_tot : forall n s sc, wf n s sc -> m_tot ERNum (fin sc) = Ok (fin3 (Vsum n (S_ sc))).
Proof. exact m_tot_value. Qed.
Print Assumptions C16_m_tot.
Theorem C16_m_bounded : forall n s sc, wf n s sc -> unit_spins sc ->
  exists v w, m ERNum (fin sc) = Ok (fin3 v) /\ norm v <= INR s /\
     Rabs (vx v) <= INR s /\ Rabs (vy v) <= INR s /\ Rabs (vz v) <= INR s /\
  m_tot ERNum (fin sc) = Ok (fin3 w) /\ norm w <= INR n /\
     Rabs (vx w) <= INR n /\ Rabs (vy w) <= INR n /\ Rabs (vz w) <= INR n.
Proof. exact m_bound. Qed.
Print Assumptions C16_m_bounded.
Theorem C16_m_panics : forall (N : NumOps) (sc : chain (num N)),
  (length (spins sc) < as_usize (ssize (vars sc)))%nat -> m N sc = Panic IndexOOB.
Proof. exact m_panics. Qed.
Print Assumptions C16_m_panics.
Example C16_m_panics_case : (length (spins (ex_chain 5 Dnone)) < as_usize (ssize (vars (ex_chain 5 Dnone))))%nat.
Proof. cbn. lia. Qed.

(** * C17: Jm bounds all coupling components, Hm all static fields *)
Theorem C17_bound : forall n s sc Jm Hm,
  wf n s sc -> (1 <= n)%nat -> drive_ok (vars sc) -> unit_spins sc -> 0 <= Jm ->
  (forall i, (i < n)%nat -> Rabs (vx (J_ sc i)) <= Jm /\ Rabs (vy (J_ sc i)) <= Jm /\ Rabs (vz (J_ sc i)) <= Jm) ->
  (forall i, (i < n)%nat -> norm (h_ sc i) <= Hm) ->
  exists e, total_energy2 ERNum (fin sc) = Ok (Some e) /\ Rabs e <= Jm + (Hm + drive_amp (vars sc)).
Proof. exact total_energy2_bound. Qed.
Print Assumptions C17_bound.

(** * C18 *)
Theorem C18_drive_value : forall c x, drive_ok c ->
  h_ext ERNum (config_map Some c) (Some x) = Ok (fin3 (drive_field c x)).
Proof. exact h_ext_fin. Qed.
Print Assumptions C18_drive_value.
Theorem C18_periodic : forall c x (k : Z), drive_ok c ->
  h_ext ERNum (config_map Some c) (Some (x + IZR k * tau c)) = h_ext ERNum (config_map Some c) (Some x).
Proof. exact h_ext_period. Qed.
Print Assumptions C18_periodic.
Theorem C18_xyplane_unit : forall c x, drive c = Dxyplane -> tau c <> 0 ->
  exists v, h_ext ERNum (config_map Some c) (Some x) = Ok (fin3 v) /\ unit3 v.
Proof. exact h_ext_xyplane_unit. Qed.
Print Assumptions C18_xyplane_unit.
Theorem C18_derivative : forall c, drive_ok c ->
  exists F P, (forall x, h_ext ERNum (config_map Some c) (Some x) = Ok (fin3 (F x))) /\
              (forall x, h_extp ERNum (config_map Some c) (Some x) = fin3 (P x)) /\
              (forall x, has_velocity F x (vscale (2 * PI / tau c) (P x))).
Proof. exact drive_derivative. Qed.
Print Assumptions C18_derivative.
Theorem C18_none_static : forall c x,
  (drive c = Dnone -> h_ext ERNum (config_map Some c) (Some x) = Ok (fin3 vzero)) /\
  (drive c = Dstaticfield -> (3 <= length (hs c))%nat ->
     h_ext ERNum (config_map Some c) (Some x) = Ok (fin3 (hvec (hs c)))).
Proof. exact h_ext_none_static. Qed.
Print Assumptions C18_none_static.
Example C18_case : drive_ok (ex_conf 4 2 Dxyelliptic).
Proof. cbn; lra. Qed.

(** * C61 *)
Theorem C61_boundary_term : forall n s sc, wf n s sc -> (2 <= s)%nat -> beta (vars sc) <> 0 ->
  boundary_term ERNum (fin sc) = Ok (Some (
    let W1 := vsub (vhad (J_ sc 0) (S_ sc 1)) (h_ sc 0) in
    let Wl := vsub (vhad (J_ sc (s - 2)) (S_ sc (s - 2))) (h_ sc (s - 1)) in
    2 / beta (vars sc) * (dot W1 (S_ sc 0) + dot Wl (S_ sc (s - 1)))
    - (dot (cross (S_ sc 0) W1) (cross (S_ sc 0) W1)
       + dot (cross (S_ sc (s - 1)) Wl) (cross (S_ sc (s - 1)) Wl)))).
Proof. exact boundary_value. Qed.
Print Assumptions C61_boundary_term.
(** The Langevin version uses the drive instead of the static field and adds the power of the drive. *)
Theorem C61_langevin_boundary_term : forall n s sc g, wf n s sc -> (2 <= s)%nat -> beta (vars sc) <> 0 ->
  tau (vars sc) <> 0 -> drive_ok (vars sc) ->
  exists P, h_extp ERNum (config_map Some (vars sc)) (Some (t sc)) = fin3 P /\
  lboundary_term ERNum (mkL (fin sc) (Some g)) = Ok (Some (
    let F := drive_field (vars sc) (t sc) in
    let W1 := vsub (vhad (J_ sc 0) (S_ sc 1)) F in
    let Wl := vsub (vhad (J_ sc (s - 2)) (S_ sc (s - 2))) F in
    2 * g / beta (vars sc) * (dot W1 (S_ sc 0) + dot Wl (S_ sc (s - 1)))
    - g * (dot (cross (S_ sc 0) W1) (cross (S_ sc 0) W1)
       + dot (cross (S_ sc (s - 1)) Wl) (cross (S_ sc (s - 1)) Wl))
    + 2 * PI / tau (vars sc) * dot P (Vsum s (S_ sc)))).
Proof. exact lboundary_value. Qed.
Print Assumptions C61_langevin_boundary_term.
Theorem C61_torque_nonnegative : forall a b, 0 <= dot (cross a b) (cross a b).
Proof. exact (fun a b => dot_nonneg (cross a b)). Qed.
Print Assumptions C61_torque_nonnegative.
