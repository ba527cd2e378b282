(** Theorems about the response runs: property C66. *)
From Coq Require Import String Reals List ZArith Arith Lra Lia.
From Flocq Require Import Core.
From Verif Require Import Num Monad NumR Spin Config Chain Fit Files Writers Runs SpecVec SpecChain SpecTotal SpecRuns SpecResponse Samples
  ProofsColumns ProofsResponse ProofsResponse2.
Import ListNotations.
Local Close Scope R_scope.
Local Open Scope nat_scope.

(** A step without static fields is an ordinary step of the chain whose static fields are all zero;
    the static fields themselves are kept.  The drive acts as before. *)
Theorem C66_no_field : forall sc : chain (num ERNum),
  update_no_field ERNum sc = bind (update ERNum (free ERNum sc)) (fun c => Ok (with_static c (static_h sc))).
Proof. exact no_field_is_free. Qed.
Print Assumptions C66_no_field.
Theorem C66_no_field_steps : forall k sc, iterM (update_no_field ERNum) k sc =
  bind (iterM (update ERNum) k (free ERNum sc)) (fun c => Ok (with_static c (static_h sc))).
Proof. exact iter_no_field. Qed.
Print Assumptions C66_no_field_steps.

(** Without a time-dependent drive the exchange energy plus that of the drive is conserved,
    whatever the static fields are *)
Theorem C66_conserved : forall n s sc k sc', wf n s sc -> 2 <= n -> n mod 2 = 0 -> drive_ok (vars sc) -> unit_spins sc ->
  undriven (vars sc) -> iterM (update_no_field ERNum) k (fin sc) = Ok (fin sc') ->
  ring_energy n (S_ sc') (J_ sc') (drive_only sc s (t sc')) = ring_energy n (S_ sc) (J_ sc) (drive_only sc s (t sc)).
Proof. exact free_conserved. Qed.
Print Assumptions C66_conserved.
Example C66_conserved_case : wf 4 4 kept_chain /\ drive_ok (vars kept_chain) /\ unit_spins kept_chain /\ undriven (vars kept_chain) /\
  h_ kept_chain 2 <> vzero /\
  forall k, exists sc', iterM (update_no_field ERNum) k (fin kept_chain) = Ok (fin sc').
Proof.
  split; [constructor; cbn; auto; lia|]. split; [unfold drive_ok; cbn; lia|]. split; [apply (ex_unit 4 Dstaticfield)|].
  split; [right; reflexivity|]. split; [intro E; apply (f_equal vz) in E; cbn in E; lra|]. exact kept_runs.
Qed.

(** One worker of a response run: 2*10^7 sampler steps and a line; the clock is set to minus the run
    time; then ceil (2 t / dt) steps, with the static fields before time 0 and without them from time 0
    on, each followed by a line. *)
Theorem C66_response : forall n s (sc : chain (num ERNum)) (d : draws ERNum) dt tmax fuel,
  wf n s sc -> 2 <= n -> 1 <= s -> hs_ok (vars sc) -> strob (vars sc) = false ->
  c_dt (vars sc) = Some dt -> c_t (vars sc) = Some tmax -> (0 < dt)%R ->
  let m := Z.to_nat (Zceil (2 * tmax / dt)) in
  (m <= fuel -> exists c0 st l0 lines, thermalise ERNum (dr_mc d) 20000000 sc = Ok c0 /\ chain_log ERNum c0 = Ok l0 /\
      quench (set_t c0 (Some (- tmax)%R)) (- tmax) dt st /\ (forall k, chain_log ERNum (st k) = Ok (lines k)) /\
      response_worker ERNum fuel d sc = Ok (l0 ++ concat (map lines (seq 1 m)))) /\
  (fuel < m -> response_worker ERNum fuel d sc = OutOfFuel).
Proof. exact response_run. Qed.
Print Assumptions C66_response.
(** A run time of 3 with steps of 1/2: twelve steps *)
Example C66_response_case : let sc := ex_at ERNum (Some 0%R) (Some (1 / 2)%R) (Some 3%R) (Some 10%R) false in
  wf 4 2 sc /\ hs_ok (vars sc) /\ strob (vars sc) = false /\ c_dt (vars sc) = Some (1 / 2)%R /\ c_t (vars sc) = Some 3%R /\
  Z.to_nat (Zceil (2 * 3 / (1 / 2))) = 12.
Proof.
  cbv zeta. split; [apply ex_at_wf|]. split; [apply ex_at_hs|]. repeat (split; [reflexivity|]).
  replace (2 * 3 / (1 / 2))%R with (IZR 12) by lra. rewrite Zceil_IZR. reflexivity.
Qed.
