(** Theorems about the runs at several drive periods: property C68. *)
From Coq Require Import String Reals List ZArith Arith Lra Lia.
From Flocq Require Import Core.
From Verif Require Import Num Monad NumR Config Chain Fit Files Writers Runs SpecVec SpecChain SpecTotal SpecRuns SpecColumns SpecPeriods Samples
  ProofsRunSamples ProofsPeriods.
Import ListNotations.
Local Close Scope R_scope.
Local Open Scope nat_scope.

(** One worker with the period x: thermalisation, a line in the log, then the steps up to the end of
    the k-th period, then one line with the period, the time reached and the state. *)
Theorem C68_worker : forall n s (sc : chain (num ERNum)) (d : draws ERNum) r x k fuel,
  wf n s sc -> 2 <= n -> 1 <= s -> hs_ok (vars sc) -> t sc = Some (- r)%R -> (0 < x)%R ->
  let m := period_steps r x k in
  (m <= fuel -> exists c0 st l0 rest, thermalise ERNum (dr_mc d) 20000000 (for_period sc x k) = Ok c0 /\ chain_log ERNum c0 = Ok l0 /\
     dynamics ERNum c0 st /\ length rest = 5 /\
     tau_worker ERNum fuel d (for_period sc x k) = Ok (l0, numbers (Some x :: Some (period_end r x k) :: rest)) /\
     (forall c, st m = fin c -> 2 <= s -> drive_ok (vars c) ->
        Some x :: Some (period_end r x k) :: rest = map Some (tau_row n s c))) /\
  (fuel < m -> tau_worker ERNum fuel d (for_period sc x k) = OutOfFuel).
Proof. exact period_worker. Qed.
Print Assumptions C68_worker.
Example C68_worker_case : let sc := ex_at ERNum (Some (- 0)%R) (Some (1 / 2)%R) (Some 3%R) (Some 10%R) false in
  wf 4 2 sc /\ hs_ok (vars sc) /\ t sc = Some (- 0)%R /\ (0 < 5)%R.
Proof. cbv zeta. split; [apply ex_at_wf|]. split; [apply ex_at_hs|]. split; [reflexivity|lra]. Qed.

(** Short periods: exactly a hundred steps for each, and the run ends exactly with the last one *)
Theorem C68_short : forall x k, (0 < x < 10)%R -> (0 <= k)%Z ->
  period_steps 0 x k = Z.to_nat (100 * k) /\ period_end 0 x k = (IZR k * x)%R.
Proof. exact period_short. Qed.
Print Assumptions C68_short.
Example C68_short_case : (0 < 5 < 10)%R /\ (0 <= 30)%Z. Proof. split; [lra|lia]. Qed.
(** In general the run ends less than one step after the last period *)
Theorem C68_end : forall r x k, (0 < x)%R -> (- r <= IZR k * x)%R ->
  (IZR k * x <= period_end r x k < IZR k * x + period_step x)%R.
Proof. exact period_late. Qed.
Print Assumptions C68_end.
Example C68_end_case : (0 < 12)%R /\ (- 1 <= IZR 30 * 12)%R. Proof. split; lra. Qed.
(** From period 10 on it does not end with a period in general *)
Theorem C68_end_refuted : exists x k, (10 <= x)%R /\ (0 <= k)%Z /\ period_end 0 x k <> (IZR k * x)%R.
Proof. exact period_misses. Qed.
Print Assumptions C68_end_refuted.

(** The whole mode: the configuration is unchanged, and the workers send one line for each period. *)
Theorem C68_mode : forall fuel xs k rg (conf : config (num ERNum)) f r, steppable ERNum conf -> trel conf = Some r ->
  (forall x, In x xs -> (0 < x)%R /\ period_steps r x k <= fuel) ->
  exists rows f1, run_tau ERNum fuel (map Some xs) k rg conf f =
      Ok (conf, append ("evt" ++ dec (Z.to_nat k) ++ ".dat")%string (r_file ERNum rg (map (fun l => [l]) rows)) f1) /\
    Forall2 (fun x row => exists rest, length rest = 5 /\ row = numbers (Some x :: Some (period_end r x k) :: rest)) xs rows.
Proof. exact period_mode. Qed.
Print Assumptions C68_mode.
Example C68_mode_case : let conf := ex_runs ERNum (Some 0%R) (Some (1 / 50)%R) (Some 100%R) (Some 10%R) false in
  steppable ERNum conf /\ trel conf = Some 0%R /\ (forall x, In x [1; 5]%R -> (0 < x)%R /\ period_steps 0 x 3 <= Z.to_nat 300).
Proof.
  cbv zeta. split; [|split; [reflexivity|]].
  - destruct (ex_runs_usable_ER (Some 0%R) (Some (1 / 50)%R) (Some 100%R) (Some 10%R) false) as (A & _ & B & C & D & _). repeat split; try assumption; apply A || apply C.
  - intros x [<-|[<-|[]]]; split; try lra; (destruct (period_short 1 3) as [E1 _]; [lra|lia|]; destruct (period_short 5 3) as [E5 _]; [lra|lia|]; rewrite ?E1, ?E5; lia).
Qed.
