(** The hypotheses of C97 are met. *)
From Coq Require Import ZArith List Lia Bool Arith.
From Coq Require Import Floats.SpecFloat.
From Verif Require Import Num Monad NumF64 Config Chain Fit Files Runs SpecToml SpecClock ProofsTotal ProofsRunTotal ProofsReadySamples ProofsHistorySamples ProofsWarmSamples.
Import ListNotations.
Local Open Scope nat_scope.

Definition quarters (k : Z) : f64 := f_div (f_ofZ k) (f_ofZ 4).
Lemma quarter_table L : timetable (F64 L) (quarters (-1)) (quarters 1) (quarters 2) (fun _ => true) [quarters 0; quarters 1; quarters 2].
Proof.
  exists 3. split; [|split; [vm_compute; reflexivity|vm_compute; reflexivity]]. intros [|[|[|k]]] H; [vm_compute; reflexivity..|lia].
Qed.
Lemma clock_default L rg f : (exists r, run_sim (F64 L) ex_fuel rg (config_default (F64 L)) f = Ok r) /\
  c_log (config_default (F64 L)) = true /\ in_range (config_default (F64 L)) /\ (1 <= runs (config_default (F64 L)))%Z.
Proof. split; [exact (ex_default_starts L rg f)|]. unfold in_range. cbn. repeat split; discriminate. Qed.
Lemma clock_response L rg f : exists r, run_sim_response (F64 L) ex_fuel rg (config_default (F64 L)) f = Ok r.
Proof.
  pose proof (ex_ready L) as [R1 R2 (R3 & R3a & R3b & R3c) [R4 R4b] R5 R6 R7 R8 R9 R10 R11 R12].
  apply (run_response_total (F64 L) ex_fuel rg (config_default (F64 L)) f (quarter_F64 L)); [|intros H; discriminate H|exact (R11 eq_refl)].
  split; [exact R3|]. unfold SpecToml.in_range. cbn in *. repeat split; lia.
Qed.
