(** The hypotheses of C98 are met. *)
From Coq Require Import String ZArith Reals List Lia Lra Bool Arith.
From Coq Require Import Floats.SpecFloat.
From Flocq Require Import Core.
From Verif Require Import Num Monad NumF64 Config Chain Fit Files Average Runs Main SpecVec SpecChain SpecToml SpecRound SpecClose SpecSession SpecClock
  ProofsFlocq ProofsRound ProofsMadeSamples ProofsReadySamples ProofsHistorySamples ProofsWarmSamples ProofsClockSamples ProofsOrigin ProofsCloseSamples .
Import ListNotations.
Local Open Scope R_scope.

Lemma shipped_conditions L : let conf : config f64 := config_default (F64 L) in
  (exists s, trel conf = S754_zero s) /\ is_number (c_dt conf) /\ 0 < value (c_dt conf) /\ SFltb (c_dt conf) (f_lit 1 5) = false /\
  strob conf = false /\ SFltb (S754_zero false) (c_t conf) = true.
Proof.
  cbn [config_default trel c_dt strob c_t F64 nofZ nlit]. split; [exists false; reflexivity|]. split; [fnum_tac|]. split; [fval_tac|]. split; [vm_compute; reflexivity|]. split; [reflexivity|vm_compute; reflexivity].
Qed.
Lemma shipped_panics L rg conf2 c : c_file conf2 = "log"%string -> exists conf' g,
  run_sim (F64 L) ex_fuel rg (config_default (F64 L)) (mkFs c []) = Ok (conf', g) /\ run_two_point (F64 L) conf2 g = Panic IndexOOB.
Proof.
  intros EF. destruct (clock_default L rg (mkFs c [])) as ([[conf' g] E] & CL & IR & R1). exists conf', g. split; [exact E|].
  destruct (shipped_conditions L) as (A1 & A2 & A3 & A4 & A5 & A6).
  refine (zero_panics L ex_fuel rg (config_default (F64 L)) (mkFs c []) conf' g conf2 CL IR R1 _ _ E EF A1 A2 A3 A4 A5 A6); [constructor|intros nm _; reflexivity].
Qed.
Lemma half_steps L : exists ts, timetable (F64 L) (nopp (F64 L) (quarters 1)) (quarters 2) (quarters 3) (fun _ => true) ts /\ ts <> [] /\
  Forall (fun x => nltb (F64 L) (nabs (F64 L) x) (nlit (F64 L) 1 5) = false) ts.
Proof.
  exists [quarters 1; quarters 3]. split; [|split; [discriminate|repeat constructor; vm_compute; reflexivity]].
  exists 2%nat. split; [|split; vm_compute; reflexivity]. intros [|[|k]] H; [vm_compute; reflexivity..|lia].
Qed.
