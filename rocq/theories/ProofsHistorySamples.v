(** Two invocations in one directory. *)
From Coq Require Import String SpecFloat Reals Lra Lia List ZArith Arith Bool.
From Verif Require Import Num Monad NumR NumF64 Spin Config Chain Files Toml Runs Main SpecChain SpecRuns SpecMain SpecReady ProofsPass ProofsReady ProofsReadySamples.
Import ListNotations.
Local Close Scope R_scope.
Local Open Scope nat_scope.

(** `-t 8 -b 2` twice, then `-t 8 -b 2 -l` *)
Lemma ex_again L l c : l = None \/ l = Some None -> (exists k, (0 <= k <= 100)%Z /\ c = set_offset (set_beta (set_tau (config_default (F64 L)) (nofZ (F64 L) 8)) (nofZ (F64 L) 2)) k) ->
  ready (F64 L) ex_fuel (ex_world (F64 L)) (ex_some (F64 L) l) c.
Proof.
  intros Hl (k & Hk & ->). pose proof (ex_some_ready L l Hl) as [R1 R2 R3 R4 R5 R6 R7 R8 R9 R10 R11 R12].
  constructor; try assumption. cbn. lia.
Qed.
Lemma ex_history L : exists f1 f2 f3, history (F64 L) (ex_empty (F64 L)) [(ex_empty (F64 L), f1); (f1, f2); (f2, f3)].
Proof.
  destruct (ex_read L) as [f0 R0].
  destruct (ex_some_runs L None (or_introl eq_refl)) as [st1 E1].
  destruct (default_saved (F64 L) _ _ _ _ _ _ _ (eq_refl : selected (ex_some (F64 L) None) = []) R0 E1 ltac:(cbn; lia)) as (b1 & B1 & R1). cbn in B1. subst b1.
  destruct (ready_completes _ ex_fuel (ex_world (F64 L)) (ex_some (F64 L) None) _ _ _ (binary64 L) R1) as [st2 E2].
  { apply ex_again; [auto|]. exists 2%Z. split; [lia|reflexivity]. }
  destruct (default_saved (F64 L) _ _ _ _ _ _ _ (eq_refl : selected (ex_some (F64 L) None) = []) R1 E2 ltac:(cbn; lia)) as (b2 & B2 & R2). cbn in B2. subst b2.
  destruct (ready_completes _ ex_fuel (ex_world (F64 L)) (ex_some (F64 L) (Some None)) _ _ _ (binary64 L) R2) as [st3 E3].
  { apply ex_again; [auto|]. exists 4%Z. split; [lia|reflexivity]. }
  exists (s_fs _ st1), (s_fs _ st2), (s_fs _ st3).
  apply (h_cons (F64 L) ex_fuel (ex_world (F64 L)) (ex_some (F64 L) None) _ st1); [left; reflexivity|exact E1|].
  apply (h_cons (F64 L) ex_fuel (ex_world (F64 L)) (ex_some (F64 L) None) _ st2); [left; reflexivity|exact E2|].
  apply (h_cons (F64 L) ex_fuel (ex_world (F64 L)) (ex_some (F64 L) (Some None)) _ st3); [right; right; right; left; reflexivity|exact E3|].
  constructor.
Qed.
From Verif Require Import ProofsRunTotal ProofsTotal SpecTotal.
Lemma ex_sim_runs L rg f : exists r, run_sim (F64 L) ex_fuel rg (config_default (F64 L)) f = Ok r.
Proof.
  pose proof (ex_ready L) as [R1 R2 (R3 & R3a & R3b & R3c) [R4 R4b] R5 R6 R7 R8 R9 R10 R11 R12].
  apply (run_sim_total (F64 L) ex_fuel rg (config_default (F64 L)) f (quarter_F64 L)); [|intros H; discriminate H|exact R10].
  split; [exact R3|]. unfold SpecToml.in_range. cbn in *. repeat split; lia.
Qed.
