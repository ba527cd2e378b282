(** Theorems about whole invocations of the program: properties C56, C57 and C63. *)
From Coq Require Import String SpecFloat Reals ZArith List Lra Lia Arith.
From Verif Require Import Num Monad NumR NumF64 Spin Config Chain Files Toml Runs Main SpecChain SpecTotal SpecRuns SpecToml SpecMain SpecReady
  Samples ProofsRunSamples ProofsTomlSamples ProofsMain ProofsFlow ProofsPass ProofsReady ProofsReadySamples.
Import ListNotations.
Local Close Scope R_scope.
Local Open Scope nat_scope.

(** * C56 *)
(** The modes asked for run in the order of [selected], and the plain simulation runs exactly when
    there is none. *)
Theorem C56_modes : forall N fuel w a f st, main N fuel w a f = Ok st ->
  map fst (s_trace N st) = match selected a with [] => [Mdefault] | l => l end.
Proof. exact main_trace. Qed.
Print Assumptions C56_modes.
(** The binary64 program with eighteen modes on one command line, started in an empty directory, completes *)
Example C56_modes_case : forall L,
  (exists st, main (F64 L) ex_fuel (ex_world (F64 L)) (ex_all (F64 L)) (ex_empty (F64 L)) = Ok st) /\
  selected (ex_all (F64 L)) = [Mdesc; Mext; Mtau; Madiab2; Mrot; Mmaglab; Mfit; Mfiteff; Mhigh; Madiabatic; Mdynhist; Mmagnus; Mtraj; Mmc; Mmcprofile; Mmcfull; Mlangevin; Mresponse].
Proof. intros L. split; [exact (ex_all_runs L)|reflexivity]. Qed.
(** and so does a command line with overrides only *)
Example C56_default_case : forall L,
  (exists st, main (F64 L) ex_fuel (ex_world (F64 L)) (ex_some (F64 L) None) (ex_empty (F64 L)) = Ok st) /\ selected (ex_some (F64 L) None) = [].
Proof. intros L. split; [exact (ex_some_runs L None (or_introl eq_refl))|reflexivity]. Qed.

(** The modes share one configuration: each mode is given what the one before has left
    ([pass], with [entry] and [left_by] for the changes made by each mode); the -t override comes
    first, the temperature is set between the early and the late modes. *)
Theorem C56_shared : forall N fuel w a f st conf f0, read_config N f = Ok (conf, f0) -> main N fuel w a f = Ok st ->
  exists l1 l2 c1 b, s_trace N st = l1 ++ l2 /\ Forall (fun p => early (fst p) = true) l1 /\ Forall (fun p => early (fst p) = false) l2 /\
    pass N a (match a_tau a with Some x => set_tau conf x | None => conf end) l1 c1 /\
    (a_beta a = Some b \/ (a_beta a = None /\ solve_beta N fuel (ednsty c1) = Ok b)) /\
    pass N a (set_beta c1 b) l2 (s_conf N st).
Proof. exact main_flows. Qed.
Print Assumptions C56_shared.
Example C56_shared_case : forall L, (exists f, read_config (F64 L) (ex_empty (F64 L)) = Ok (config_default (F64 L), f)) /\
  exists st, main (F64 L) ex_fuel (ex_world (F64 L)) (ex_all (F64 L)) (ex_empty (F64 L)) = Ok st.
Proof. intros L. split; [exact (ex_read L)|exact (ex_all_runs L)]. Qed.

(** In particular: the offset a mode sees has been advanced by each saving mode before it, except by
    --ext, which works on a copy; so a mode that follows --ext writes the same log files again. *)
Theorem C56_offsets : forall N fuel w a f st conf f0, read_config N f = Ok (conf, f0) -> main N fuel w a f = Ok st -> (0 <= runs conf)%Z ->
  forall l1 m c l2, s_trace N st = l1 ++ (m, c) :: l2 -> offset c = (offset conf + Z.of_nat (count_adv l1) * runs conf)%Z /\ runs c = runs conf.
Proof. exact offsets. Qed.
Print Assumptions C56_offsets.
Example C56_offsets_case : forall N, runs (config_default N) = 2%Z /\ advances Mext = false /\ advances Mlangevin = true.
Proof. intros N. repeat split. Qed.
(** And all modes after --hist or --magnus have no drive and write to x<n>.dat. *)
Theorem C56_hist : forall N fuel w a f st, main N fuel w a f = Ok st ->
  forall l1 m0 c0 l2, s_trace N st = l1 ++ (m0, c0) :: l2 -> m0 = Mhist \/ m0 = Mmagnus ->
  forall m c, In (m, c) l2 -> drive c = Dnone /\ c_file c = "x"%string.
Proof. exact hist_leaves. Qed.
Print Assumptions C56_hist.
Example C56_hist_case : forall L, exists st, main (F64 L) ex_fuel (ex_world (F64 L)) (ex_all (F64 L)) (ex_empty (F64 L)) = Ok st /\
  exists l1 c0 l2 c, s_trace (F64 L) st = l1 ++ (Mmagnus, c0) :: l2 /\ In (Mmc, c) l2.
Proof.
  intros L. destruct (ex_all_runs L) as [st E]. exists st. split; [exact E|]. pose proof (C56_modes _ _ _ _ _ _ E) as H.
  destruct (trace_split _ [Mdesc; Mext; Mtau; Madiab2; Mrot; Mmaglab; Mfit; Mfiteff; Mhigh; Madiabatic; Mdynhist] Mmagnus [Mtraj] Mmc _ H) as (l1 & c0 & l2 & c & A & _ & B).
  exists l1, c0, l2, c. auto.
Qed.

(** * C57 *)
(** Every late mode has the temperature given by -b or, without it, solved from the energy density:
    that of config.toml if no fit came before. *)
Theorem C57_late : forall N fuel w a f st conf f0, read_config N f = Ok (conf, f0) -> main N fuel w a f = Ok st ->
  exists b, (forall m c, In (m, c) (s_trace N st) -> early m = false -> beta c = b) /\
    match a_beta a with
    | Some x => b = x
    | None => exists c1, solve_beta N fuel (ednsty c1) = Ok b /\ (Forall (fun m => early m = false \/ m = Mdesc \/ m = Mext \/ m = Mtau) (selected a) -> ednsty c1 = ednsty conf)
    end.
Proof. exact late_beta. Qed.
Print Assumptions C57_late.
(** The -b override has no influence on the early modes. *)
Theorem C57_early : forall N fuel w a f b1 b2 st1 st2, main N fuel w (with_beta a b1) f = Ok st1 -> main N fuel w (with_beta a b2) f = Ok st2 ->
  filter (fun p => early (fst p)) (s_trace N st1) = filter (fun p => early (fst p)) (s_trace N st2).
Proof. exact early_blind. Qed.
Print Assumptions C57_early.
(** --ext and --n-steps use config.toml with the -t override. *)
Theorem C57_file_conf : forall N fuel w a f st conf f0, read_config N f = Ok (conf, f0) -> main N fuel w a f = Ok st ->
  forall m c, In (m, c) (s_trace N st) -> m = Mext \/ m = Mtau -> c = match a_tau a with Some x => set_tau conf x | None => conf end.
Proof. exact file_conf. Qed.
Print Assumptions C57_file_conf.
(** In the example above: Mext runs with the beta of config.toml although -b is given *)
Example C57_file_conf_case : forall L, (exists f, read_config (F64 L) (ex_empty (F64 L)) = Ok (config_default (F64 L), f)) /\
  (exists st, main (F64 L) ex_fuel (ex_world (F64 L)) (ex_all (F64 L)) (ex_empty (F64 L)) = Ok st) /\
  In Mext (selected (ex_all (F64 L))) /\ In Mmc (selected (ex_all (F64 L))) /\ with_beta (ex_all (F64 L)) (a_beta (ex_all (F64 L))) = ex_all (F64 L) /\
  a_beta (ex_all (F64 L)) <> Some (beta (config_default (F64 L))).
Proof.
  intros L. split; [exact (ex_read L)|]. split; [exact (ex_all_runs L)|]. split; [right; left; reflexivity|]. split; [do 13 right; left; reflexivity|]. split; [reflexivity|].
  intros H. injection H as H.
  vm_compute in H. discriminate H.
Qed.

(** After a plain run config.toml has the -t override, the temperature and the advanced offset. *)
Theorem C57_saved : forall N fuel w a f st conf f0, selected a = [] -> read_config N f = Ok (conf, f0) -> main N fuel w a f = Ok st -> (0 <= runs conf)%Z ->
  exists b, match a_beta a with Some x => b = x | None => solve_beta N fuel (ednsty conf) = Ok b end /\
    read_config N (s_fs N st) =
      Ok (set_offset (set_beta (match a_tau a with Some x => set_tau conf x | None => conf end) b) (offset conf + runs conf)%Z, s_fs N st).
Proof. exact default_saved. Qed.
Print Assumptions C57_saved.
(** After -l it has in addition hsize = ssize. *)
Theorem C57_langevin : forall N fuel w a f st conf f0, selected a = [Mlangevin] -> read_config N f = Ok (conf, f0) -> main N fuel w a f = Ok st -> (0 <= runs conf)%Z ->
  exists b, match a_beta a with Some x => b = x | None => solve_beta N fuel (ednsty conf) = Ok b end /\
    read_config N (s_fs N st) =
      Ok (set_offset (set_hsize (set_beta (match a_tau a with Some x => set_tau conf x | None => conf end) b) (ssize conf)) (offset conf + runs conf)%Z, s_fs N st).
Proof. exact langevin_saved. Qed.
Print Assumptions C57_langevin.
Example C57_saved_case : forall L, (exists f, read_config (F64 L) (ex_empty (F64 L)) = Ok (config_default (F64 L), f)) /\
  (exists st, main (F64 L) ex_fuel (ex_world (F64 L)) (ex_some (F64 L) None) (ex_empty (F64 L)) = Ok st) /\ selected (ex_some (F64 L) None) = [] /\
  (exists st, main (F64 L) ex_fuel (ex_world (F64 L)) (ex_some (F64 L) (Some None)) (ex_empty (F64 L)) = Ok st) /\ selected (ex_some (F64 L) (Some None)) = [Mlangevin] /\
  hsize (config_default (F64 L)) = 512%Z /\ ssize (config_default (F64 L)) = 8%Z /\ (0 <= runs (config_default (F64 L)))%Z.
Proof.
  intros L. split; [exact (ex_read L)|]. split; [exact (ex_some_runs L None (or_introl eq_refl))|]. split; [reflexivity|].
  split; [exact (ex_some_runs L (Some None) (or_intror eq_refl))|]. repeat split. discriminate.
Qed.

(** * C63 *)
(** The program completes, whatever combination of modes is asked for and whatever the draws,
    under the conditions of [ready]; in exact arithmetic and in binary64 with any maths library. *)
Theorem C63_completes : forall N fuel w a f conf f1, arithmetic N -> read_config N f = Ok (conf, f1) -> ready N fuel w a conf ->
  returns (main N fuel w a f).
Proof. exact ready_completes. Qed.
Print Assumptions C63_completes.
Example C63_completes_case : forall L, arithmetic (F64 L) /\ (exists f, read_config (F64 L) (ex_empty (F64 L)) = Ok (config_default (F64 L), f)) /\
  ready (F64 L) ex_fuel (ex_world (F64 L)) (ex_all (F64 L)) (config_default (F64 L)).
Proof. intros L. split; [exact (binary64 L)|]. split; [exact (ex_read L)|exact (ex_ready L)]. Qed.
