(** The concrete cases shown beside C88. *)
From Coq Require Import String SpecFloat Reals Lra Lia List ZArith Arith Bool.
From Verif Require Import Num Monad NumR NumF64 Spin Config Chain Langevin Fit Files Toml Writers Average Runs Main SpecVec SpecChain SpecTotal SpecToml SpecWriters SpecRuns SpecFit SpecMain SpecReady
  SpecHist SpecPeriods SpecOptions Samples ProofsRunSamples ProofsReady ProofsReadySamples ProofsProgram ProofsHistory ProofsHistSamples ProofsPeriods ProofsOptions.
Import ListNotations.
Local Close Scope R_scope.
Local Open Scope nat_scope.

(** -b and one mode *)
Definition opt_args {T} (b : T) (h d s : option (option Z)) (l : option (option T)) (m : option (option Z)) (ts : option (list T)) : args T :=
  mkArgs None false (Some b) false false false false h d s l m false ts None None None false None None None None false false None.

Lemma opt_runs L d l m : exists st, main (F64 L) ex_fuel (ex_world (F64 L)) (opt_args (nofZ (F64 L) 2) None (if d : bool then Some None else None) None (if l : bool then Some None else None) (if m : bool then Some None else None) None) (ex_empty (F64 L)) = Ok st.
Proof.
  destruct (ex_read L) as [f E]. refine (ready_completes _ _ _ _ _ _ _ (binary64 L) E _).
  pose proof (ex_ready L) as [R1 R2 R3 R4 R5 R6 R7 R8 R9 R10 R11 R12]. constructor.
  - auto.
  - discriminate.
  - exact R3.
  - exact R4.
  - intros z H. destruct d; discriminate H.
  - exact R6.
  - intros o b H1 H2. destruct l; [|discriminate H1]. exact (R7 o b H1 H2).
  - intros x [Hx|[H|H]]; try discriminate H. split; [|intros o H; discriminate H]. subst x. apply periodb_ok. vm_cast_no_check (eq_refl true).
  - intros l' x H. discriminate H.
  - exact R10.
  - intros H. discriminate H.
  - exact R12.
Qed.

(** a directory with the configuration [c] *)
Definition ex_dir (c : config (num ERNum)) (f : fs (num ERNum)) : Prop := read_config ERNum f = Ok (c, f).
Lemma dir_of c : in_range c -> exists f, ex_dir c f.
Proof. intros H. destruct (reload ERNum c (mkFs Missing []) H) as (f & _ & _ & E). exists f. exact E. Qed.

Definition ex_c : config (num ERNum) := ex_runs ERNum (Some 0%R) (Some (1 / 50)%R) (Some 100%R) (Some 10%R) false.
Definition hist_c : config (num ERNum) := config_map Some (hist_conf Dxyplane "log").
Definition hist_w : world ERNum := mkWorld ERNum (fun _ => hist_rng) (fun _ => r_draws ERNum hist_rng 0).
Lemma hist_opt : exists f st, main ERNum 1 hist_w (opt_args (beta hist_c) (Some None) None None None None None) f = Ok st.
Proof.
  destruct (dir_of hist_c) as [f R]; [unfold in_range; cbn; lia|]. exists f.
  rewrite (opt_hist ERNum 1 hist_w _ f None) by reflexivity.
  generalize (Z.to_nat (asked 8000%Z None)). intros K. destruct (hist_case K f) as [f' E].
  eexists. apply (late_ok ERNum Mhist (gen_hist ERNum 1 K hist_rng) (fun c => c) 1 (opt_args (beta hist_c) (Some None) None None None None None) f hist_c f (beta hist_c)
    (config_map Some (hist_conf Dnone "x")) f' R); [reflexivity|exact E].
Qed.
Lemma traj_opt : exists f, ex_dir ex_c f /\ steppable ERNum ex_c /\ trel ex_c = Some 0%R /\ tau ex_c = Some 10%R /\ c_dt ex_c = Some (1 / 50)%R /\
  (10 = INR (Z.to_nat 500) * (1 / 50))%R /\ (30 * Z.of_nat (Z.to_nat 500) < 2 ^ 64)%Z /\
  log_name (c_file ex_c) 0 <> ("hist-st-t-" ++ r_fmt ERNum hist_rng (c_t ex_c) ++ ".dat")%string /\ log_name (c_file ex_c) 0 <> "hist_sj.dat"%string.
Proof.
  destruct (dir_of ex_c) as [f R]; [unfold in_range; cbn; lia|]. exists f. split; [exact R|]. split; [apply steppable_case|].
  do 3 (split; [reflexivity|]). split; [rewrite INR_IZR_INZ, Z2Nat.id by lia; lra|]. split; [lia|]. split; discriminate.
Qed.
