(** Theorems about config.toml: properties C53, C54 and C55. *)
From Coq Require Import String SpecFloat Reals ZArith List Lra Lia Arith.
From Flocq Require Import Core.
From Verif Require Import Num Monad NumR Spin Config Files Toml Runs Main SpecChain SpecRuns SpecToml SpecMain
  Samples ProofsRunSamples ProofsTomlSamples ProofsToml ProofsProgram.
Import ListNotations.
Local Close Scope R_scope.
Local Open Scope nat_scope.

(** * C53 *)
(** A configuration that is saved is read back unchanged. *)
Theorem C53_round_trip : forall N (conf : config (num N)) d, in_range conf ->
  exists d', save_config N conf d = Ok d' /\ f_dat d' = f_dat d /\ read_config N d' = Ok (conf, d').
Proof. exact reload. Qed.
Print Assumptions C53_round_trip.
Example C53_round_trip_case : in_range (ex_runs ERNum (Some 1%R) (Some (1 / 50)%R) (Some 100%R) (Some 10%R) true).
Proof. exact (proj1 (proj2 (ex_runs_usable_ER _ _ _ _ _))). Qed.

(** The two 64-bit counters cannot be saved from 2^63 on. *)
Theorem C53_large_refused : forall N (conf : config (num N)) d,
  (2 ^ 63 <= threads conf \/ 2 ^ 63 <= mc_points conf)%Z -> save_config N conf d = Panic Unwrap.
Proof. exact save_refused. Qed.
Print Assumptions C53_large_refused.
Example C53_large_refused_case : forall N, (2 ^ 63 <= threads (ex_threads N (2 ^ 64 - 1)))%Z.
Proof. intros N. cbn. lia. Qed.

(** Reading a table: it has to be free of duplicate keys, and every known key has to have an
    allowed value; then each field is the value of its key, or the default if the key is missing.
    Keys that are not in [keys] have no influence, integers may stand for reals. *)
Theorem C53_reads : forall N l d, f_conf d = Table l -> forall (conf : config (num N)) d',
  read_config N d = Ok (conf, d') <->
  (NoDup (map fst l) /\ (forall k v kd, In (k, v) l -> In (k, kd) keys -> allowed kd v) /\ denotes N l conf /\ d' = d).
Proof. exact read_table. Qed.
Print Assumptions C53_reads.
(** Every such table denotes a configuration, *)
Theorem C53_accepts : forall N l (d : fs (num N)), f_conf d = Table l ->
  NoDup (map fst l) -> (forall k v kd, In (k, v) l -> In (k, kd) keys -> allowed kd v) ->
  exists conf, read_config N d = Ok (conf, d).
Proof. exact read_good. Qed.
Print Assumptions C53_accepts.
(** and every other table makes the program stop. *)
Theorem C53_rejects : forall N l (d : fs (num N)), f_conf d = Table l ->
  (~ NoDup (map fst l) \/ exists k v kd, In (k, v) l /\ In (k, kd) keys /\ ~ allowed kd v) ->
  read_config N d = Panic Explicit.
Proof. exact read_bad. Qed.
Print Assumptions C53_rejects.
(** A table with an integer for a real key, a negative integer, and the README's `drivetype`, which
    does not set the drive: *)
Example C53_reads_case : forall N (dat : list (string * list (line (num N)))),
  exists conf, read_config N (mkFs (Table ex_table) dat) = Ok (conf, mkFs (Table ex_table) dat) /\
    c_t conf = nofZ N 100 /\ runs conf = 4%Z /\ method conf = (-1)%Z /\ drive conf = Dxyplane /\ hsize conf = 512%Z /\ tau conf = nofZ N 10.
Proof. exact ex_table_reads. Qed.
(** Two rejected ones: a repeated key, and 2^31 for the number of runs *)
Example C53_rejects_case :
  ~ NoDup ["runs"; "t"; "runs"]%string /\ In ("runs"%string, Ki32) keys /\ ~ @allowed R Ki32 (Vint (2 ^ 31)).
Proof.
  split; [intros H; inversion H as [|? ? A B]; apply A; cbn; tauto|]. split; [cbn; tauto|]. cbn. lia.
Qed.

(** * C54 *)
(** Without a readable file the defaults are written and returned, no data file is touched, and the
    next start reads the same configuration without writing. *)
Theorem C54_created : forall N (d : fs (num N)), f_conf d = Missing ->
  exists conf d', read_config N d = Ok (conf, d') /\ denotes N [] conf /\
    f_dat d' = f_dat d /\ (exists l, f_conf d' = Table l) /\ read_config N d' = Ok (conf, d').
Proof. exact read_missing. Qed.
Print Assumptions C54_created.
Example C54_created_case : forall N, f_conf (@mkFs (num N) Missing [("log0.dat"%string, [])]) = Missing.
Proof. reflexivity. Qed.
(** If there is a file, nothing is written. *)
Theorem C54_unchanged : forall N (d : fs (num N)) conf d', f_conf d <> Missing -> read_config N d = Ok (conf, d') -> d' = d.
Proof. exact read_writes_nothing. Qed.
Print Assumptions C54_unchanged.
Example C54_unchanged_case : forall N (dat : list (string * list (line (num N)))), exists conf d',
  f_conf (mkFs (Table ex_table) dat) <> Missing /\ read_config N (mkFs (Table ex_table) dat) = Ok (conf, d').
Proof. intros N dat. destruct (ex_table_reads N dat) as (c & E & _). exists c, (mkFs (Table ex_table) dat). split; [discriminate|exact E]. Qed.

(** * C55 *)
(** The file has 23 lines.  If the program stops after writing [n] of them, the next start reads the
    file without complaint and takes defaults for the other keys: up to 17 lines the offset is 0,
    and from 16 lines on the logs have the old names. *)
Theorem C55_reset : forall N (conf : config (num N)) l d n, in_range conf -> to_toml N conf = Ok l ->
  save_config N conf d = Ok (put_conf (Table l) d) /\ length l = 23 /\
  exists conf', read_config N (put_conf (Table (firstn n l)) d) = Ok (conf', put_conf (Table (firstn n l)) d) /\
    denotes N (firstn n l) conf' /\
    (n <= 17 -> offset conf' = 0%Z) /\ (n <= 15 -> c_file conf' = "log"%string) /\ (16 <= n -> c_file conf' = c_file conf) /\ (23 <= n -> conf' = conf).
Proof. exact cut_reset. Qed.
Print Assumptions C55_reset.
(** After 16 or 17 lines a plain simulation replaces log 0: what it holds afterwards does not depend
    on the data files there were before. *)
Theorem C55_overwritten : forall N (conf : config (num N)) l n fuel w a d1 d2 st1 st2,
  in_range conf -> to_toml N conf = Ok l -> 16 <= n <= 17 -> (1 <= runs conf)%Z -> selected a = [] ->
  main N fuel w a (put_conf (Table (firstn n l)) d1) = Ok st1 -> main N fuel w a (put_conf (Table (firstn n l)) d2) = Ok st2 ->
  exists ls, contents (s_fs N st1) (log_name (c_file conf) 0) = Some ls /\ contents (s_fs N st2) (log_name (c_file conf) 0) = Some ls.
Proof. exact cut_overwrites. Qed.
Print Assumptions C55_overwritten.
(** And, in exact arithmetic, the simulation does complete. *)
Theorem C55_runs : forall (conf : config (num ERNum)) l d n fuel w a b r dt tmax, to_toml ERNum conf = Ok l ->
  usable ERNum conf /\ c_log conf = true /\ strob conf = false /\ trel conf = Some r /\ c_dt conf = Some dt /\ c_t conf = Some tmax /\ (0 < dt)%R ->
  16 <= n <= 17 -> (1 <= runs conf)%Z -> selected a = [] -> a_beta a = Some b ->
  let m := Z.to_nat (Zceil ((tmax + r) / dt)) in m <= fuel ->
  exists st, main ERNum fuel w a (put_conf (Table (firstn n l)) d) = Ok st /\
    exists ls, contents (s_fs ERNum st) (log_name (c_file conf) 0) = Some ls /\ length ls = S m.
Proof. exact cut_runs. Qed.
Print Assumptions C55_runs.
(** The example has offset 5; `-b 1` on the command line *)
Example C55_runs_case : let conf := ex_runs ERNum (Some 1%R) (Some (1 / 50)%R) (Some 100%R) (Some 10%R) false in
  (exists l, to_toml ERNum conf = Ok l) /\ usable ERNum conf /\ (1 <= runs conf)%Z /\ offset conf = 5%Z /\
  selected (ex_args ERNum (Some (Some 1%R))) = [] /\ a_beta (ex_args ERNum (Some (Some 1%R))) = Some (Some 1%R).
Proof.
  split; [apply to_toml_ok; exact (proj1 (proj2 (ex_runs_usable_ER _ _ _ _ _)))|]. split; [exact (ex_runs_usable_ER _ _ _ _ _)|].
  repeat split. discriminate.
Qed.
