(** The concrete cases shown beside the theorems about config.toml and the program. *)
From Coq Require Import String ZArith List.
From Verif Require Import Num Monad Config Files Toml Main SpecToml.
Import ListNotations.
Local Open Scope string_scope.

Definition ex_table {T} : list (string * tval T) :=
  [("t", Vint 100); ("drivetype", Vstr "none"); ("runs", Vint 4); ("method", Vint (-1))].
Lemma ex_table_reads N (dat : list (string * list (line (num N)))) :
  exists conf, read_config N (mkFs (Table ex_table) dat) = Ok (conf, mkFs (Table ex_table) dat) /\
    c_t conf = nofZ N 100 /\ runs conf = 4%Z /\ method conf = (-1)%Z /\ drive conf = Dxyplane /\ hsize conf = 512%Z /\ tau conf = nofZ N 10.
Proof. eexists. split; [reflexivity|]. repeat split. Qed.

(** The default configuration with another number of threads *)
Definition ex_threads (N : NumOps) (z : Z) : config (num N) :=
  let c := config_default N in
  mkConfig (hsize c) (ssize c) (c_t c) (c_dt c) (runs c) (trel c) z (tau c) (lambda c)
    (hfield c) (hs c) (jvar c) (hvar c) (method c) (ednsty c) (c_file c) (strob c) (offset c)
    (beta c) (mc_points c) (c_e c) (drive c) (c_log c).

(** A command line without modes *)
Definition ex_args (N : NumOps) (b : option (num N)) : args (num N) :=
  mkArgs None false b false false false false None None None None None false None None None None false None None None None false false None.
