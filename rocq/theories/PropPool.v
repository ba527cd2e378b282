(** C96: the averages over binary64 logs. *)
From Coq Require Import String Reals List ZArith Arith.
From Coq Require Import Floats.SpecFloat.
From Verif Require Import Num Monad NumF64 Config Chain Fit Files Average Runs Main SpecVec SpecChain SpecToml SpecRound SpecClose SpecKeep SpecMade SpecPage SpecSession SpecPool
  ProofsMadeSamples ProofsReadySamples ProofsPool ProofsPool2 ProofsPoolSamples.
Import ListNotations.
Local Open Scope R_scope.

(** * C96 *)
(** A column whose values, in row [i] of all the files that have it, are numbers of size at most z/65536: so is the value in row [i] of the average *)
Theorem C96_column : forall L (conf : config f64) (fs : list (line f64 * list (list f64))) z i c,
  (24 * ntou64 (F64 L) (ndiv (F64 L) (c_t conf) (c_dt conf)) <= 2 ^ 63 - 1)%Z -> (0 <= z)%Z -> (Z.of_nat (length fs) < 2 ^ 53)%Z -> (Z.of_nat (length fs) * z < 2 ^ 53)%Z ->
  (exists row, has_row (map snd fs) i row) ->
  (forall row, has_row (map snd fs) i row -> exists x, nth_error row c = Some x /\ small (IZR z / 65536) x) ->
  exists ls vals x, average (F64 L) conf (map (fun p => fst p :: map numbers (snd p)) fs) = Ok ls /\
    nth_error ls i = Some (numbers vals) /\ nth_error vals c = Some x /\ small (IZR z / 65536) x.
Proof. exact pool_column. Qed.
Print Assumptions C96_column.
(** Three files of different lengths: 1, 3 and 2 in the second column of the first row *)
Example C96_column_case : (24 * ntou64 (F64 plain_libm) (ndiv (F64 plain_libm) (c_t defaultF) (c_dt defaultF)) <= 2 ^ 63 - 1)%Z /\ (0 <= 196608)%Z /\
  (Z.of_nat (length three) < 2 ^ 53)%Z /\ (Z.of_nat (length three) * 196608 < 2 ^ 53)%Z /\
  (exists row, has_row (map snd three) 0 row) /\ (forall row, has_row (map snd three) 0 row -> exists x, nth_error row 1 = Some x /\ small (IZR 196608 / 65536) x).
Proof. exact three_column. Qed.
Example C96_column_value : average (F64 plain_libm) defaultF (map (fun p => fst p :: map numbers (snd p)) three) = Ok [numbers [f1; f2]; numbers [f2; S754_nan]; numbers [f3; f1]].
Proof. exact three_average. Qed.

(** One NaN in a column makes the mean NaN *)
Theorem C96_nan : forall L (conf : config f64) (fs : list (line f64 * list (list f64))) i c,
  (24 * ntou64 (F64 L) (ndiv (F64 L) (c_t conf) (c_dt conf)) <= 2 ^ 63 - 1)%Z ->
  (exists row, has_row (map snd fs) i row /\ nth_error row c = Some S754_nan) -> (forall row, has_row (map snd fs) i row -> (c < length row)%nat) ->
  exists ls vals, average (F64 L) conf (map (fun p => fst p :: map numbers (snd p)) fs) = Ok ls /\
    nth_error ls i = Some (numbers vals) /\ nth_error vals c = Some S754_nan.
Proof. exact pool_nan. Qed.
Print Assumptions C96_nan.
Example C96_nan_case : (exists row, has_row (map snd three) 1 row /\ nth_error row 1 = Some S754_nan) /\ (forall row, has_row (map snd three) 1 row -> (1 < length row)%nat).
Proof. exact three_nan. Qed.

(** The default mode, then -a: a line of avg.dat consists of numbers with the bounds of the logs if no run that has this line had lost a spin by then,
    and has NaN as the energy of the chain if one had *)
Theorem C96_files : forall L fuel rg (conf : config f64) f conf' f1 conf2 c3 f2, proper L -> mild_conf conf -> (2 <= ssize conf)%Z -> (forall i, plain_run L (r_draws (F64 L) rg i)) ->
  c_log conf = true -> in_range conf -> (1 <= runs conf < 2 ^ 30)%Z -> tidy f -> (forall nm, stands_for (c_file conf) nm -> contents f nm = None) ->
  run_sim (F64 L) fuel rg conf f = Ok (conf', f1) -> c_file conf2 = c_file conf -> run_average (F64 L) conf2 f1 = Ok (c3, f2) ->
  exists rows ls,
    (forall j, (j < Z.to_nat (runs conf))%nat -> contents f1 (log_name (c_file conf) (Z.to_nat (offset conf) + j)) = Some (map numbers (rows j)) /\ sound_log (rows j)) /\
    contents f2 "avg.dat" = Some ls /\ length ls = fold_right Nat.max 0%nat (map (fun j => length (rows j) - 1)%nat (seq 0 (Z.to_nat (runs conf)))) /\
    forall i l, nth_error ls i = Some l ->
      (mean_row l /\ forall j row, (j < Z.to_nat (runs conf))%nat -> nth_error (rows j) (S i) = Some row -> full_row row) \/
      (nan_mean l /\ exists j row, (j < Z.to_nat (runs conf))%nat /\ nth_error (rows j) (S i) = Some row /\ nan_row row).
Proof. exact pool_files. Qed.
Print Assumptions C96_files.
(** the default configuration in an empty directory *)
Example C96_files_case : let f := (mkFs Missing [] : fs f64) in
  exists rg, proper plain_libm /\ mild_conf defaultF /\ (2 <= ssize defaultF)%Z /\ (forall i, plain_run plain_libm (r_draws (F64 plain_libm) rg i)) /\
  c_log defaultF = true /\ in_range defaultF /\ (1 <= runs defaultF < 2 ^ 30)%Z /\ tidy f /\ (forall nm, stands_for (c_file defaultF) nm -> contents f nm = None) /\
  exists conf' g, run_sim (F64 plain_libm) ex_fuel rg defaultF f = Ok (conf', g) /\ exists r, run_average (F64 plain_libm) defaultF g = Ok r.
Proof. exact default_pool. Qed.
