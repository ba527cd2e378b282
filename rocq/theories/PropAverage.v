(** Theorems about the averages over log files: properties C47 and C48. *)
From Coq Require Import String Reals ZArith List Lra Lia Permutation.
From Verif Require Import Num Monad NumR Config Files Average Main Samples SpecWriters SpecAverage ProofsAverage ProofsDir.
Import ListNotations.

(** * C47 *)
(** Whatever the files contain, `average` does not panic, unless t/dt asks for an impossible
    capacity. *)
Theorem C47_total : forall N conf files,
  (24 * ntou64 N (ndiv N (c_t conf) (c_dt conf)) <= 2 ^ 63 - 1)%Z ->
  exists ls, average N conf files = Ok ls.
Proof. intros N conf files H. eexists. exact (average_total N conf files H). Qed.
Print Assumptions C47_total.
Theorem C47_capacity : forall N conf files,
  (2 ^ 63 - 1 < 24 * ntou64 N (ndiv N (c_t conf) (c_dt conf)))%Z -> average N conf files = Panic Overflow.
Proof. intros N conf files H. apply average_capacity. unfold fits. lia. Qed.
Print Assumptions C47_capacity.

(** The lines written are, row by row and column by column, the means over the files that have such
    a row; the first line of every file, whatever it is, does not count. *)
Theorem C47_means : forall conf (fs : list (line ER * table)),
  (24 * ntou64 ERNum (ndiv ERNum (c_t conf) (c_dt conf)) <= 2 ^ 63 - 1)%Z ->
  average ERNum conf (map (fun p => as_file (fst p) (snd p)) fs) = Ok (map as_line (mean_table (map snd fs))).
Proof. exact average_means. Qed.
Print Assumptions C47_means.
(** Two files of different lengths *)
Example C47_means_case : mean_table [[[0; 1]; [1; 3]]; [[0; 5]]]%R = [[(0 + (0 + 0)) / 2; (1 + (5 + 0)) / 2]; [(1 + 0) / 1; (3 + 0) / 1]]%R.
Proof. reflexivity. Qed.
Example C47_conf_case : (24 * ntou64 ERNum (ndiv ERNum (c_t (config_map Some (ex_conf 4 2 Dnone))) (c_dt (config_map Some (ex_conf 4 2 Dnone)))) <= 2 ^ 63 - 1)%Z.
Proof. exact ex_conf_fits. Qed.

(** The order in which the files are found does not matter, for any contents. *)
Theorem C47_order : forall conf files files',
  Permutation files files' -> average ERNum conf files = average ERNum conf files'.
Proof. exact average_order. Qed.
Print Assumptions C47_order.
Theorem C47_directory : forall conf (f f' : fs ER),
  Permutation (f_dat f) (f_dat f') ->
  match run_average ERNum conf f, run_average ERNum conf f' with
  | Ok (_, g), Ok (_, g') => contents g "avg.dat" = contents g' "avg.dat" /\
      (forall n, n <> "avg.dat"%string -> contents g n = contents f n /\ contents g' n = contents f' n)
  | Panic p, Panic p' => p = p'
  | OutOfFuel, OutOfFuel => True
  | _, _ => False
  end.
Proof. exact run_average_order. Qed.
Print Assumptions C47_directory.

(** * C48 *)
(** Files whose lines after the first are rows, all non-empty and not longer than the row at time
    zero: each column is multiplied by its value at time zero, then averaged. *)
Theorem C48_means : forall (fs : list (line ER * table * list R)),
  Forall (fun p => zero_row (snd (fst p)) (snd p) /\
                   Forall (fun r => r <> [] /\ (length r <= length (snd p))%nat) (snd (fst p))) fs ->
  two_point_average ERNum (map (fun p => as_file (fst (fst p)) (snd (fst p))) fs)
  = Ok (map as_line (mean_table (map (fun p => map (correlate (snd p)) (snd (fst p))) fs))).
Proof. exact two_point_means. Qed.
Print Assumptions C48_means.
Example C48_means_case : forall h : line ER,
  let p := (h, [[0; 2]; [1; 3]]%R, [0; 2]%R) in
  (zero_row (snd (fst p)) (snd p) /\ Forall (fun r => r <> [] /\ (length r <= length (snd p))%nat) (snd (fst p))) /\
  map (correlate (snd p)) (snd (fst p)) = [[0; 2 * 2]; [1; 3 * 2]]%R.
Proof.
  intros h. cbn [fst snd]. split; [split|reflexivity].
  - exists [], [[1; 3]%R]. repeat split.
    + exists 0%R, [2%R]. split; [reflexivity|]. rewrite Rabs_R0. lra.
    + repeat constructor. intros (t & rest & [= <- <-] & H). rewrite Rabs_R1 in H. lra.
  - repeat constructor; discriminate.
Qed.

(** Without such a row (and with at least one row of two columns) the mode panics, ... *)
Theorem C48_no_zero_row : forall h rows r (files : list (list (line ER))),
  In (as_file h rows) files ->
  Forall (fun r => r <> []) rows -> ~ Exists is_zero_row rows -> In r rows -> (2 <= length r)%nat ->
  exists p, two_point_average ERNum files = Panic p.
Proof. exact two_point_nozero. Qed.
Print Assumptions C48_no_zero_row.
(** ... as it does on any file with an empty line after the first, such as the logs of --ext. *)
Theorem C48_blank_line : forall h before after (files : list (list (line ER))),
  In (h :: before ++ [] :: after) files -> exists p, two_point_average ERNum files = Panic p.
Proof. exact two_point_blank. Qed.
Print Assumptions C48_blank_line.
Example C48_no_zero_row_case : ~ Exists is_zero_row [[2 / 100; 1]]%R.
Proof. intros H. inversion H; subst; [|inversion H1]. destruct H1 as (t & rest & [= <- <-] & H'). rewrite Rabs_right in H'; lra. Qed.
