(** Transcription of `average` and `two_point_average`, /repo/src/obs.rs:1326-1510.
    The files found by the glob are an argument; they are given in the order in which the glob
    yields them. *)
From Coq Require Import ZArith List Bool Arith.
From Verif Require Import Num Monad Config Files.
Import ListNotations.

Section Average.
Context (N : NumOps).
Notation T := (num N).

(** `line.split(' ').flat_map(str::parse::<f64>).collect()`, obs.rs:1469-1472: words that are not
    numbers disappear *)
Definition parse_line (l : line T) : list T :=
  flat_map (fun k => match k with Tnum x => [x] | Tword _ => [] end) l.

(** `a.iter().zip(b.iter()).map(|(x, y)| x + y).collect()`: as long as the shorter one *)
Fixpoint zip_add (a b : list T) : list T :=
  match a, b with
  | x :: a, y :: b => nadd N x y :: zip_add a b
  | _, _ => []
  end.

(** (avg_nums, avg_data) *)
Definition store : Type := list T * list (list T).

(** Line number [i] with data [v], obs.rs:1474-1487 (= 1404-1417) *)
Definition add_line (i : nat) (v : list T) (s : store) : res store :=
  let '(nums, data) := s in
  if i =? length nums then Ok (nums ++ [nofZ N 1], data ++ [v]) else
  let* n := idx nums i in
  let* nums := set_idx nums i (nadd N n (nofZ N 1)) in
  let* old := idx data i in
  let* data := set_idx data i (zip_add old v) in
  Ok (nums, data).

(** `for (i, line) in lines.enumerate()` *)
Fixpoint add_lines (i : nat) (ls : list (list T)) (s : store) : res store :=
  match ls with
  | [] => Ok s
  | v :: r => let* s := add_line i v s in add_lines (S i) r s
  end.

(** One file of `average`, obs.rs:1453-1488: the first line is skipped *)
Definition avg_file (f : list (line T)) (s : store) : res store :=
  add_lines 0 (map parse_line (skipn 1 f)) s.

(** The last loop, obs.rs:1497-1508: mean of each column *)
Definition means (s : store) : res (list (line T)) :=
  let '(nums, data) := s in
  mapM (fun i =>
    let* v := idx data i in
    let* n := idx nums i in
    Ok (numbers (map (fun x => ndiv N x n) v))) (range 0 (length data)).

(** average, obs.rs:1436-1510: the lines of avg.dat.  The capacity (t/dt) as usize is only a hint;
    `Vec::with_capacity` panics when (t/dt) as usize times the element size (24 bytes) exceeds
    isize::MAX; running out of memory below that is not modelled. *)
Definition average (conf : config T) (files : list (list (line T))) : res (list (line T)) :=
  if (2 ^ 63 - 1 <? 24 * ntou64 N (ndiv N (c_t conf) (c_dt conf)))%Z then Panic Overflow else
  let* s := foldM avg_file files ([], []) in
  means s.

(** The data of the t = 0 line of a file: the last line after the first with |t| < 1e-5; an empty
    vector if there is none; a line without numbers panics (obs.rs:1366-1377) *)
Definition t_zero (ls : list (list T)) : res (list T) :=
  foldM (fun v z => let* x := idx v 0 in Ok (if nltb N (nabs N x) (nlit N 1 5) then v else z)) ls [].

(** obs.rs:1393-1401: column 0 unchanged, column i multiplied by t_zero_data[i] *)
Definition times_zero (z v : list T) : res (list T) :=
  mapM (fun i => let* x := idx v i in
                 if i =? 0 then Ok x else let* y := idx z i in Ok (nmul N x y)) (range 0 (length v)).

(** One file of two_point_average, obs.rs:1355-1419.  (The lines are processed one at a time, so a
    panic at a later line comes after earlier lines were added; the store is lost anyway.) *)
Definition two_point_file (f : list (line T)) (s : store) : res store :=
  let ls := map parse_line (skipn 1 f) in
  let* z := t_zero ls in
  let* vs := mapM (times_zero z) ls in
  add_lines 0 vs s.

(** two_point_average, obs.rs:1326-1434: the lines of two-point.dat *)
Definition two_point_average (files : list (list (line T))) : res (list (line T)) :=
  let* s := foldM two_point_file files ([], []) in
  means s.
End Average.
