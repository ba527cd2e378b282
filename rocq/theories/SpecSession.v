(** Vocabulary for sessions: several invocations of the program in one directory, then an average
    over their logs (C89). *)
From Coq Require Import String Reals ZArith List Arith.
From Verif Require Import Num Monad NumR Config Files Main SpecChain SpecMain SpecWriters.
Import ListNotations.
Local Open Scope nat_scope.

(** [k] completed invocations with command lines of the kind [P], one after the other *)
Inductive session (N : NumOps) (P : args (num N) -> Prop) : nat -> fs (num N) -> fs (num N) -> Prop :=
| s_none f : session N P 0 f f
| s_more fuel w a f st k g : P a -> main N fuel w a f = Ok st -> session N P k (s_fs N st) g -> session N P (S k) f g.

(** A directory has one file for a name *)
Definition tidy {T} (f : fs T) : Prop := NoDup (map fst (f_dat f)).
(** The names that the pattern <file>*.dat stands for *)
Definition stands_for (file nm : string) : Prop := exists mid, nm = (file ++ mid ++ ".dat")%string.

(** The mean, if all are numbers *)
Fixpoint all_numbers (l : list ER) : option (list R) :=
  match l with
  | [] => Some []
  | x :: l => match x, all_numbers l with Some a, Some r => Some (a :: r) | _, _ => None end
  end.
Definition emean (l : list ER) : ER := option_map avg (all_numbers l).
(** The means of the first [w] columns *)
Definition mean_line (w : nat) (rows : list (list ER)) : list ER :=
  map (fun j => emean (map (fun r => nth j r None) rows)) (seq 0 w).
(** The product, if both are numbers *)
Definition eprod (x y : ER) : ER := match x, y with Some a, Some b => Some (a * b)%R | _, _ => None end.
(** x(t) x(0), leaving the time *)
Definition against (start row : list ER) : list ER :=
  match row with [] => [] | x :: _ => x :: map (fun j => eprod (nth j row None) (nth j start None)) (seq 1 (length row - 1)) end.

(** A configuration for default runs with logging but without strobing; the times *)
Definition timed (r dt tmax : R) (conf : config (num ERNum)) : Prop :=
  conf_ok ERNum conf /\ (2 <= hsize conf)%Z /\ (1 <= ssize conf <= hsize conf)%Z /\ (0 <= runs conf)%Z /\ c_log conf = true /\ strob conf = false /\
  trel conf = Some r /\ c_dt conf = Some dt /\ c_t conf = Some tmax.
(** ... for Langevin runs *)
Definition ltimed (r dt tmax : R) (conf : config (num ERNum)) : Prop :=
  conf_ok ERNum conf /\ (2 <= ssize conf <= hsize conf)%Z /\ (0 <= runs conf)%Z /\ strob conf = false /\
  trel conf = Some r /\ c_dt conf = Some dt /\ c_t conf = Some tmax.
(** The command line has -l, with a damping that is not negative or none, and -b with a positive inverse temperature *)
Definition langevin_args (a : args (num ERNum)) : Prop := selected a = [Mlangevin] /\
  (exists b, a_beta a = Some (Some b) /\ (0 < b)%R) /\ (a_langevin a = Some None \/ exists g, a_langevin a = Some (Some (Some g)) /\ (0 <= g)%R).
(** Rows for the times -r, -r + dt, ..., with [w] further columns *)
Definition steps_table (r dt : R) (w : nat) (rows : nat -> list ER) : Prop := forall k, exists l, length l = w /\ rows k = Some (- r + INR k * dt)%R :: l.
