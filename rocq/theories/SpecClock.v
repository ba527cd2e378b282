(** Specification vocabulary: the times in the logs (C97). *)
From Coq Require Import Bool List ZArith Arith.
From Verif Require Import Num Config.
Import ListNotations.
Local Open Scope nat_scope.

Section Clock.
Context (N : NumOps).
Notation T := (num N).
(** The time after [k] steps *)
Fixpoint clock (start dt : T) (k : nat) : T := match k with O => start | S k => nadd N (clock start dt k) dt end.
(** The kept among the times after 1, 2, ... steps, up to and including the first that is not below [tmax] *)
Definition timetable (start dt tmax : T) (kept : T -> bool) (ts : list T) : Prop := exists m,
  (forall k, k < m -> nltb N (clock start dt k) tmax = true) /\ nltb N (clock start dt m) tmax = false /\
  ts = filter kept (map (clock start dt) (seq 1 m)).
(** What is kept: everything, or with strobing what is a whole number of periods, in steps that are rounded down *)
Definition on_beat (v : config T) (steps : Z) (x : T) : bool := negb (strob v) || (ntou64 N (ndiv N x (c_dt v)) mod steps =? 0)%Z.
Definition kept_plain (v : config T) (x : T) : bool := on_beat v (ntou64 N (ndiv N (tau v) (c_dt v))) x.
(** In Langevin runs the period is rounded to the nearest number of steps *)
Definition kept_langevin (v : config T) (x : T) : bool := on_beat v (ntou64 N (nround N (ndiv N (tau v) (c_dt v)))) x.
(** In response runs the sign of the time does not count *)
Definition kept_response (v : config T) (x : T) : bool := kept_plain v (nabs N x).
(** The first numbers of the rows *)
Definition first_column (rows : list (list T)) (ts : list T) : Prop := map (@hd_error T) rows = map Some ts.
End Clock.
