(** Vocabulary for the run modes (C45, C49-C52, C58). *)
From Coq Require Import String SpecFloat Reals ZArith List Arith.
From Verif Require Import Num Monad Config Chain Files SpecChain SpecToml.
Import ListNotations.
Local Open Scope nat_scope.

(** The data files of [f'] are those of [f], except for the files listed, which have the lines given *)
Definition wrote {T} (f f' : fs T) (l : list (string * list (line T))) : Prop :=
  (forall n ls, In (n, ls) l -> contents f' n = Some ls) /\
  (forall n, ~ In n (map fst l) -> contents f' n = contents f n).

(** The log files of the runs [o], [o+1], ... *)
Definition logs {T} (file : string) (o : nat) (lss : list (list (line T))) : list (string * list (line T)) :=
  combine (map (log_name file) (seq o (length lss))) lss.

(** Actions of the threads on the directory *)
Inductive action (T : Type) : Type := Create (n : string) | Append (n : string) (l : line T).
Arguments Create {T}. Arguments Append {T}.
Definition exec {T} (a : action T) (f : fs T) : fs T :=
  match a with Create n => create n f | Append n l => append n [l] f end.
Definition exec_all {T} (l : list (action T)) (f : fs T) : fs T := fold_left (fun f a => exec a f) l f.
(** What the thread of one run does: create its log, then write its lines one by one *)
Definition run_actions {T} (n : string) (ls : list (line T)) : list (action T) := Create n :: map (Append n) ls.

(** A trajectory: the states after 0, 1, 2, ... time steps *)
Definition dynamics (N : NumOps) (sc : chain (num N)) (st : nat -> chain (num N)) : Prop :=
  st 0 = sc /\ forall k, update N (st k) = Ok (st (S k)).

(** A configuration with which the saving modes can run: a chain of at least two sites, a
    subsystem, a thread, and room for the new log numbers in 32 bits *)
Definition usable (N : NumOps) (conf : config (num N)) : Prop :=
  conf_ok N conf /\ in_range conf /\ (2 <= hsize conf)%Z /\ (1 <= ssize conf <= hsize conf)%Z /\ (1 <= threads conf)%Z /\
  (0 <= runs conf)%Z /\ (offset conf + runs conf < 2 ^ 32)%Z.

(** Cycle [z] of the drive ends close to the time after some step: within a fifth of a step *)
Definition hit (x dt tau : R) (z : Z) : Prop :=
  exists k, 1 <= k /\ (Rabs (x + INR k * dt - IZR z * tau) < dt / 5)%R.

(** A time loop that starts at [x] and advances by [dt] until [tmax] ends within [fuel] steps *)
Definition ends (N : NumOps) (x dt tmax : num N) (fuel : nat) : Prop :=
  exists m, m <= fuel /\ nltb N (Nat.iter m (fun y => nadd N y dt) x) tmax = false.
(** The sizes the Monte-Carlo modes need: a subsystem, a thread, and a number of points that the
    division over the threads can handle *)
Definition samplable (N : NumOps) (conf : config (num N)) : Prop :=
  conf_ok N conf /\ (1 <= ssize conf <= hsize conf)%Z /\ (1 <= threads conf)%Z /\ (1 <= mc_points conf < 2 ^ 31)%Z.
(** The sizes the other modes need *)
Definition steppable (N : NumOps) (conf : config (num N)) : Prop :=
  conf_ok N conf /\ (2 <= hsize conf)%Z /\ (1 <= ssize conf <= hsize conf)%Z /\ (1 <= threads conf)%Z.
