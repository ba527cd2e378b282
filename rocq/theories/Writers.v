(** Transcription of /repo/src/writers.rs and of the partition of Monte-Carlo points over threads
    in /repo/src/obs.rs.

    A channel is a FIFO queue of messages.  [profile_in_bg] receives in the order in which the
    messages entered the queue; that order is some interleaving of the senders' sequences. *)
From Coq Require Import ZArith List Bool Arith.
From Verif Require Import Num Monad Config Files.
Import ListNotations.

Section Writers.
Context (N : NumOps).
Notation T := (num N).

(** A message "i e sx sy sz", formatted by run_mc_profile / run_dyn_profile and parsed again at
    writers.rs:26-32 *)
Record pmsg : Type := mkMsg { p_i : nat; p_e : T; p_x : T; p_y : T; p_z : T }.
(** The four accumulators, writers.rs:18-21 *)
Record pacc : Type := mkAcc { a_e : list T; a_x : list T; a_y : list T; a_z : list T }.

(** `v[i] += x` *)
Definition add_at (l : list T) (i : nat) (x : T) : res (list T) :=
  let* y := idx l i in set_idx l i (nadd N y x).
(** body of the receiving loop, writers.rs:34-37 *)
Definition profile_recv (m : pmsg) (a : pacc) : res pacc :=
  let* e := add_at (a_e a) (p_i m) (p_e m) in
  let* x := add_at (a_x a) (p_i m) (p_x m) in
  let* y := add_at (a_y a) (p_i m) (p_y m) in
  let* z := add_at (a_z a) (p_i m) (p_z m) in
  Ok (mkAcc e x y z).

(** profile_in_bg, writers.rs:11-48.  [msgs] are the messages that enter the queue before the
    sending side goes quiet.  If the loop wants more, `recv` blocks for ever while a sender is
    still alive ([OutOfFuel]: the thread never finishes) and fails otherwise (unwrap).
    [vec![0.0; size]] running out of memory is not modelled. *)
Definition profile_in_bg (size pts : nat) (alive : bool) (msgs : list pmsg) : res (list (line T)) :=
  let want := (size * pts)%nat in
  if (2 ^ 64 <=? Z.of_nat size * Z.of_nat pts)%Z then Panic Overflow else
  let zero := repeat (nofZ N 0) size in
  let* a := foldM profile_recv (firstn want msgs) (mkAcc zero zero zero zero) in
  if length msgs <? want then (if alive then OutOfFuel else Panic Unwrap) else
  let n := nofZ N (Z.of_nat pts) in
  mapM (fun i =>
    let* e := idx (a_e a) i in let* x := idx (a_x a) i in
    let* y := idx (a_y a) i in let* z := idx (a_z a) i in
    Ok (numbers [nofZ N (Z.of_nat i); ndiv N e n; ndiv N x n; ndiv N y n; ndiv N z n])) (range 0 size).

(** Samples per thread in run_mc, run_mc_profile, run_mc_magnus (obs.rs:1545-1564, 1637-1656,
    1734-1753).  `ThreadPool::new(0)` panics; the u32 arithmetic of the last thread is evaluated
    from left to right with overflow checks. *)
Definition u32 (z : Z) : Z := (z mod 2 ^ 32)%Z.
Definition ck32 (z : Z) : res Z := if (0 <=? z)%Z && (z <? 2 ^ 32)%Z then Ok z else Panic Overflow.
Definition mc_threads (threads points : Z) : Z := if (points <=? threads)%Z then points else threads.
Definition mc_split (threads points : Z) : res (list Z) :=
  let th := mc_threads threads points in
  if (th =? 0)%Z then Panic Explicit else
  let t_points := u32 (points / th) in
  mapM (fun i =>
    if (Z.of_nat i =? th - 1)%Z then
      let* a := ck32 (t_points + u32 points) in
      let* b := ck32 (u32 th * t_points) in
      ck32 (a - b)
    else Ok t_points) (range 0 (Z.to_nat th)).

End Writers.
Arguments mkMsg {N}. Arguments p_i {N}. Arguments p_e {N}. Arguments p_x {N}. Arguments p_y {N}. Arguments p_z {N}.
Arguments mkAcc {N}. Arguments a_e {N}. Arguments a_x {N}. Arguments a_y {N}. Arguments a_z {N}.

(** * write_in_bg, writers.rs:3-9, with the threads that use it (run_tau, run_mc, run_mc_magnus,
    gen_hist_dynamics).  Each worker sends its lines and then finishes its progress bar; the main
    thread returns when all progress bars are finished, and the process ends with it, whatever the
    writing thread (which is not joined) is doing. *)
Record wstate (L : Type) : Type := mkW {
  w_workers : list (list L);   (* what each worker has still to send *)
  w_queue : list L;            (* sent, not yet received *)
  w_file : list L;             (* lines written since the file was opened *)
  w_done : bool                (* the process has ended *)
}.
Arguments mkW {L}. Arguments w_workers {L}. Arguments w_queue {L}. Arguments w_file {L}. Arguments w_done {L}.

Inductive wstep {L} : wstate L -> wstate L -> Prop :=
| w_send : forall ws1 x w ws2 q f,                 (* txc.send(line) *)
    wstep (mkW (ws1 ++ (x :: w) :: ws2) q f false) (mkW (ws1 ++ w :: ws2) (q ++ [x]) f false)
| w_write : forall ws x q f,                       (* for received in rx { writeln! } *)
    wstep (mkW ws (x :: q) f false) (mkW ws q (f ++ [x]) false)
| w_exit : forall ws q f, Forall (fun w => w = []) ws ->   (* m.join().unwrap() returns; main returns *)
    wstep (mkW ws q f false) (mkW ws q f true).

Inductive wsteps {L} : wstate L -> wstate L -> Prop :=
| w_refl : forall s, wsteps s s
| w_next : forall a b c, wstep a b -> wsteps b c -> wsteps a c.
