(** Vocabulary for the properties of the background writers (C43, C44, C46). *)
From Coq Require Import Reals ZArith List Arith.
From Verif Require Import Num Monad NumR Spin Config Chain SpecVec SpecChain Files Writers.
Import ListNotations.

(** [l] is obtained by merging the sequences [ws], keeping the order inside each of them: what a
    channel delivers when every member of [ws] is sent by its own thread. *)
Inductive interleaving {A} : list (list A) -> list A -> Prop :=
| il_nil : forall ws, Forall (fun w => w = []) ws -> interleaving ws []
| il_cons : forall ws1 x w ws2 l,
    interleaving (ws1 ++ w :: ws2) l -> interleaving (ws1 ++ (x :: w) :: ws2) (x :: l).

Definition zsum (l : list Z) : Z := fold_right Z.add 0%Z l.
Definition rsum (l : list R) : R := fold_right Rplus 0%R l.

(** Energy and magnetisation of one site *)
Record site := mkSite { s_e : R; s_x : R; s_y : R; s_z : R }.
(** A sample of the whole chain, site by site, and the messages a worker sends for it *)
Definition sample := nat -> site.
Definition message (i : nat) (s : site) : pmsg ERNum :=
  mkMsg (N := ERNum) i (Some (s_e s)) (Some (s_x s)) (Some (s_y s)) (Some (s_z s)).
Definition messages (size : nat) (s : sample) : list (pmsg ERNum) := map (fun i => message i (s i)) (seq 0 size).

Definition avg (l : list R) : R := (rsum l / INR (length l))%R.
(** The line of the profile for site [i]: the averages over the samples *)
Definition profile_line (ss : list sample) (i : nat) : line ER :=
  numbers (map Some [INR i; avg (map (fun s => s_e (s i)) ss); avg (map (fun s => s_x (s i)) ss);
                     avg (map (fun s => s_y (s i)) ss); avg (map (fun s => s_z (s i)) ss)]).

(** The profile of a chain: half of the energy of the two bonds of a site, and its spin *)
Definition site_of (n : nat) (sc : chain R) : sample := fun i =>
  mkSite ((bond (S_ sc) (J_ sc) ((i + (n - 1)) mod n) i + bond (S_ sc) (J_ sc) i ((i + 1) mod n)) / 2)
         (vx (S_ sc i)) (vy (S_ sc i)) (vz (S_ sc i)).
