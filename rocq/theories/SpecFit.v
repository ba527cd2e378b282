(** Specification of the temperature fits. *)
From Coq Require Import Reals ZArith List.
From Verif Require Import Num Monad NumR Config Chain Fit.
Local Open Scope R_scope.

(** The five searches *)
Inductive search := Sbeta | Sbeta2 | Sbetah | Srot | Smaglab.

Definition find_of (N : NumOps) (s : search) : nat -> (nat -> draws N) -> config (num N) -> res (num N * config (num N)) :=
  match s with
  | Sbeta => find_beta N | Sbeta2 => find_beta2 N | Sbetah => find_betah N
  | Srot => find_beta_rot N | Smaglab => find_beta_maglab N
  end.

(** lower end of the initial bracket: low_num * 10^-low_dec; the upper end is 5 *)
Definition low_dec (s : search) : nat := match s with Srot | Smaglab => 4 | _ => 2 end.
Definition low_end (s : search) : R := match s with Srot | Smaglab => 1 / 10000 | _ => 1 / 100 end.

(** The configuration the search works on and leaves behind *)
Definition fit_conf {T} (s : search) (c : config T) : config T :=
  match s with Sbeta => set_ssize c (hsize c) | _ => c end.

(** Energy estimate at inverse temperature [b], for the given randomness *)
Definition energy_at (N : NumOps) (s : search) (c : config (num N)) : num N -> draws N -> res (num N) :=
  match s with
  | Sbeta => estim_e N (fit_conf s c) | Sbeta2 => estim_e2 N c | Sbetah => estim_eh N c
  | Srot => estim_e_rot N c | Smaglab => estim_e_maglab N c
  end.

(** The brackets a search goes through.  Estimates 0 and 2 are made at the ends of the first bracket and
    decide nothing; estimate k >= 1 is made in the middle of its bracket, and tells which half is next. *)
Inductive bracket (est : nat -> num ERNum -> res (num ERNum)) (target : num ERNum) (low : R) : nat -> R -> R -> Prop :=
| first_bracket : bracket est target low 1 low 5
| upper_half k lo hi e : bracket est target low k lo hi -> 1 / 1000 < hi - lo ->
    est k (Some ((lo + hi) / 2)) = Ok e -> er_ltb target e = true -> bracket est target low (Nat.max 3 (S k)) ((lo + hi) / 2) hi
| lower_half k lo hi e : bracket est target low k lo hi -> 1 / 1000 < hi - lo ->
    est k (Some ((lo + hi) / 2)) = Ok e -> er_ltb target e = false -> bracket est target low (Nat.max 3 (S k)) lo ((lo + hi) / 2).
(** The search asks for estimate k at inverse temperature b *)
Definition asked (s : search) (c : config (num ERNum)) (rng : nat -> draws ERNum) (k : nat) (b : R) : Prop :=
  exists lo hi, bracket (fun k b => energy_at ERNum s c b (rng k)) (ednsty c) (low_end s) k lo hi /\ b = (lo + hi) / 2.

(** Configurations for which everything is defined *)
Definition fit_ok (N : NumOps) (s : search) (c : config (num N)) : Prop :=
  let c' := fit_conf s c in
  (0 <= ssize c' <= hsize c')%Z /\ (hsize c' < 2 ^ 31)%Z /\
  (match s with Srot | Smaglab => 2 | _ => 1 end <= hsize c')%Z /\
  nfinite N (jvar c') = true /\ nfinite N (hvar c') = true /\
  (3 <= length (hfield c'))%nat /\ (3 <= length (hs c'))%nat.

(** Iterations that certainly suffice for [solve_beta]: its step is at least 0.01 and moves from 20
    towards a root below 1/(1+e) *)
Definition solve_fuel (e : R) : nat := Nat.max 2002 (2 + Z.to_nat (up (100 / (1 + e)))).
