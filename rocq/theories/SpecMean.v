(** Means over uniform draws, as limits of means over grids, and Boltzmann averages (C78, C79). *)
From Coq Require Import Reals List ZArith Arith.
From Verif Require Import Num Monad NumR Config Chain Fit SpecVec SpecChain SpecMC SpecSampling.
Import ListNotations.
Local Open Scope R_scope.

Definition lmean {A} (l : list A) (f : A -> R) : R := fold_right (fun a s => f a + s) 0 l / INR (length l).
(** The midpoints of N equal pieces of [0,1] *)
Definition grid (N : nat) : list R := map (fun k => (INR k + 1 / 2) / INR N) (seq 0 N).
Definition grid2 (N : nat) : list (R * R) := list_prod (grid N) (grid N).
Definition grid3 (N : nat) : list (R * R * R) := list_prod (grid2 N) (grid N).
Definition scons {A} (a : A) (x : nat -> A) : nat -> A := fun i => match i with O => a | S i => x i end.
(** The mean of F over all ways of taking n members of l, independently *)
Fixpoint gmean {A} (z : A) (l : list A) (n : nat) (F : (nat -> A) -> R) : R :=
  match n with O => F (fun _ => z) | S n => lmean l (fun a => gmean z l n (fun x => F (scons a x))) end.

(** The chain [c] with the direction of spin i given by the pair x i of uniforms *)
Definition at_dirs (c : chain R) (n : nat) (x : nat -> R * R) : chain R :=
  set_spins c (map (fun i => uniform_dir (fst (x i)) (snd (x i))) (seq 0 n)).
(** The average of g over all directions of the n spins from the grid, with the Boltzmann weight of H *)
Definition boltzmann_avg (N n : nat) (b : R) (H : chain R -> R) (c : chain R) (g : chain R -> R) : R :=
  gmean (0, 0) (grid2 N) n (fun x => exp (- (b * H (at_dirs c n x))) * g (at_dirs c n x))
  / gmean (0, 0) (grid2 N) n (fun x => exp (- (b * H (at_dirs c n x)))).

(** The value of an observable on the result of a step *)
Definition on (g : chain (num ERNum) -> R) (r : res (chain (num ERNum))) : R := match r with Ok c => g c | _ => 0 end.
(** Expected value of g after k steps of the sampler: mean over the site, the proposed direction and
    the number that decides *)
Fixpoint expected (N n : nat) (f : mcdraw ERNum -> chain (num ERNum) -> res (chain (num ERNum))) (k : nat)
    (g : chain (num ERNum) -> R) (c : chain (num ERNum)) : R :=
  match k with
  | O => g c
  | S k => lmean (seq 0 n) (fun d => lmean (grid2 N) (fun a => lmean (grid N) (fun u =>
             on (expected N n f k g) (f (draw d (fst a) (snd a) u) c))))
  end.

(** [F] is bounded and uniformly continuous in the pairs of uniforms *)
Definition in_cube (x : nat -> R * R) : Prop := forall i, 0 <= fst (x i) <= 1 /\ 0 <= snd (x i) <= 1.
Definition within (d : R) (x y : nat -> R * R) : Prop := forall i, Rabs (fst (x i) - fst (y i)) <= d /\ Rabs (snd (x i) - snd (y i)) <= d.
Definition regular (F : (nat -> R * R) -> R) : Prop :=
  (exists B, forall x, in_cube x -> Rabs (F x) <= B) /\
  (forall eps, 0 < eps -> exists d, 0 < d /\ forall x y, in_cube x -> in_cube y -> within d x y -> Rabs (F x - F y) <= eps).
(** [v] is the Boltzmann average of g over all directions of the spins *)
Definition is_boltzmann_avg (n : nat) (b : R) (H : chain R -> R) (c : chain R) (g : nat -> chain R -> R) (v : R) : Prop :=
  Un_cv (fun N => boltzmann_avg (S N) n b H c (g (S N))) v.
(** Expected value of a function of the m states sampled every q steps *)
Fixpoint esampled (N n : nat) (f : mcdraw ERNum -> chain (num ERNum) -> res (chain (num ERNum))) (q m : nat)
    (F : list (chain (num ERNum)) -> R) (c : chain (num ERNum)) : R :=
  match m with
  | O => F []
  | S m => expected N n f q (fun c' => esampled N n f q m (fun l => F (c' :: l)) c') c
  end.
(** Part of the distribution that is fresh after n steps, for energies between -E and E *)
Definition rate (n : nat) (b E : R) : R := (exp (- (2 * b * E)) / INR n) ^ n.
(** [r] bounds the sum of what is left of one sample in those after it, q steps apart *)
Definition lasting (n q : nat) (b E r : R) : Prop := forall j, Rsum j (fun t => (1 - rate n b E) ^ (q * S t / n)) <= r.
Definition energy_bound (k : ensemble) (n s : nat) (c : chain R) (E : R) : Prop :=
  forall x, in_cube x -> Rabs (ens_energy k n s (omega c) (at_dirs c n x)) <= E.
Definition obs_bound (n : nat) (c : chain R) (g : chain (num ERNum) -> R) (B : R) : Prop :=
  forall x, in_cube x -> Rabs (g (fin (at_dirs c n x))) <= B.
(** 1 where the number is further from v than eta, and 0 elsewhere *)
Definition off (v eta a : R) : R := if Rlt_dec eta (Rabs (a - v)) then 1 else 0.
(** An observable of real chains, read on the chains of the program *)
Definition real_chain (c : chain ER) : chain R := chain_map (fun o => match o with Some x => x | None => 0 end) c.
Definition over (h : chain R -> R) (c : chain (num ERNum)) : R := h (real_chain c).
(** All moves whose site is one of the n and whose numbers are from the grid *)
Definition still : move := mkMove 0 0 0 0.
Definition all_moves (N n : nat) : list move :=
  map (fun p => mkMove (fst p) (fst (fst (snd p))) (snd (fst (snd p))) (snd (snd p))) (list_prod (seq 0 n) (list_prod (grid2 N) (grid N))).
(** The draws of a fit with the given moves *)
Definition with_moves (d : newdraw ERNum) (mv : nat -> move) : draws ERNum := @mkDraws ERNum d (fun i => as_draw (mv i)).
(** The numbers reported with a fit: energy density and magnetisation *)
Definition obs_numbers (r : res (num ERNum * num ERNum * num ERNum * num ERNum * config (num ERNum))) : list (num ERNum) :=
  match r with Ok (e, x, y, z, _) => [e; x; y; z] | _ => [] end.
Definition obs_number (i : nat) (r : res (num ERNum * num ERNum * num ERNum * num ERNum * config (num ERNum))) : R :=
  match nth i (obs_numbers r) None with Some x => x | None => 0 end.
(** ... and the observables they are means of *)
Definition obs_observable (o : obs_kind) (n : nat) (w : R) (i : nat) (c : chain R) : R :=
  match i with 0%nat => obs_density o n w c | 1%nat => mag n c vx | 2%nat => mag n c vy | _ => mag n c vz end.
