(** Vocabulary for the averages over sampled states (C67). *)
From Coq Require Import Reals List ZArith Arith.
From Verif Require Import Num Monad NumR Config Chain Fit SpecVec SpecChain SpecMC SpecFit.
Import ListNotations.
Local Open Scope R_scope.

(** The random numbers of one step: site, direction, decision *)
Record move : Type := mkMove { mv_site : nat; mv_1 : R; mv_2 : R; mv_u : R }.
Definition fair (w : move) : Prop := unit_draw (mv_1 w) /\ unit_draw (mv_2 w) /\ unit_draw (mv_u w).
Definition as_draw (w : move) : mcdraw ERNum := draw (mv_site w) (mv_1 w) (mv_2 w) (mv_u w).

(** A Metropolis path of the energy [H] at inverse temperature [b] *)
Definition metropolis_path (n : nat) (H : chain R -> R) (b : R) (w : nat -> move) (st : nat -> chain R) : Prop :=
  forall k, let c := st k in let c' := moved c (mv_site (w k) mod n) (uniform_dir (mv_1 (w k)) (mv_2 (w k))) in
  (accepts b (H c' - H c) (mv_u (w k)) -> st (S k) = c') /\
  (~ accepts b (H c' - H c) (mv_u (w k)) -> st (S k) = c).

(** The mean of [f] over [m] states of a path, [g] steps apart, the first after [g] steps *)
Definition path_mean (m g : nat) (f : chain R -> R) (st : nat -> chain R) : R :=
  Rsum m (fun j => f (st (g * S j)%nat)) / INR m.

(** The chain at inverse temperature [b] *)
Definition at_beta {T} (sc : chain T) (b : T) : chain T := set_vars sc (set_beta (vars sc) b).

(** The energies sampled: of the static Hamiltonian, and of the effective Hamiltonians of the lab and
    the rotating frame *)
Inductive ensemble := Estatic | Elab | Erotating.
Definition ens_energy (k : ensemble) (n s : nat) (w : R) (c : chain R) : R :=
  match k with
  | Estatic => ring_energy n (S_ c) (J_ c) (h_ c)
  | Elab => lab_energy n w (S_ c) (J_ c)
  | Erotating => rot_energy 1 1 n s w (S_ c) (J_ c)
  end.
(** Steps between two samples *)
Definition gap (k : ensemble) : Z := match k with Estatic => 1000 | _ => 10000 end.
Definition ens_sampler (k : ensemble) (N : NumOps) : mcdraw N -> chain (num N) -> res (chain (num N)) :=
  match k with
  | Estatic => metropolis_update N | Elab => metropolis_update_maglab N | Erotating => metropolis_update_rot_magnus N
  end.
(** Effective Hamiltonians need a frequency *)
Definition ens_ok (k : ensemble) (n : nat) (c : config R) : Prop :=
  match k with Estatic => True | Elab => tau c <> 0 | Erotating => tau c <> 0 /\ (3 <= n)%nat end.

(** The ensemble of each search, and the energy density it averages *)
Definition fit_ensemble (s : search) : ensemble := match s with Srot => Erotating | Smaglab => Elab | _ => Estatic end.
Definition fit_density (q : search) (n s : nat) (w : R) (c : chain R) : R :=
  match q with
  | Sbeta => (ring_energy s (S_ c) (J_ c) (h_ c) + w * vz (Vsum s (S_ c))) / INR s
  | Sbeta2 | Sbetah => ring_energy n (S_ c) (J_ c) (h_ c) / INR n
  | Srot => rot_energy 2 3 n s w (S_ c) (J_ c) / INR n
  | Smaglab => (lab_energy n w (S_ c) (J_ c)
      - (2 * Rsum n (fun i => bond_corr (S_ c) (J_ c) i ((i + 1) mod n))
         + 3 * Rsum n (fun i => trip_corr (S_ c) (J_ c) ((i + (n - 1)) mod n) i ((i + 1) mod n))) / (16 * w)) / INR n
  end.

(** The four sets of observables *)
Inductive obs_kind := Omain | Oh | Orot | Omaglab.
Definition obs_of (N : NumOps) (k : obs_kind) :=
  match k with Omain => get_obs N | Oh => get_obsh N | Orot => get_obs_rot N | Omaglab => get_obs_maglab N end.
Definition obs_ensemble (k : obs_kind) : ensemble := match k with Orot => Erotating | Omaglab => Elab | _ => Estatic end.
(** Energy of the chain, per site: the static energy with the drive along x, or w times the z
    magnetisation, or nothing added *)
Definition obs_density (k : obs_kind) (n : nat) (w : R) (c : chain R) : R :=
  (ring_energy n (S_ c) (J_ c) (h_ c)
   + match k with Omain => w * vz (Vsum n (S_ c)) | Oh => 0 | _ => vx (Vsum n (S_ c)) end) / INR n.
Definition mag (n : nat) (c : chain R) (p : vec -> R) : R := p (Vsum n (S_ c)) / INR n.
