(** Specification vocabulary for the Monte Carlo samplers: single-spin moves, the Metropolis
    rule for an energy function, the energies of the effective Hamiltonians. *)
From Coq Require Import Reals List ZArith Arith.
From Verif Require Import Num Monad NumR Config Chain Langevin SpecVec SpecChain.
Import ListNotations.
Local Open Scope R_scope.

(** The chain with spin i replaced by v *)
Definition moved (sc : chain R) (i : nat) (v : vec) : chain R :=
  set_spins sc (map (fun k => if k =? i then v else S_ sc k) (seq 0 (length (spins sc)))).

(** The direction with height 1 - 2 u2 and azimuth 2 pi u1 *)
Definition uniform_dir (u1 u2 : R) : vec :=
  let z := 1 - 2 * u2 in
  let r := sqrt (1 - z * z) in
  mk3 (r * cos (2 * PI * u1)) (r * sin (2 * PI * u1)) z.

(** A draw of rand's uniform distribution on [0,1) *)
Definition unit_draw (u : R) : Prop := 0 <= u < 1.

(** The Metropolis rule at inverse temperature b for an energy change d *)
Definition accepts (b d u : R) : Prop := d < 0 \/ u < exp (- (b * d)).

(** Acceptance probability *)
Definition accept_prob (b d : R) : R := Rmin 1 (exp (- (b * d))).

(** Real draws *)
Definition draw (d : nat) (u1 u2 u : R) : mcdraw ERNum := @mkDraw ERNum d (Some u1) (Some u2) (Some u).

(** With the draws (d, u1, u2, u), the step [f] from [sc] is the Metropolis step for the energy [E]:
    the proposal is to turn spin (d mod n) into the drawn direction. *)
Definition metropolis_step (n : nat) (E : chain R -> R)
    (f : mcdraw ERNum -> chain (num ERNum) -> res (chain (num ERNum)))
    (sc : chain R) (d : nat) (u1 u2 u : R) : Prop :=
  let sc' := moved sc (d mod n) (uniform_dir u1 u2) in
  (accepts (beta (vars sc)) (E sc' - E sc) u ->
     f (draw d u1 u2 u) (fin sc) = Ok (fin sc')) /\
  (~ accepts (beta (vars sc)) (E sc' - E sc) u ->
     f (draw d u1 u2 u) (fin sc) = Ok (fin sc)).

(** [f] is a Metropolis sampler of E for all draws *)
Definition metropolis_for (n : nat) (E : chain R -> R)
    (f : mcdraw ERNum -> chain (num ERNum) -> res (chain (num ERNum))) (sc : chain R) : Prop :=
  forall d u1 u2 u, unit_draw u1 -> unit_draw u2 -> unit_draw u ->
  metropolis_step n E f sc d u1 u2 u.

(** The number reported, when there is one *)
Definition val (r : res (num ERNum)) : R :=
  match r with Ok (Some x) => x | _ => 0 end.

(** Angular frequency of the drive *)
Definition omega (sc : chain R) : R := 2 * PI / tau (vars sc).

(** Lab-frame first-order energy: H0 without fields, minus sum S^z / (2 omega) *)
Definition lab_energy (n : nat) (w : R) (S J : nat -> vec) : R :=
  Rsum n (fun i => bond S J i ((i + 1) mod n) - vz (S i) / (2 * w)).

(** Anisotropy of a bond, and the two kinds of corrections of the 1/omega expansion:
    of the bond (i,k), and of the three sites l,i,r *)
Definition aniso (J : nat -> vec) (i : nat) : R := vy (J i) - vx (J i).
Definition planar (a b : vec) : R := vx a * vx b + vy a * vy b.
Definition bond_corr (S J : nat -> vec) (i k : nat) : R :=
  aniso J i * aniso J i * (planar (S i) (S i) * vz (S k) + planar (S k) (S k) * vz (S i)).
Definition trip_corr (S J : nat -> vec) (l i r : nat) : R :=
  aniso J l * aniso J i * (2 * planar (S l) (S r) * vz (S i)).

(** Energy of the bond i-k averaged over rotations about the z axis *)
Definition rot_bond_energy (S J : nat -> vec) (i k : nat) : R :=
  - ((vx (J i) + vy (J i)) / 2 * planar (S i) (S k) + vz (J i) * (vz (S i) * vz (S k))).

(** Rotating-frame energy on the ring; each bond correction counted [cb] times and each
    three-site correction [ct] times (1 and 1 for the first-order Hamiltonian) *)
Definition rot_energy (cb ct : R) (n s : nat) (w : R) (S J : nat -> vec) : R :=
  Rsum n (fun i => rot_bond_energy S J i ((i + 1) mod n) - w * vz (S i))
  + Rsum s (fun i => vx (S i))
  - (cb * Rsum n (fun i => bond_corr S J i ((i + 1) mod n))
     + ct * Rsum n (fun i => trip_corr S J ((i + (n - 1)) mod n) i ((i + 1) mod n))) / (16 * w).

(** Field-free energy of the ring *)
Definition exchange_energy (n : nat) (S J : nat -> vec) : R :=
  Rsum n (fun i => bond S J i ((i + 1) mod n)).

(** First-order Magnus term of the bond i-k *)
Definition magnus_bond (S J : nat -> vec) (i k : nat) : R :=
  (vz (J i) - vx (J i)) * (vx (S i) * vz (S k) + vz (S i) * vx (S k)).

(** The five samplers of SpinChain *)
Inductive sampler : Type := Plain | Maglab | RotMagnus | Magnus | MagFull.
Definition sample (N : NumOps) (k : sampler) : mcdraw N -> chain (num N) -> res (chain (num N)) :=
  match k with
  | Plain => metropolis_update N
  | Maglab => metropolis_update_maglab N
  | RotMagnus => metropolis_update_rot_magnus N
  | Magnus => metropolis_update_magnus N
  | MagFull => metropolis_update_mag_full N
  end.
(** A sequence of updates, each with its own draws *)
Definition samples (N : NumOps) (l : list (sampler * mcdraw N)) (sc : chain (num N)) : res (chain (num N)) :=
  foldM (fun kd c => sample N (fst kd) (snd kd) c) l sc.

(** The same chain with other spins *)
Definition with_spins (sc : chain R) (sp : list vec) : chain R := set_spins sc sp.

(** [f] samples some energy function of the spins: there is an E for which it is a Metropolis
    sampler at every configuration of unit spins *)
Definition samples_some_energy (n : nat)
    (f : mcdraw ERNum -> chain (num ERNum) -> res (chain (num ERNum))) (sc : chain R) : Prop :=
  exists E : chain R -> R, forall sp, length sp = n -> Forall unit3 sp -> metropolis_for n E f (with_spins sc sp).

(** The energy whose changes metropolis_update_magnus uses away from the ends of the subsystem:
    exchange plus omega times the first-order terms of the bonds inside the subsystem *)
Definition magnus_energy (n s : nat) (w : R) (S J : nat -> vec) : R :=
  exchange_energy n S J - w * Rsum (s - 1) (fun i => magnus_bond S J i (i + 1)).

(** Reported energies of the whole chain *)
Definition Emaglab (n : nat) (c : chain R) : R := INR n * val (mc_system_energy_maglab ERNum (fin c)).
Definition Erot (n : nat) (c : chain R) : R := INR n * val (mc_system_energy_rot ERNum (fin c)).
Definition isotropic_xy (n : nat) (sc : chain R) : Prop := forall i, (i < n)%nat -> vx (J_ sc i) = vy (J_ sc i).

(** The Langevin chain with real contents, and its plain sampler seen as a step of the chain *)
Definition lfin (sc : chain R) (g : R) : lchain (num ERNum) := mkL (fin sc) (Some g).
Definition lplain (g : R) : mcdraw ERNum -> chain (num ERNum) -> res (chain (num ERNum)) :=
  fun d c => bind (lmetropolis_update ERNum d (mkL c (Some g))) (fun lc => Ok (base lc)).
Definition lmagnus (g : R) : mcdraw ERNum -> chain (num ERNum) -> res (chain (num ERNum)) :=
  fun d c => bind (lmetropolis_update_magnus ERNum d (mkL c (Some g))) (fun lc => Ok (base lc)).

(** [f] is the step that proposes to turn the drawn spin into the drawn direction and decides
    by the Metropolis rule for the number D *)
Definition uses_change (n : nat) (D : chain R -> nat -> vec -> R)
    (f : mcdraw ERNum -> chain (num ERNum) -> res (chain (num ERNum))) (sc : chain R) : Prop :=
  forall d u1 u2 u, unit_draw u1 -> unit_draw u2 -> unit_draw u ->
  let i := (d mod n)%nat in let v := uniform_dir u1 u2 in
  (accepts (beta (vars sc)) (D sc i v) u -> f (draw d u1 u2 u) (fin sc) = Ok (fin (moved sc i v))) /\
  (~ accepts (beta (vars sc)) (D sc i v) u -> f (draw d u1 u2 u) (fin sc) = Ok (fin sc)).
