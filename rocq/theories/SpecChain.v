(** Specification vocabulary for chains: well-formed chains, site-indexed views, the
    Hamiltonian.  Uses only the record types of the model. *)
From Coq Require Import Reals List ZArith Arith.
From Verif Require Import Num NumR Config Chain SpecVec.
Import ListNotations.
Local Open Scope R_scope.

(** A chain of [n] sites whose subsystem is the first [s] sites.  The sizes are i32 in the
    configuration. *)
Record wf {T} (n s : nat) (sc : chain T) : Prop := mkWf {
  wf_hsize : hsize (vars sc) = Z.of_nat n;
  wf_ssize : ssize (vars sc) = Z.of_nat s;
  wf_i32   : (Z.of_nat n < 2 ^ 31)%Z;
  wf_sub   : (s <= n)%nat;
  wf_spins : length (spins sc) = n;
  wf_js    : length (j_couple sc) = n;
  wf_hs    : length (static_h sc) = n
}.

(** The drive can be evaluated: `hs` has three components if it is used as drive *)
Definition hs_ok {T} (c : config T) : Prop := drive c = Dstaticfield -> (3 <= length (hs c))%nat.
(** ... and tau is not zero if it is divided by *)
Definition drive_ok (c : config R) : Prop :=
  match drive c with
  | Dstaticfield => (3 <= length (hs c))%nat
  | Dnone => True
  | _ => tau c <> 0
  end.

(** A configuration from which a chain can be built: a size that is not negative, finite spreads
    of the couplings and fields, three components in both field vectors *)
Definition conf_ok (N : NumOps) (conf : config (num N)) : Prop :=
  (0 <= hsize conf < 2 ^ 31)%Z /\ nfinite N (jvar conf) = true /\ nfinite N (hvar conf) = true /\
  (3 <= length (hfield conf))%nat /\ (3 <= length (hs conf))%nat.

(** Real data as data of the numbers-with-NaN *)
Definition fin (sc : chain R) : chain ER := chain_map Some sc.

(** Site-indexed views *)
Definition at_ (l : list vec) (i : nat) : vec := nth i l vzero.
Definition S_ (sc : chain R) (i : nat) : vec := at_ (spins sc) i.
Definition J_ (sc : chain R) (i : nat) : vec := at_ (j_couple sc) i.
Definition h_ (sc : chain R) (i : nat) : vec := at_ (static_h sc) i.

Definition unit_spins (sc : chain R) : Prop := Forall unit3 (spins sc).

(** sum_{i<n} f i *)
Fixpoint Rsum (n : nat) (f : nat -> R) : R :=
  match n with O => 0 | S k => Rsum k f + f k end.
Fixpoint Vsum (n : nat) (f : nat -> vec) : vec :=
  match n with O => vzero | S k => vadd (Vsum k f) (f k) end.

(** The drive at time [x] *)
Definition drive_field (c : config R) (x : R) : vec :=
  let w := 2 * PI / tau c in
  match drive c with
  | Dxyplane => mk3 (cos (w * x)) (sin (w * x)) 0
  | Dxyelliptic => mk3 (cos (w * x)) (c_e c * sin (w * x)) 0
  | Duniaxial => mk3 (cos (w * x)) 0 0
  | Dstaticfield => mk3 (nth 0 (hs c) 0) (nth 1 (hs c) 0) (nth 2 (hs c) 0)
  | Dnone => vzero
  end.

(** Energy of the bond i -> k *)
Definition bond (S J : nat -> vec) (i k : nat) : R := - dot (S i) (vhad (J i) (S k)).

(** H = - sum S_i J_i S_{i+1} + sum B_i . S_i on the ring of n sites *)
Definition ring_energy (n : nat) (S J B : nat -> vec) : R :=
  Rsum n (fun i => bond S J i ((i + 1) mod n) + dot (B i) (S i)).

(** Field on site i: static field, plus the drive on the first [s] sites *)
Definition B_ (sc : chain R) (s : nat) (x : R) (i : nat) : vec :=
  if i <? s then vadd (h_ sc i) (drive_field (vars sc) x) else h_ sc i.

(** A three-component list as a vector *)
Definition hvec (l : list R) : vec := mk3 (nth 0 l 0) (nth 1 l 0) (nth 2 l 0).

(** Distribution function on [-1,1] with density proportional to exp (b c) *)
Definition boltz_cdf (b x : R) : R := (exp (b * x) - exp (- b)) / (exp b - exp (- b)).

(** Energy of the first n sites as an open chain *)
Definition open_energy (n : nat) (S J B : nat -> vec) : R :=
  Rsum (n - 1) (fun i => bond S J i (i + 1)) + Rsum n (fun i => dot (B i) (S i)).

(** Largest length of the drive *)
Definition drive_amp (c : config R) : R :=
  match drive c with
  | Dxyplane | Duniaxial => 1
  | Dxyelliptic => Rmax 1 (Rabs (c_e c))
  | Dstaticfield => norm (hvec (hs c))
  | Dnone => 0
  end.

(** No time-dependent drive *)
Definition undriven (c : config R) : Prop := drive c = Dnone \/ drive c = Dstaticfield.

(** The same chain with another time step *)
Definition with_dt (sc : chain R) (d : R) : chain R := set_vars sc (set_dt (vars sc) d).
Definition reversed (sc : chain R) : chain R := with_dt sc (- c_dt (vars sc)).

(** Precession field of site i on the ring of n sites at the present time *)
Definition local_field (n s : nat) (sc : chain R) (i : nat) : vec :=
  vsub (vadd (vhad (J_ sc ((i + (n - 1)) mod n)) (S_ sc ((i + (n - 1)) mod n)))
             (vhad (J_ sc i) (S_ sc ((i + 1) mod n)))) (B_ sc s (t sc) i).

(** The chain of n sites without its last site *)
Definition without_last {T} (n s : nat) (sc : chain T) : chain T :=
  mkChain (firstn (n - 1) (j_couple sc)) (firstn (n - 1) (static_h sc)) (firstn (n - 1) (spins sc))
    (t sc) (set_ssize (set_hsize (vars sc) (Z.of_nat (n - 1))) (Z.of_nat (Nat.min s (n - 1)))) (has_file sc).
