(** Theorems about the construction of chains: properties C10, C11, C12 and C19. *)
From Coq Require Import Reals List ZArith Lra Lia.
From Verif Require Import Num Monad NumR Spin Config Chain Langevin SpecVec SpecChain Samples
  ProofsSpin ProofsChain ProofsEnergy ProofsNew.
Import ListNotations.
Local Open Scope R_scope.

(** * C10: shape of a new chain.  For every number type, so in binary64 too. *)
Theorem C10_new_shape : forall (N : NumOps) (conf : config (num N)) (d : newdraw N),
  (0 <= hsize conf < 2 ^ 31)%Z /\ nfinite N (jvar conf) = true /\ nfinite N (hvar conf) = true /\
  (3 <= length (hfield conf))%nat /\ (3 <= length (hs conf))%nat ->
  exists sc, chain_new N conf d = Ok sc /\
    length (spins sc) = Z.to_nat (hsize conf) /\
    length (j_couple sc) = Z.to_nat (hsize conf) /\
    length (static_h sc) = Z.to_nat (hsize conf) /\
    t sc = nopp N (trel conf) /\ vars sc = conf /\ has_file sc = c_log conf.
Proof. exact chain_new_ok. Qed.
Print Assumptions C10_new_shape.
Example C10_new_shape_case : let conf := config_map Some (ex_conf 4 2 Dxyplane) in
  (0 <= hsize conf < 2 ^ 31)%Z /\ nfinite ERNum (jvar conf) = true /\ nfinite ERNum (hvar conf) = true /\
  (3 <= length (hfield conf))%nat /\ (3 <= length (hs conf))%nat.
Proof. cbn. repeat split; auto; lia. Qed.

Theorem C10_bad_noise_panics : forall (N : NumOps) (conf : config (num N)) (d : newdraw N),
  (0 <= hsize conf < 2 ^ 31)%Z -> nfinite N (jvar conf) = false -> chain_new N conf d = Panic Unwrap.
Proof. intros. apply chain_new_bad_jvar; assumption. Qed.
Print Assumptions C10_bad_noise_panics.

Theorem C10_bad_field_noise_panics : forall (N : NumOps) (conf : config (num N)) (d : newdraw N),
  nfinite N (jvar conf) = true -> nfinite N (hvar conf) = false -> (0 <= hsize conf < 2 ^ 31)%Z ->
  chain_new N conf d = Panic Unwrap.
Proof. exact chain_new_bad_hvar. Qed.
Print Assumptions C10_bad_field_noise_panics.

Theorem C10_short_field_panics : forall (N : NumOps) (conf : config (num N)) (d : newdraw N),
  nfinite N (jvar conf) = true -> nfinite N (hvar conf) = true -> (0 < hsize conf < 2 ^ 31)%Z ->
  (length (hfield conf) < 3)%nat \/ ((length (hs conf) < 3)%nat /\ (0 < ssize conf)%Z) ->
  chain_new N conf d = Panic IndexOOB.
Proof. exact chain_new_short_field. Qed.
Print Assumptions C10_short_field_panics.

(** hs is not looked at when the subsystem is empty *)
Theorem C10_short_hs_empty_subsystem : forall (N : NumOps) (conf : config (num N)) (d : newdraw N),
  (0 <= hsize conf < 2 ^ 31)%Z -> nfinite N (jvar conf) = true -> nfinite N (hvar conf) = true ->
  (3 <= length (hfield conf))%nat -> (ssize conf <= 0)%Z ->
  exists sc, chain_new N conf d = Ok sc.
Proof. exact chain_new_short_hs_ok. Qed.
Print Assumptions C10_short_hs_empty_subsystem.

(** The Langevin chain is built the same way and always has a log file. *)
Theorem C10_langevin_new : forall (N : NumOps) (conf : config (num N)) g (d : newdraw N) sc,
  chain_new N conf d = Ok sc ->
  exists l, lchain_new N conf g d = Ok l /\ spins (base l) = spins sc /\
    j_couple (base l) = j_couple sc /\ static_h (base l) = static_h sc /\ t (base l) = t sc /\
    vars (base l) = vars sc /\ has_file (base l) = true /\ gamma l = g.
Proof. exact lchain_new_shape. Qed.
Print Assumptions C10_langevin_new.

(** * C11: fields and couplings; [zj i], [zh i] are the standard normal draws of site i *)
Theorem C11_fields_and_couplings : forall conf (d : newdraw ERNum) (zj zh : nat -> vec) sc,
  (3 <= length (hfield conf))%nat -> (3 <= length (hs conf))%nat -> (0 <= hsize conf < 2 ^ 31)%Z ->
  (forall i, nd_j d i = fin3 (zj i)) -> (forall i, nd_h d i = fin3 (zh i)) ->
  chain_new ERNum (config_map Some conf) d = Ok sc ->
  forall i, (Z.of_nat i < hsize conf)%Z ->
    nth_error (static_h sc) i = Some (fin3 (vadd (vadd (hvec (hfield conf))
                       (if (Z.of_nat i <? ssize conf)%Z then hvec (hs conf) else vzero))
                 (vscale (hvar conf) (zh i)))) /\
    nth_error (j_couple sc) i = Some (fin3 (vadd (mk3 1 1 (lambda conf)) (vscale (jvar conf) (zj i)))).
Proof. exact new_fields_value. Qed.
Print Assumptions C11_fields_and_couplings.
Example C11_case : exists sc,
  chain_new ERNum (config_map Some (ex_conf 4 2 Dxyplane)) straight_draw = Ok sc /\
  (forall i, nd_j straight_draw i = fin3 vzero) /\ (forall i, nd_h straight_draw i = fin3 vzero).
Proof.
  destruct (straight_new (ex_conf 4 2 Dxyplane)) as (sc & E & _); cbn; try lra; try lia.
  exists sc; auto.
Qed.

(** * C12: initial spins.  [u3 i] is the third uniform of site i.  A spin that is a number has a
    number as left neighbour, both are unit vectors and their overlap is the inverse-transform
    sample (see C12_inverse_transform). *)
Theorem C12_spins_boltzmann : forall conf (d : newdraw ERNum) (u3 : nat -> R) sc,
  (3 <= length (hfield conf))%nat -> (3 <= length (hs conf))%nat -> (0 <= hsize conf < 2 ^ 31)%Z ->
  (forall i, snd (nd_u d i) = Some (u3 i)) ->
  chain_new ERNum (config_map Some conf) d = Ok sc ->
  forall i v, nth_error (spins sc) i = Some (fin3 v) ->
    unit3 v /\
    forall k, i = S k -> exists w, nth_error (spins sc) k = Some (fin3 w) /\ unit3 w /\
      exp (beta conf * dot v w) = exp (beta conf) - u3 i * (exp (beta conf) - exp (- beta conf)).
Proof. exact new_spins_boltzmann. Qed.
Print Assumptions C12_spins_boltzmann.

(** The hypotheses are met for every configuration and every length. *)
Theorem C12_spins_finite_somewhere : forall conf, beta conf <> 0 -> (0 <= hsize conf < 2 ^ 31)%Z ->
  (3 <= length (hfield conf))%nat -> (3 <= length (hs conf))%nat ->
  exists sc, chain_new ERNum (config_map Some conf) straight_draw = Ok sc /\
    spins sc = repeat (fin3 v0) (Z.to_nat (hsize conf)).
Proof. exact straight_new. Qed.
Print Assumptions C12_spins_finite_somewhere.

(** One step from a finite direction: defined for all draws in [0,1] unless the drawn rotation
    direction is parallel to the old direction or the new direction has x = 0. *)
Theorem C12_step_defined : forall b u1 u2 u3 th ph,
  b <> 0 -> 0 <= u2 <= 1 -> 0 <= u3 <= 1 ->
  cross (dirn th ph) (dirn (2 * PI * u1) (acos (1 - 2 * u2))) <> vzero ->
  exists d, unit3 d /\
    exp (b * dot d (dirn th ph)) = exp b - u3 * (exp b - exp (- b)) /\
    (vx d <> 0 -> exists st', new_spin_step ERNum (Some b) (Some (exp b)) (Some (1 / exp b))
        (Some u1, Some u2, Some u3) (Some th, Some ph) = Ok (fin3 d, st')).
Proof. exact new_spin_step_defined. Qed.
Print Assumptions C12_step_defined.

(** Inverse transform: the draw is the survival function of the density b exp(b c)/(e^b - e^-b)
    on [-1,1] at the overlap c. *)
Theorem C12_inverse_transform : forall b, b <> 0 ->
  (forall u c, exp (b * c) = exp b - u * (exp b - exp (- b)) -> u = 1 - boltz_cdf b c) /\
  (forall x y, x < y -> boltz_cdf b x < boltz_cdf b y) /\
  boltz_cdf b (-1) = 0 /\ boltz_cdf b 1 = 1 /\
  (forall x, derivable_pt_lim (boltz_cdf b) x (b / (exp b - exp (- b)) * exp (b * x))).
Proof. exact boltz_transform. Qed.
Print Assumptions C12_inverse_transform.

(** * C19: drive = staticfield applies hs twice *)
Theorem C19_energy : forall conf (d : newdraw ERNum) (zj zh : nat -> vec) sc,
  (3 <= length (hfield conf))%nat -> (3 <= length (hs conf))%nat ->
  (1 <= hsize conf < 2 ^ 31)%Z -> (0 <= ssize conf <= hsize conf)%Z ->
  (forall i, nd_j d i = fin3 (zj i)) -> (forall i, nd_h d i = fin3 (zh i)) ->
  hvar conf = 0 -> drive conf = Dstaticfield ->
  chain_new ERNum (config_map Some conf) d = Ok (fin sc) ->
  let n := Z.to_nat (hsize conf) in
  total_energy2 ERNum (fin sc) = Ok (Some (ring_energy n (S_ sc) (J_ sc)
    (fun i => if (Z.of_nat i <? ssize conf)%Z
              then vadd (hvec (hfield conf)) (vscale 2 (hvec (hs conf)))
              else hvec (hfield conf)) / INR n)) /\
  total_energy ERNum (fin sc) = total_energy2 ERNum (fin sc).
Proof. exact static_twice_energy. Qed.
Print Assumptions C19_energy.

(** The dynamics are those of an undriven chain [c'] with the field hfield + 2 hs. *)
Theorem C19_dynamics : forall conf (d : newdraw ERNum) (zj zh : nat -> vec) sc (c' : chain (num ERNum)),
  (3 <= length (hfield conf))%nat -> length (hs conf) = 3%nat ->
  (0 <= hsize conf < 2 ^ 31)%Z -> (0 <= ssize conf <= hsize conf)%Z ->
  (forall i, nd_j d i = fin3 (zj i)) -> (forall i, nd_h d i = fin3 (zh i)) ->
  hvar conf = 0 -> drive conf = Dstaticfield ->
  chain_new ERNum (config_map Some conf) d = Ok sc ->
  vars c' = set_drive (config_map Some conf) Dnone ->
  j_couple c' = j_couple sc -> spins c' = spins sc -> t c' = t sc ->
  length (static_h c') = Z.to_nat (hsize conf) ->
  (forall i, (i < Z.to_nat (hsize conf))%nat -> nth i (static_h c') nan3 =
     fin3 (if (Z.of_nat i <? ssize conf)%Z
              then vadd (hvec (hfield conf)) (vscale 2 (hvec (hs conf)))
              else hvec (hfield conf))) ->
  forall k,
  match iterM (update ERNum) k sc, iterM (update ERNum) k c' with
  | Ok a, Ok a' => spins a = spins a' /\ t a = t a'
  | Panic p, Panic q => p = q
  | OutOfFuel, OutOfFuel => True
  | _, _ => False
  end.
Proof. exact static_twice_dynamics'. Qed.
Print Assumptions C19_dynamics.
Example C19_case : exists sc,
  chain_new ERNum (config_map Some (ex_conf 4 2 Dstaticfield)) straight_draw = Ok (fin sc) /\
  hvar (ex_conf 4 2 Dstaticfield) = 0 /\ drive (ex_conf 4 2 Dstaticfield) = Dstaticfield.
Proof. exact c19_case. Qed.
