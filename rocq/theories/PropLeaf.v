(** C94: what the Langevin mode writes, in binary64. *)
From Coq Require Import Reals List ZArith Arith.
From Coq Require Import Floats.SpecFloat.
From Verif Require Import Num Monad NumF64 Config Chain Langevin Fit Files Runs SpecVec SpecChain SpecToml SpecRound SpecClose SpecKeep SpecMade SpecNoisy SpecPage SpecLeaf
  ProofsMadeSamples ProofsReadySamples ProofsLeaf ProofsLeafSamples.
Import ListNotations.
Local Open Scope R_scope.

(** * C94 *)
(** A line of the log.  Both energies are NaN exactly if a spin of the subsystem is lost; a spin lost outside spoils at most the last mean *)
Theorem C94_line : forall L n s (lc : lchain f64), accurate L -> wf n s (base lc) -> (2 <= n)%nat -> (2 <= s)%nat -> rough_sites (base lc) -> mild_drive (base lc) ->
  plain_dt (c_dt (vars (base lc))) -> small (powerRZ 2 100) (t (base lc)) -> Forall (made (powerRZ 2 (-44))) (spins (base lc)) ->
  exists row, lchain_log (F64 L) lc = Ok [row] /\
    ((none_lost (base lc) /\ full_leaf row) \/ (~ none_lost (base lc) /\ sub_kept s (spins (base lc)) /\ sub_leaf row) \/
     (~ sub_kept s (spins (base lc)) /\ nan_leaf row)).
Proof. exact leaf64. Qed.
Print Assumptions C94_line.

(** A run of the Langevin mode: lines of numbers, lines spoilt in the last mean, lines with NaN, in this order;
    none of the second kind if the subsystem is the whole chain, as it is when the program is called with -l *)
Theorem C94_run : forall L conf g d noise fuel lc out, proper L -> mild_conf conf -> mild_bath conf g -> (2 <= ssize conf)%Z -> noisy_draws L d noise ->
  lchain_new (F64 L) conf g (dr_new d) = Ok lc -> langevin_worker (F64 L) fuel d noise lc = Ok out ->
  sound_leaf out /\ out <> [] /\ (~ none_lost (base lc) -> exists b c, out = b ++ c /\ Forall sub_leaf b /\ Forall nan_leaf c) /\
  (~ sub_kept (Z.to_nat (ssize conf)) (spins (base lc)) -> Forall nan_leaf out) /\
  (ssize conf = hsize conf -> exists a c, out = a ++ c /\ Forall full_leaf a /\ Forall nan_leaf c).
Proof. exact leaf_worker. Qed.
Print Assumptions C94_run.

(** The log files of the Langevin mode: a header and such lines *)
Theorem C94_files : forall L fuel g rg (conf : config f64) f conf' f', proper L -> mild_conf conf -> mild_bath conf g -> (2 <= ssize conf)%Z ->
  (forall i, noisy_draws L (r_draws (F64 L) rg i) (r_noise (F64 L) rg i)) ->
  in_range conf -> (0 <= runs conf)%Z -> run_langevin (F64 L) fuel g rg conf f = Ok (conf', f') ->
  forall i, (i < Z.to_nat (runs conf))%nat -> exists rows,
    contents f' (log_name (c_file conf) (Z.to_nat (offset conf) + i)) = Some (l_header (F64 L) :: map numbers rows) /\ sound_leaf rows /\ rows <> [] /\
    (ssize conf = hsize conf -> exists a c, rows = a ++ c /\ Forall full_leaf a /\ Forall nan_leaf c).
Proof. exact leaf_files. Qed.
Print Assumptions C94_files.
(** the default configuration with damping 1, of whatever directory, with uniform random numbers 1/2 and noise of either sign *)
Example C94_files_case : forall f, exists rg, proper plain_libm /\ mild_conf defaultF /\ mild_bath defaultF (f_ofZ 1) /\ (2 <= ssize defaultF)%Z /\
  (forall i, noisy_draws plain_libm (r_draws (F64 plain_libm) rg i) (r_noise (F64 plain_libm) rg i)) /\
  in_range defaultF /\ (1 <= runs defaultF)%Z /\ exists r, run_langevin (F64 plain_libm) ex_fuel (f_ofZ 1) rg defaultF f = Ok r.
Proof. exact default_leaf. Qed.
(** the same of a chain that is all subsystem *)
Example C94_whole_case : let conf := set_hsize defaultF (ssize defaultF) in mild_conf conf /\ mild_bath conf (f_ofZ 1) /\ (2 <= ssize conf)%Z /\ ssize conf = hsize conf.
Proof. exact whole_leaf. Qed.
