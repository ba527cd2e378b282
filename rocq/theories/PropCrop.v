(** C100: the averages of Langevin logs in binary64. *)
From Coq Require Import String Reals List ZArith Arith.
From Coq Require Import Floats.SpecFloat.
From Verif Require Import Num Monad NumF64 Config Chain Langevin Fit Files Average Runs Main SpecVec SpecChain SpecToml SpecRound SpecClose SpecKeep SpecMade SpecNoisy SpecPage SpecLeaf SpecSession SpecClock SpecCrop
  ProofsMadeSamples ProofsReadySamples ProofsCrop ProofsCropSamples.
Import ListNotations.
Local Open Scope nat_scope.

(** * C100 *)
(** -a after Langevin runs writes a line for each time of the timetable and one for the time before the first step: lines of bounded numbers (the mean over the
    chain included if the subsystem is the whole chain), then, if a chain has lost a spin of its subsystem, lines with NaN as both energies *)
Theorem C100_averages : forall L fuel g rg (conf : config f64) f conf' f1 conf2 c3 f2, proper L -> mild_conf conf -> mild_bath conf g -> (2 <= ssize conf)%Z ->
  (forall i, noisy_draws L (r_draws (F64 L) rg i) (r_noise (F64 L) rg i)) ->
  in_range conf -> (1 <= runs conf < 2 ^ 30)%Z -> tidy f -> (forall nm, stands_for (c_file conf) nm -> contents f nm = None) ->
  run_langevin (F64 L) fuel g rg conf f = Ok (conf', f1) -> c_file conf2 = c_file conf -> run_average (F64 L) conf2 f1 = Ok (c3, f2) ->
  exists ts a b, timetable (F64 L) (nopp (F64 L) (trel (conf : config (num (F64 L))))) (c_dt conf) (c_t conf) (kept_langevin (F64 L) conf) ts /\
    contents f2 "avg.dat" = Some (a ++ b) /\ Forall (leaf_mean (ssize conf =? hsize conf)%Z) a /\ Forall nan_leaf_mean b /\ length (a ++ b) = S (length ts).
Proof. exact crop_files. Qed.
Print Assumptions C100_averages.
(** the default configuration with damping 1 in an empty directory *)
Example C100_averages_case : let f := (mkFs Missing [] : fs f64) in
  exists rg, proper plain_libm /\ mild_conf defaultF /\ mild_bath defaultF (f_ofZ 1) /\ (2 <= ssize defaultF)%Z /\
  (forall i, noisy_draws plain_libm (r_draws (F64 plain_libm) rg i) (r_noise (F64 plain_libm) rg i)) /\
  in_range defaultF /\ (1 <= runs defaultF < 2 ^ 30)%Z /\ tidy f /\ (forall nm, stands_for (c_file defaultF) nm -> contents f nm = None) /\
  exists conf' g, run_langevin (F64 plain_libm) ex_fuel (f_ofZ 1) rg defaultF f = Ok (conf', g) /\ exists r, run_average (F64 plain_libm) defaultF g = Ok r.
Proof. exact default_crop. Qed.
