(** Transcription of the temperature fits of /repo/src/obs.rs:3-408: energy estimators, bisection
    searches, and observables of the fitted ensemble.

    Conventions as in Chain.v.  Every call of `SpinChain::new` and every sampler step takes its
    random numbers from an oracle ([draws]).  Progress output and `println!` are dropped.  That
    `SpinChain::new(conf, 0)` truncates the log file with number 0 is recorded in Runs.v. *)
From Coq Require Import ZArith List Arith Bool.
From Verif Require Import Num Monad Spin Config Chain.
Import ListNotations.

Section Fit.
Context (N : NumOps).
Notation T := (num N).
Notation "x + y" := (nadd N x y) : num_scope.
Notation "x - y" := (nsub N x y) : num_scope.
Notation "x * y" := (nmul N x y) : num_scope.
Notation "x / y" := (ndiv N x y) : num_scope.
Notation "# z" := (nofZ N z%Z) (at level 0, z at level 0) : num_scope.
Notation "x <! y" := (nltb N x y) (at level 70) : num_scope.
Local Open Scope num_scope.

(** Randomness of one chain: its creation and the k-th sampler step *)
Record draws : Type := mkDraws { dr_new : newdraw N; dr_mc : nat -> mcdraw N }.

(** `for i in 0..samples { for _ in 0..inner { update } ; sample[i] = obs }`; [k] counts the
    sampler steps made so far.  Returns the samples in order. *)
Fixpoint sample_loop {A} (upd : mcdraw N -> chain T -> res (chain T)) (obs : chain T -> res A)
    (inner : nat) (d : nat -> mcdraw N) (samples k : nat) (sc : chain T) : res (list A) :=
  match samples with
  | O => Ok []
  | S n =>
      let* sc := iterMi (fun k sc => upd (d k) sc) k inner sc in
      let* o := obs sc in
      let* rest := sample_loop upd obs inner d n (k + inner)%nat sc in
      Ok (o :: rest)
  end.

(** `e_samples.iter().fold(0.0, |acc, x| acc + x) / (samples as f64)` *)
Definition mean (l : list T) (samples : Z) : T := fold_left (fun acc x => acc + x) l #0 / nofZ N samples.

(** Common body of the five estimators *)
Definition estimate (upd : mcdraw N -> chain T -> res (chain T)) (inner : Z) (obs : chain T -> res T)
    (conf : config T) (b : T) (d : draws) : res T :=
  let* sc := chain_new N conf (dr_new d) in
  let sc := set_vars sc (set_beta (vars sc) b) in
  let* l := sample_loop upd obs (Z.to_nat inner) (dr_mc d) 1000 0 sc in
  Ok (mean l 1000).

(** obs.rs:3-20 *)
Definition estim_e (conf : config T) : T -> draws -> res T :=
  let omega := #2 * npi N / tau conf in
  estimate (metropolis_update N) 1000
    (fun sc => let* e := mc_system_energy N sc in let* mm := m N sc in
               Ok (e + omega * vz mm / nofZ N (ssize (vars sc)))) conf.
(** obs.rs:22-39 *)
Definition estim_e_maglab (conf : config T) : T -> draws -> res T :=
  estimate (metropolis_update_maglab N) 10000 (mc_system_energy_maglab N) conf.
(** obs.rs:41-58 *)
Definition estim_e_rot (conf : config T) : T -> draws -> res T :=
  estimate (metropolis_update_rot_magnus N) 10000 (mc_system_energy_rot N) conf.
(** obs.rs:59-78 *)
Definition estim_e2 (conf : config T) : T -> draws -> res T :=
  estimate (metropolis_update N) 1000 (mc_total_energy N) conf.
(** obs.rs:79-99 *)
Definition estim_eh (conf : config T) : T -> draws -> res T :=
  estimate (metropolis_update N) 1000 (mc_total_energy N) conf.

(** The `while beta_high - beta_low > 0.001` loop, obs.rs:115-131; [fuel] bounds the number of
    executions of the body, [k] numbers the estimator calls. *)
Fixpoint bisect_loop (est : nat -> T -> res T) (e_target : T) (fuel k : nat)
    (beta_low beta_high beta_mid e_mid : T) : res T :=
  if nlit N 1 3 <! beta_high - beta_low then
    match fuel with
    | O => OutOfFuel
    | S fuel =>
        let beta_low := if e_target <! e_mid then beta_mid else beta_low in
        let beta_high := if e_target <! e_mid then beta_high else beta_mid in
        let beta_mid := nlit N 5 1 * (beta_low + beta_high) in
        let* e_mid := est k beta_mid in
        bisect_loop est e_target fuel (S k) beta_low beta_high beta_mid e_mid
    end
  else Ok beta_mid.

(** The common body of the five searches, obs.rs:101-134 *)
Definition bisect (est : nat -> T -> res T) (e_target beta_low : T) (fuel : nat) : res T :=
  let beta_high := #5 in
  let beta_mid := nlit N 5 1 * (beta_low + beta_high) in
  let* e_low := est 0%nat beta_low in
  let* e_mid := est 1%nat beta_mid in
  let* e_high := est 2%nat beta_high in
  bisect_loop est e_target fuel 3 beta_low beta_high beta_mid e_mid.

(** The searches return the temperature and the configuration they leave behind. *)
Definition find_with (est : config T -> T -> draws -> res T) (low : T) (fuel : nat)
    (rng : nat -> draws) (conf : config T) : res (T * config T) :=
  let* b := bisect (fun k b => est conf b (rng k)) (ednsty conf) low fuel in
  Ok (b, conf).

(** obs.rs:101-134 *)
Definition find_betah := find_with estim_eh (nlit N 1 2).
(** obs.rs:136-169 *)
Definition find_beta2 := find_with estim_e2 (nlit N 1 2).
(** obs.rs:171-205 *)
Definition find_beta_maglab := find_with estim_e_maglab (nlit N 1 4).
(** obs.rs:207-241 *)
Definition find_beta_rot := find_with estim_e_rot (nlit N 1 4).
(** obs.rs:243-277: also makes the subsystem the whole chain *)
Definition find_beta (fuel : nat) (rng : nat -> draws) (conf : config T) : res (T * config T) :=
  find_with estim_e (nlit N 1 2) fuel rng (set_ssize conf (hsize conf)).

(** Common body of get_obs*: 8000 samples of (energy, m/ssize), averaged *)
Definition observe (upd : mcdraw N -> chain T -> res (chain T)) (inner : Z)
    (energy : config T -> chain T -> res T) (d : draws) (conf : config T) : res (T * T * T * T * config T) :=
  let conf := set_ssize conf (hsize conf) in
  let* sc := chain_new N conf (dr_new d) in
  let* l := sample_loop upd (fun sc =>
      let* e := energy conf sc in
      let* mm := m N sc in
      let s := nofZ N (ssize (vars sc)) in
      Ok (e, vx mm / s, vy mm / s, vz mm / s)) (Z.to_nat inner) (dr_mc d) (Z.to_nat 8000) 0 sc in
  Ok (mean (map (fun p => fst (fst (fst p))) l) 8000, mean (map (fun p => snd (fst (fst p))) l) 8000,
      mean (map (fun p => snd (fst p)) l) 8000, mean (map snd l) 8000, conf).

(** mc_system_energy + m_x/ssize, obs.rs:299 and 334 *)
Definition energy_plus_mx (conf : config T) (sc : chain T) : res T :=
  let* e := mc_system_energy N sc in let* mm := m N sc in Ok (e + vx mm / nofZ N (ssize (vars sc))).
(** obs.rs:279-310 *)
Definition get_obs_maglab := observe (metropolis_update_maglab N) 10000 energy_plus_mx.
(** obs.rs:313-345 *)
Definition get_obs_rot := observe (metropolis_update_rot_magnus N) 10000 energy_plus_mx.
(** obs.rs:347-376 *)
Definition get_obsh := observe (metropolis_update N) 1000 (fun _ => mc_system_energy N).
(** obs.rs:378-408 *)
Definition get_obs := observe (metropolis_update N) 1000 (fun conf sc =>
  let omega := #2 * npi N / tau conf in
  let* e := mc_system_energy N sc in let* mm := m N sc in
  Ok (e + omega * vz mm / nofZ N (ssize (vars sc)))).

End Fit.
Arguments mkDraws {N}. Arguments dr_new {N}. Arguments dr_mc {N}.
