(** Theorems about averages over sampled states: property C67. *)
From Coq Require Import Reals List ZArith Arith Lra Lia.
From Verif Require Import Num Monad NumR Config Chain Fit SpecVec SpecChain SpecMC SpecFit SpecSampling Samples ProofsNew ProofsSampling.
Import ListNotations.
Local Open Scope R_scope.

(** The energy estimate of a search at inverse temperature b is the mean of the energy density over
    1000 states of a Metropolis path at inverse temperature b, starting at the chain just made; the
    states are 1000 steps apart (10000 for the effective Hamiltonians), and the first of them is
    taken after as many steps. *)
Theorem C67_estimate : forall q n s (conf : config R) b d sc0 mv,
  chain_new ERNum (config_map Some (fit_conf q conf)) (dr_new d) = Ok (fin sc0) -> vars sc0 = fit_conf q conf ->
  wf n s sc0 -> (2 <= n)%nat -> (1 <= s)%nat -> ens_ok (fit_ensemble q) n conf -> (q = Sbeta -> tau conf <> 0) ->
  (forall i, fair (mv i)) -> (forall i, dr_mc d i = as_draw (mv i)) ->
  exists st, st 0%nat = at_beta sc0 b /\ metropolis_path n (ens_energy (fit_ensemble q) n s (2 * PI / tau conf)) b mv st /\
   energy_at ERNum q (config_map Some conf) (Some b) d =
     Ok (Some (path_mean 1000 (Z.to_nat (gap (fit_ensemble q))) (fit_density q n s (2 * PI / tau conf)) st)).
Proof. exact fit_value. Qed.
Print Assumptions C67_estimate.
Example C67_estimate_case : forall q, exists sc0 s,
  chain_new ERNum (config_map Some (fit_conf q (ex_conf 4 2 Dxyplane))) straight_draw = Ok (fin sc0) /\
  vars sc0 = fit_conf q (ex_conf 4 2 Dxyplane) /\ wf 4 s sc0 /\ (1 <= s)%nat /\
  ens_ok (fit_ensemble q) 4 (ex_conf 4 2 Dxyplane) /\ tau (ex_conf 4 2 Dxyplane) <> 0 /\ fair (mkMove 7 (1/2) (1/4) 0).
Proof.
  intros q. assert (T : tau (ex_conf 4 2 Dxyplane) <> 0) by (cbn; lra).
  assert (F : fair (mkMove 7 (1/2) (1/4) 0)) by (unfold fair, unit_draw; cbn; lra).
  assert (O : ens_ok (fit_ensemble q) 4 (ex_conf 4 2 Dxyplane)) by (destruct q; cbn [fit_ensemble obs_ensemble ens_ok]; (exact I || exact T || (split; [exact T|lia]))).
  destruct (straight_fin 4 Dxyplane ltac:(lia)) as (c4 & A4 & B4 & W4). destruct (straight_fin 2 Dxyplane ltac:(lia)) as (c2 & A2 & B2 & W2).
  destruct q; [exists c4, 4%nat|exists c2, 2%nat|exists c2, 2%nat|exists c2, 2%nat|exists c2, 2%nat]; (split; [assumption|]);
    (split; [assumption|]); (split; [assumption|]); (split; [lia|auto]).
Qed.

(** The observables reported with a fit: means over 8000 states of the whole chain.  The ensemble of
    the rotating and the lab frame is that of the effective Hamiltonian, the energy averaged is the
    static one plus the field along x. *)
Theorem C67_observables : forall q n (conf : config R) d sc0 mv,
  chain_new ERNum (config_map Some (set_ssize conf (hsize conf))) (dr_new d) = Ok (fin sc0) -> vars sc0 = set_ssize conf (hsize conf) ->
  wf n n sc0 -> (2 <= n)%nat -> ens_ok (obs_ensemble q) n conf -> (q = Omain -> tau conf <> 0) ->
  (forall i, fair (mv i)) -> (forall i, dr_mc d i = as_draw (mv i)) ->
  exists st, st 0%nat = sc0 /\ metropolis_path n (ens_energy (obs_ensemble q) n n (2 * PI / tau conf)) (beta conf) mv st /\
   let avg g := Some (path_mean (Z.to_nat 8000) (Z.to_nat (gap (obs_ensemble q))) g st) in
   obs_of ERNum q d (config_map Some conf) =
   Ok (avg (obs_density q n (2 * PI / tau conf)), avg (fun c => mag n c vx), avg (fun c => mag n c vy), avg (fun c => mag n c vz),
       set_ssize (config_map Some conf) (hsize conf)).
Proof. exact obs_value. Qed.
Print Assumptions C67_observables.
Example C67_observables_case : forall q, exists sc0, let conf := ex_conf 4 2 Dxyplane in
  chain_new ERNum (config_map Some (set_ssize conf (hsize conf))) straight_draw = Ok (fin sc0) /\ vars sc0 = set_ssize conf (hsize conf) /\
  wf 4 4 sc0 /\ ens_ok (obs_ensemble q) 4 conf /\ tau conf <> 0.
Proof.
  intros q. destruct (straight_fin 4 Dxyplane) as (sc & A & B & C); [lia|]. exists sc. cbv zeta.
  assert (T : tau (ex_conf 4 2 Dxyplane) <> 0) by (cbn; lra).
  split; [exact A|]. split; [exact B|]. split; [exact C|]. split; [|exact T]. destruct q; cbn [fit_ensemble obs_ensemble ens_ok]; (exact I || exact T || (split; [exact T|lia])).
Qed.
