(** Theorems about the distribution sampled by the Monte Carlo steps: properties C78, C79, C80.  Means
    over the draws are means over grids of uniform numbers (SpecMean), in the limit of fine grids. *)
From Coq Require Import Reals List ZArith Arith Lra Lia.
From Verif Require Import Num Monad NumR Config Chain Fit SpecVec SpecChain SpecMC SpecFit SpecSampling SpecMean Samples ProofsEnergy
  ProofsNew ProofsSampling ProofsMean3 ProofsMean5 ProofsMean6 ProofsMean7 ProofsMean8.
Import ListNotations.
Local Open Scope R_scope.

(** The Boltzmann average of an observable exists, and it is also the average of the observable
    expected after any number of steps of the sampler: the samplers leave the Boltzmann distribution
    of their energy unchanged. *)
Theorem C78_stationary : forall k n s c (h : chain R -> R), wf n s c -> (2 <= n)%nat -> ens_ok k n (vars c) -> 0 <= beta (vars c) ->
  regular (fun x => h (at_dirs c n x)) ->
  exists v, is_boltzmann_avg n (beta (vars c)) (ens_energy k n s (omega c)) c (fun _ => h) v /\
    forall j, is_boltzmann_avg n (beta (vars c)) (ens_energy k n s (omega c)) c
                (fun N x => expected N n (ens_sampler k ERNum) j (over h) (fin x)) v.
Proof. exact h_stationary. Qed.
Print Assumptions C78_stationary.
Example C78_case : forall k, let c := ex_chain 4 Dxyplane in
  wf 4 4 c /\ ens_ok k 4 (vars c) /\ 0 < beta (vars c) /\ unit_spins c /\ regular (fun x => vz (S_ (at_dirs c 4 x) 2)) /\
  vz (S_ (at_dirs c 4 (fun _ => (0, 0))) 2) <> vz (S_ (at_dirs c 4 (fun _ => (0, 1))) 2).
Proof.
  intros k c. pose proof (ex_wf 4 Dxyplane ltac:(lia)) as A. pose proof (ex_unit 4 Dxyplane) as U. assert (T : tau (vars c) <> 0) by (cbn; lra).
  split; [exact A|]. split; [destruct k; cbn [ens_ok]; (exact I || exact T || (split; [exact T|lia]))|]. split; [cbn; lra|]. split; [exact U|].
  split; [apply (proj2 (proj2 (proj2 (program_regular c 4))) vz); auto|]. unfold S_, at_, at_dirs, uniform_dir. cbn. lra.
Qed.

(** The observables of the program are covered: the energies sampled, the energy densities averaged by
    the searches and reported with the fits, the magnetisation, the components of each spin *)
Theorem C78_observables : forall c n,
  (forall k s w, regular (fun x => ens_energy k n s w (at_dirs c n x))) /\
  (forall q s w, regular (fun x => fit_density q n s w (at_dirs c n x))) /\
  (forall o w, regular (fun x => obs_density o n w (at_dirs c n x))) /\
  (forall p, p = vx \/ p = vy \/ p = vz -> regular (fun x => mag n (at_dirs c n x) p) /\ forall i, regular (fun x => p (S_ (at_dirs c n x) i))).
Proof. exact program_regular. Qed.
Print Assumptions C78_observables.
Example C78_observables_case : mag 4 (at_dirs (ex_chain 4 Dxyplane) 4 (fun _ => (0, 0))) vz = 1 /\
  mag 4 (at_dirs (ex_chain 4 Dxyplane) 4 (fun _ => (0, 1))) vz = -1.
Proof. unfold mag, S_, at_, at_dirs, uniform_dir. cbn. split; field. Qed.

(** Uncoupled spins in a field h along z: the average of every z component is 1/(b h) - coth (b h) *)
Theorem C78_free : forall n s c h j, (j < n)%nat -> (forall i, (i < n)%nat -> J_ c i = vzero) -> (forall i, (i < n)%nat -> h_ c i = mk3 0 0 h) ->
  let k := beta (vars c) * h in k <> 0 ->
  is_boltzmann_avg n (beta (vars c)) (ens_energy Estatic n s (omega c)) c (fun _ x => vz (S_ x j)) (/ k - (exp k + exp (- k)) / (exp k - exp (- k))).
Proof. exact (fun n s c h j Hj HJ Hh Hk => free_avg n s (omega c) c (beta (vars c)) h j Hj HJ Hh Hk). Qed.
Print Assumptions C78_free.
Example C78_free_case : wf 4 4 free_chain /\ (forall i, (i < 4)%nat -> J_ free_chain i = vzero) /\ (forall i, (i < 4)%nat -> h_ free_chain i = mk3 0 0 2) /\
  beta (vars free_chain) * 2 <> 0.
Proof.
  split; [constructor; cbn; auto; lia|]. split; [|split]; [| |cbn; lra]; intros i Hi; do 4 (destruct i as [|i]; [reflexivity|]); lia.
Qed.

(** From every chain of unit spins the expected value of an observable approaches its Boltzmann
    average: the distance after j steps is at most 2 B (1 - d) ^ (j / n) for observables between -B
    and B, where d = (exp (-2 b E) / n) ^ n for energies between -E and E. *)
Theorem C79_rate : forall k n s c (h : chain R -> R), wf n s c -> (2 <= n)%nat -> ens_ok k n (vars c) -> 0 <= beta (vars c) ->
  forall B E, unit_spins c -> energy_bound k n s c E -> (forall x, in_cube x -> Rabs (h (at_dirs c n x)) <= B) -> forall N j, (1 <= N)%nat ->
  Rabs (expected N n (ens_sampler k ERNum) j (over h) (fin c) - boltzmann_avg N n (beta (vars c)) (ens_energy k n s (omega c)) c h)
    <= 2 * B * (1 - rate n (beta (vars c)) E) ^ (j / n) + INR j * B / INR N.
Proof. exact h_rate. Qed.
Print Assumptions C79_rate.
Theorem C79_limit : forall k n s c (h : chain R -> R), wf n s c -> (2 <= n)%nat -> ens_ok k n (vars c) -> 0 <= beta (vars c) ->
  forall B E, unit_spins c -> energy_bound k n s c E -> (forall x, in_cube x -> Rabs (h (at_dirs c n x)) <= B) ->
  forall v, is_boltzmann_avg n (beta (vars c)) (ens_energy k n s (omega c)) c (fun _ => h) v ->
  forall eps, 0 < eps -> exists j0, forall j, (j0 <= j)%nat -> exists N0, forall N, (N0 <= N)%nat ->
    Rabs (expected (S N) n (ens_sampler k ERNum) j (over h) (fin c) - v) <= eps.
Proof. exact h_limit. Qed.
Print Assumptions C79_limit.
(** Bounds exist for all observables of C78 *)
Example C79_case : forall k, let c := ex_chain 4 Dxyplane in exists B E,
  (forall x, in_cube x -> Rabs (mag 4 (at_dirs c 4 x) vz) <= B) /\ energy_bound k 4 4 c E /\ 0 < rate 4 (beta (vars c)) E <= 1.
Proof.
  intros k c. destruct (bounds k 4 4 c (fun y => mag 4 y vz) (proj1 (proj2 (proj2 (proj2 (program_regular c 4))) vz ltac:(auto)))) as (B & E & HB & HE).
  exists B, E. split; [exact HB|]. split; [exact HE|]. apply rate_unit; [lia|cbn; lra|]. eapply Rle_trans; [apply Rabs_pos|apply (HE (fun _ => (0, 0))); intros i; cbn; lra].
Qed.

(** What lasts of a sample in those after it is bounded, and small when many steps are between them *)
Theorem C80_lasting : forall n q b E, (1 <= n)%nat -> (1 <= q)%nat -> 0 <= b -> 0 <= E ->
  lasting n q b E (INR n / rate n b E) /\
  ((n <= q)%nat -> let p := (1 - rate n b E) ^ (q / n) in 0 <= p < 1 /\ lasting n q b E (p / (1 - p))).
Proof. exact (fun n q b E Hn Hq Hb HE => conj (lasting_any n q b E Hn Hq Hb HE) (fun L => lasting_far n q b E (conj Hn L) Hb HE)). Qed.
Print Assumptions C80_lasting.
Example C80_lasting_case : forall b E, 0 <= b -> 0 <= E -> b * E <= 1 / 10 -> lasting 2 (Z.to_nat 1000) b E (1 / 100).
Proof. exact lasting_weak. Qed.

(** Means over m states taken every q steps, as the searches and the fits report: the mean square of
    their distance from the Boltzmann average is at most a constant over m, from every start *)
Theorem C80_mean_square : forall k n s c (h : chain R -> R), wf n s c -> (2 <= n)%nat -> ens_ok k n (vars c) -> 0 <= beta (vars c) ->
  forall B E, unit_spins c -> energy_bound k n s c E -> (forall x, in_cube x -> Rabs (h (at_dirs c n x)) <= B) ->
  forall v, is_boltzmann_avg n (beta (vars c)) (ens_energy k n s (omega c)) c (fun _ => h) v ->
  forall q m r, lasting n q (beta (vars c)) E r -> (1 <= m)%nat -> forall eps, 0 < eps -> exists N0, forall N, (N0 <= N)%nat ->
    esampled (S N) n (ens_sampler k ERNum) q m (fun l => (lmean l (over h) - v) ^ 2) (fin c)
      <= 4 * B * B * (1 + 2 * r) / INR m + eps.
Proof. exact h_square. Qed.
Print Assumptions C80_mean_square.
(** The probability that the mean is off by more than eta goes to 0 with the number of samples *)
Theorem C80_seldom_off : forall k n s c (h : chain R -> R), wf n s c -> (2 <= n)%nat -> ens_ok k n (vars c) -> 0 <= beta (vars c) ->
  forall B E, unit_spins c -> energy_bound k n s c E -> (forall x, in_cube x -> Rabs (h (at_dirs c n x)) <= B) ->
  forall v, is_boltzmann_avg n (beta (vars c)) (ens_energy k n s (omega c)) c (fun _ => h) v ->
  forall q m eta r, lasting n q (beta (vars c)) E r -> (1 <= m)%nat -> 0 < eta -> forall eps, 0 < eps -> exists N0, forall N, (N0 <= N)%nat ->
    esampled (S N) n (ens_sampler k ERNum) q m (fun l => off v eta (lmean l (over h))) (fin c)
      <= 4 * B * B * (1 + 2 * r) / (INR m * eta ^ 2) + eps.
Proof. exact h_seldom. Qed.
Print Assumptions C80_seldom_off.
Example C80_case : forall k, let c := ex_chain 4 Dxyplane in exists v,
  is_boltzmann_avg 4 (beta (vars c)) (ens_energy k 4 4 (omega c)) c (fun _ y => mag 4 y vz) v.
Proof. intros k c. apply average_exists. apply (proj2 (proj2 (proj2 (program_regular c 4))) vz). auto. Qed.

(** The numbers reported with the fits (energy density and magnetisation, means over 8000 states): over
    all moves of the run, the part in which the number is further than eta from its Boltzmann average *)
Theorem C80_reported : forall o i n (conf : config R) d sc0,
  chain_new ERNum (config_map Some (set_ssize conf (hsize conf))) d = Ok (fin sc0) -> vars sc0 = set_ssize conf (hsize conf) ->
  wf n n sc0 -> unit_spins sc0 -> (2 <= n)%nat -> ens_ok (obs_ensemble o) n conf -> (o = Omain -> tau conf <> 0) -> 0 <= beta conf -> (i < 4)%nat ->
  let w := 2 * PI / tau conf in let h := obs_observable o n w i in
  forall B E, energy_bound (obs_ensemble o) n n sc0 E -> (forall x, in_cube x -> Rabs (h (at_dirs sc0 n x)) <= B) ->
  forall v, is_boltzmann_avg n (beta conf) (ens_energy (obs_ensemble o) n n w) sc0 (fun _ => h) v ->
  forall r eta eps, lasting n (Z.to_nat (gap (obs_ensemble o))) (beta conf) E r -> 0 < eta -> 0 < eps -> exists N0, forall N, (N0 <= N)%nat ->
    gmean still (all_moves (S N) n) (Z.to_nat 8000 * Z.to_nat (gap (obs_ensemble o))) (fun mv =>
      off v eta (obs_number i (obs_of ERNum o (with_moves d mv) (config_map Some conf))))
    <= 4 * B * B * (1 + 2 * r) / (8000 * eta ^ 2) + eps.
Proof. exact obs_seldom. Qed.
Print Assumptions C80_reported.
Example C80_reported_case : forall o i, (i < 4)%nat -> exists sc0, let conf := ex_conf 4 2 Dxyplane in
  let w := 2 * PI / tau conf in let h := obs_observable o 4 w i in
  chain_new ERNum (config_map Some (set_ssize conf (hsize conf))) straight_draw = Ok (fin sc0) /\ vars sc0 = set_ssize conf (hsize conf) /\
  wf 4 4 sc0 /\ unit_spins sc0 /\ ens_ok (obs_ensemble o) 4 conf /\ tau conf <> 0 /\ 0 < beta conf /\
  exists B E v, energy_bound (obs_ensemble o) 4 4 sc0 E /\ (forall x, in_cube x -> Rabs (h (at_dirs sc0 4 x)) <= B) /\
    is_boltzmann_avg 4 (beta conf) (ens_energy (obs_ensemble o) 4 4 w) sc0 (fun _ => h) v.
Proof.
  intros o i Hi. destruct (straight_fin 4 Dxyplane) as (sc & A & B & C); [lia|]. exists sc. cbv zeta.
  assert (T : tau (ex_conf 4 2 Dxyplane) <> 0) by (cbn; lra).
  assert (U : unit_spins sc) by (apply (new_unit (ex_conf 4 4 Dxyplane) straight_draw (fun _ => 0) sc); cbn; auto; lia).
  assert (Rg : regular (fun x => obs_observable o 4 (2 * PI / tau (ex_conf 4 2 Dxyplane)) i (at_dirs sc 4 x))).
  { destruct (program_regular sc 4) as (_ & _ & R3 & R4). destruct i as [|[|[|i]]]; cbn [obs_observable]; [apply R3|apply R4; auto..]. }
  split; [exact A|]. split; [exact B|]. split; [exact C|]. split; [exact U|]. split; [destruct o; cbn [obs_ensemble ens_ok]; (exact I || exact T || (split; [exact T|lia]))|].
  split; [exact T|]. split; [cbn; lra|]. destruct (bounds (obs_ensemble o) 4 4 sc _ Rg) as (Bb & E & HB & HE).
  destruct (average_exists (obs_ensemble o) 4 4 sc (2 * PI / tau (ex_conf 4 2 Dxyplane)) (beta (ex_conf 4 2 Dxyplane)) _ Rg) as [v Hv]. exists Bb, E, v. auto.
Qed.
