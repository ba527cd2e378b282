(** Theorems about the average energy as a function of the inverse temperature, and about the
    temperatures that the searches find: properties C83, C84.  Averages are the Boltzmann averages of
    C78, over all directions of the spins. *)
From Coq Require Import Reals List ZArith Arith Lra Lia.
From Verif Require Import Num Monad NumR Config Chain Fit SpecVec SpecChain SpecMC SpecFit SpecSampling SpecMean SpecFalls
  ProofsMean2 ProofsFalls2 ProofsFalls3 ProofsFalls5 ProofsFalls6 ProofsFalls7 ProofsFallsSamples.
Import ListNotations.
Local Open Scope R_scope.

(** * C83 *)
(** The averages at all temperatures form a function, for every observable of C78_observables *)
Theorem C83_function : forall k n s w c (g : chain R -> R), regular (fun x => g (at_dirs c n x)) ->
  exists v : R -> R, forall b, is_boltzmann_avg n b (ens_energy k n s w) c (fun _ => g) (v b).
Proof. exact averages. Qed.
Print Assumptions C83_function.
(** The average energy falls with b: it never rises, and it falls strictly for b >= 0 unless all
    directions of the spins have the same energy *)
Theorem C83_falls : forall k n s w c b1 b2 v1 v2, let H := ens_energy k n s w in
  is_boltzmann_avg n b1 H c (fun _ => H) v1 -> is_boltzmann_avg n b2 H c (fun _ => H) v2 ->
  (b1 <= b2 -> v2 <= v1) /\
  ((exists x y, in_cube x /\ in_cube y /\ H (at_dirs c n x) <> H (at_dirs c n y)) -> 0 <= b1 -> b1 < b2 -> v2 < v1).
Proof.
  exact (fun k n s w c b1 b2 v1 v2 H1 H2 => conj (fun L => avg_falls n (ens_energy k n s w) c b1 b2 v1 v2 L H1 H2)
    (fun T B L => avg_strict k n s w c T b1 b2 v1 v2 B L H1 H2)).
Qed.
Print Assumptions C83_falls.
Example C83_falls_case : forall e, exists x y, in_cube x /\ in_cube y /\
  ens_energy Estatic 4 4 (2 * PI / 10) (at_dirs (fall_chain vzero 0 (1 / 4) e) 4 x) <> ens_energy Estatic 4 4 (2 * PI / 10) (at_dirs (fall_chain vzero 0 (1 / 4) e) 4 y).
Proof. exact fall_two. Qed.
(** How fast averages change: at most by 4 M B per unit of b for an observable between -B and B, and
    that of the energy at least by the variance of the energy at b = 0 times exp (-4 b M) *)
Theorem C83_slope : forall k n s w c M, let H := ens_energy k n s w in (forall x, in_cube x -> Rabs (H (at_dirs c n x)) <= M) ->
  (forall g B b1 b2 v1 v2, (forall x, in_cube x -> Rabs (g (at_dirs c n x)) <= B) ->
     is_boltzmann_avg n b1 H c (fun _ => g) v1 -> is_boltzmann_avg n b2 H c (fun _ => g) v2 -> Rabs (v1 - v2) <= 4 * M * B * Rabs (b1 - b2)) /\
  (forall b1 b2 v1 v2 u q, 0 <= b1 -> b1 <= b2 -> is_boltzmann_avg n b1 H c (fun _ => H) v1 -> is_boltzmann_avg n b2 H c (fun _ => H) v2 ->
     is_boltzmann_avg n 0 H c (fun _ => H) u -> is_boltzmann_avg n 0 H c (fun _ x => H x * H x) q ->
     (b2 - b1) * exp (- (4 * b2 * M)) * (q - u * u) <= v1 - v2).
Proof.
  exact (fun k n s w c M HM => conj (fun g B b1 b2 v1 v2 HB H1 H2 => avg_slope n _ c g M B b1 b2 v1 v2 HM HB H1 H2)
    (fun b1 b2 v1 v2 u q B1 B2 H1 H2 Hu Hq => avg_steep n _ c M b1 b2 v1 v2 u q HM B1 B2 H1 H2 Hu Hq)).
Qed.
Print Assumptions C83_slope.
(** Each energy between those at b1 and b2 is the average at one inverse temperature, and at no other
    that is not negative *)
Theorem C83_one_temperature : forall k n s w c, let H := ens_energy k n s w in
  (exists x y, in_cube x /\ in_cube y /\ H (at_dirs c n x) <> H (at_dirs c n y)) ->
  forall v b1 b2 e, (forall b, is_boltzmann_avg n b H c (fun _ => H) (v b)) -> 0 <= b1 -> b1 <= b2 -> v b2 <= e <= v b1 ->
  exists b, b1 <= b <= b2 /\ v b = e /\ forall b', 0 <= b' -> v b' = e -> b' = b.
Proof. exact one_temperature. Qed.
Print Assumptions C83_one_temperature.

(** The searches: if the estimates that a search asks for are within eta of the averages, and the target
    lies between the averages at the ends of the first bracket (up to eta), then at the temperature
    found the average is within eta + M B / 500 of the target *)
Theorem C83_search : forall q n s (conf : config R) fuel rng c v M B eta r c', let w := 2 * PI / tau conf in
  (forall x, in_cube x -> Rabs (ens_energy (fit_ensemble q) n s w (at_dirs c n x)) <= M) ->
  (forall x, in_cube x -> Rabs (fit_density q n s w (at_dirs c n x)) <= B) ->
  (forall b, low_end q <= b <= 5 -> is_boltzmann_avg n b (ens_energy (fit_ensemble q) n s w) c (fun _ => fit_density q n s w) (v b)) ->
  (forall k b e, asked q (config_map Some conf) rng k b -> energy_at ERNum q (config_map Some conf) (Some b) (rng k) = Ok e -> exists x, e = Some x /\ Rabs (x - v b) <= eta) ->
  v 5 - eta <= ednsty conf <= v (low_end q) + eta ->
  find_of ERNum q fuel rng (config_map Some conf) = Ok (r, c') ->
  exists b, r = Some b /\ low_end q < b < 5 /\ Rabs (v b - ednsty conf) <= eta + M * B / 500.
Proof. exact find_found. Qed.
Print Assumptions C83_search.
(** For find_beta2 and find_betah, whose density is that of the energy sampled: if the target is the average at
    bstar, the search ends near bstar *)
Theorem C83_near : forall q n s (conf : config R) fuel rng c v M u Q eta bstar r c', q = Sbeta2 \/ q = Sbetah -> (1 <= n)%nat ->
  let w := 2 * PI / tau conf in let H := ens_energy (fit_ensemble q) n s w in
  (forall x, in_cube x -> Rabs (H (at_dirs c n x)) <= M) ->
  is_boltzmann_avg n 0 H c (fun _ => H) u -> is_boltzmann_avg n 0 H c (fun _ x => H x * H x) Q ->
  (exists x y, in_cube x /\ in_cube y /\ H (at_dirs c n x) <> H (at_dirs c n y)) ->
  (forall b, low_end q <= b <= 5 -> is_boltzmann_avg n b H c (fun _ => fit_density q n s w) (v b)) ->
  (forall k b e, asked q (config_map Some conf) rng k b -> energy_at ERNum q (config_map Some conf) (Some b) (rng k) = Ok e -> exists x, e = Some x /\ Rabs (x - v b) <= eta) ->
  low_end q <= bstar <= 5 -> v bstar = ednsty conf ->
  find_of ERNum q fuel rng (config_map Some conf) = Ok (r, c') ->
  exists b, r = Some b /\ Rabs (b - bstar) <= 1 / 2000 + eta * INR n / (exp (- (20 * M)) * (Q - u * u)).
Proof. exact find_near. Qed.
Print Assumptions C83_near.
(** There are random numbers with which all estimates asked for are as close to the averages as wanted *)
Theorem C83_good_draws : forall q n s (conf : config R) d sc0,
  chain_new ERNum (config_map Some (fit_conf q conf)) d = Ok (fin sc0) -> vars sc0 = fit_conf q conf -> wf n s sc0 ->
  (2 <= n)%nat -> (n <= Z.to_nat (gap (fit_ensemble q)))%nat -> (1 <= s)%nat -> ens_ok (fit_ensemble q) n conf -> (q = Sbeta -> tau conf <> 0) ->
  let w := 2 * PI / tau conf in forall v eta,
  (forall b, low_end q <= b <= 5 -> is_boltzmann_avg n b (ens_energy (fit_ensemble q) n s w) sc0 (fun _ => fit_density q n s w) (v b)) -> 0 < eta ->
  exists mv : nat -> nat -> move, (forall k i, fair (mv k i)) /\
    forall k b, asked q (config_map Some conf) (fun k => with_moves d (mv k)) k b ->
      exists x, energy_at ERNum q (config_map Some conf) (Some b) (with_moves d (mv k)) = Ok (Some x) /\ Rabs (x - v b) <= eta.
Proof. exact good_draws. Qed.
Print Assumptions C83_good_draws.
(** All hypotheses of C83_search and C83_near, for every eta, on a ring of four spins whose target is the
    average at b = 1 *)
Example C83_search_case : forall eta, 0 < eta -> exists e v mv M B r c', let conf := fall_conf 0 (1 / 4) e in let c := fall_chain vzero 0 (1 / 4) e in let w := 2 * PI / tau conf in
  let rng := fun k => with_moves (fall_draw vzero) (mv k) in
  (forall k i, fair (mv k i)) /\
  (forall x, in_cube x -> Rabs (ens_energy Estatic 4 4 w (at_dirs c 4 x)) <= M) /\ (forall x, in_cube x -> Rabs (fit_density Sbeta2 4 4 w (at_dirs c 4 x)) <= B) /\
  (forall b, is_boltzmann_avg 4 b (ens_energy Estatic 4 4 w) c (fun _ => fit_density Sbeta2 4 4 w) (v b)) /\
  (forall k b x, asked Sbeta2 (config_map Some conf) rng k b -> energy_at ERNum Sbeta2 (config_map Some conf) (Some b) (rng k) = Ok x -> exists y, x = Some y /\ Rabs (y - v b) <= eta) /\
  v 1 = ednsty conf /\ v 5 < ednsty conf < v (low_end Sbeta2) /\
  find_of ERNum Sbeta2 13 rng (config_map Some conf) = Ok (r, c').
Proof. exact search_case. Qed.

(** find_beta averages another energy than the one sampled (C67), and that average need not fall.  For uncoupled
    spins in a field h < 0 with h + 2 pi / tau > 0 it rises, and the search goes the wrong way: a target
    below the average in the middle of the first bracket ends at 5, one above it at the lower end. *)
Theorem C83_rising : forall n (conf : config R) c h v, (1 <= n)%nat -> let w := 2 * PI / tau conf in h < 0 -> 0 < h + w ->
  (forall i, (i < n)%nat -> J_ c i = vzero) -> (forall i, (i < n)%nat -> h_ c i = mk3 0 0 h) ->
  (forall b, low_end Sbeta <= b <= 5 -> is_boltzmann_avg n b (ens_energy Estatic n n w) c (fun _ => fit_density Sbeta n n w) (v b)) ->
  (forall a b, low_end Sbeta <= a -> a < b -> b <= 5 -> v a < v b) /\
  forall eta fuel rng r c',
  (forall k b e, asked Sbeta (config_map Some conf) rng k b -> energy_at ERNum Sbeta (config_map Some conf) (Some b) (rng k) = Ok e -> exists x, e = Some x /\ Rabs (x - v b) <= eta) ->
  find_of ERNum Sbeta fuel rng (config_map Some conf) = Ok (r, c') ->
  let m := (low_end Sbeta + 5) / 2 in
  (ednsty conf + eta < v m -> exists b, r = Some b /\ Rabs (b - 5) <= 1 / 2000) /\
  (v m + eta < ednsty conf -> exists b, r = Some b /\ Rabs (b - low_end Sbeta) <= 1 / 2000).
Proof. exact find_rising. Qed.
Print Assumptions C83_rising.
(** Four spins whose couplings are cancelled by the disorder drawn, with good estimates: the target is the
    average at b = 1, and the search finds 5 *)
Example C83_rising_case : exists e v mv eta r c', let conf := fall_conf 1 (- (1 / 2)) e in let c := fall_chain cancel 1 (- (1 / 2)) e in let w := 2 * PI / tau conf in
  let rng := fun k => with_moves (fall_draw cancel) (mv k) in
  chain_new ERNum (config_map Some (fit_conf Sbeta conf)) (fall_draw cancel) = Ok (fin c) /\
  (forall k i, fair (mv k i)) /\ 0 < - (1 / 2) + w /\ (forall i, (i < 4)%nat -> J_ c i = vzero) /\ (forall i, (i < 4)%nat -> h_ c i = mk3 0 0 (- (1 / 2))) /\
  (forall b, is_boltzmann_avg 4 b (ens_energy Estatic 4 4 w) c (fun _ => fit_density Sbeta 4 4 w) (v b)) /\
  (forall k b x, asked Sbeta (config_map Some conf) rng k b -> energy_at ERNum Sbeta (config_map Some conf) (Some b) (rng k) = Ok x -> exists y, x = Some y /\ Rabs (y - v b) <= eta) /\
  v 1 = ednsty conf /\ find_of ERNum Sbeta 13 rng (config_map Some conf) = Ok (r, c') /\ exists b, r = Some b /\ Rabs (b - 5) <= 1 / 2000.
Proof. exact rising_case. Qed.

(** * C84 *)
(** Over all random numbers of the moves of a search: if each estimate inside the bracket is off by more
    than eta with probability at most P, the search misses with probability at most 13 P, where v is
    any function that changes by at most L per unit of b *)
Theorem C84_union : forall q n s (conf : config R) fuel d sc, (13 <= fuel)%nat ->
  (forall k, chain_new ERNum (config_map Some (fit_conf q conf)) (d k) = Ok (fin (sc k)) /\ vars (sc k) = fit_conf q conf /\ wf n s (sc k)) ->
  (2 <= n)%nat -> (1 <= s)%nat -> ens_ok (fit_ensemble q) n conf -> (q = Sbeta -> tau conf <> 0) ->
  forall v L eta P, (forall a b, low_end q <= a <= 5 -> low_end q <= b <= 5 -> Rabs (v a - v b) <= L * Rabs (a - b)) -> 0 <= P ->
  (forall k b, low_end q < b < 5 -> exists N0, forall N, (N0 <= N)%nat ->
     gmean still (all_moves (S N) n) (estimate_moves q) (fun mv => est_off (v b) eta (energy_at ERNum q (config_map Some conf) (Some b) (with_moves (d k) mv))) <= P) ->
  v 5 - eta <= ednsty conf <= v (low_end q) + eta -> exists N0, forall N, (N0 <= N)%nat ->
    gmean still (all_moves (S N) n) (16 * estimate_moves q) (fun mv =>
      misses (ednsty conf) (eta + L / 2000) v (find_of ERNum q fuel (search_draws q d mv) (config_map Some conf)))
    <= 13 * P.
Proof. exact search_union. Qed.
Print Assumptions C84_union.
(** Without disorder in the couplings and fields: a bound for the Boltzmann averages themselves, from
    C80.  The estimates of one search share no moves. *)
Theorem C84_search : forall q n s (conf : config R) fuel d sc, (13 <= fuel)%nat ->
  (forall k, chain_new ERNum (config_map Some (fit_conf q conf)) (d k) = Ok (fin (sc k)) /\ vars (sc k) = fit_conf q conf /\ wf n s (sc k) /\ unit_spins (sc k)) ->
  (2 <= n)%nat -> (1 <= s)%nat -> ens_ok (fit_ensemble q) n conf -> (q = Sbeta -> tau conf <> 0) -> jvar conf = 0 -> hvar conf = 0 ->
  let c := sc 0%nat in let w := 2 * PI / tau conf in let H := ens_energy (fit_ensemble q) n s w in let h := fit_density q n s w in
  forall B E v r, energy_bound (fit_ensemble q) n s c E -> (forall x, in_cube x -> Rabs (h (at_dirs c n x)) <= B) ->
  (forall b, low_end q <= b <= 5 -> is_boltzmann_avg n b H c (fun _ => h) (v b)) ->
  lasting n (Z.to_nat (gap (fit_ensemble q))) 5 E r ->
  forall eta eps, 0 < eta -> 0 < eps -> v 5 - eta <= ednsty conf <= v (low_end q) + eta -> exists N0, forall N, (N0 <= N)%nat ->
    gmean still (all_moves (S N) n) (16 * estimate_moves q) (fun mv =>
      misses (ednsty conf) (eta + E * B / 500) v (find_of ERNum q fuel (search_draws q d mv) (config_map Some conf)))
    <= 13 * (4 * B * B * (1 + 2 * r) / (1000 * eta ^ 2)) + eps.
Proof. exact search_misses. Qed.
Print Assumptions C84_search.
Example C84_case : exists e v B E r, let conf := fall_conf 0 (1 / 4) e in let c := fall_chain vzero 0 (1 / 4) e in let w := 2 * PI / tau conf in
  chain_new ERNum (config_map Some (fit_conf Sbeta2 conf)) (fall_draw vzero) = Ok (fin c) /\ vars c = fit_conf Sbeta2 conf /\ wf 4 4 c /\ unit_spins c /\
  jvar conf = 0 /\ hvar conf = 0 /\ energy_bound Estatic 4 4 c E /\ (forall x, in_cube x -> Rabs (fit_density Sbeta2 4 4 w (at_dirs c 4 x)) <= B) /\
  (forall b, is_boltzmann_avg 4 b (ens_energy Estatic 4 4 w) c (fun _ => fit_density Sbeta2 4 4 w) (v b)) /\
  lasting 4 (Z.to_nat (gap Estatic)) 5 E r /\ v 1 = ednsty conf /\ v 5 < ednsty conf < v (low_end Sbeta2).
Proof. exact union_case. Qed.
