(** Transcription of `main`, /repo/src/main.rs:139-470.

    The command line is given as the parsed record `Args`; Cli.v has the parsing.
    `println!` is dropped, except that printing the configuration description is recorded as a
    mode.  The state carries a record of the modes entered, each with the configuration it was
    given; nothing reads that record. *)
From Coq Require Import ZArith List Bool Arith String.
From Verif Require Import Num Monad Spin Config Chain Langevin Fit Files Toml Writers Average Runs.
Import ListNotations.
Local Open Scope string_scope.
Local Open Scope list_scope.

(** Field updates of main.rs *)
Definition set_hs {T} (c : config T) (v : list T) : config T :=
  mkConfig (hsize c) (ssize c) (c_t c) (c_dt c) (runs c) (trel c) (threads c) (tau c) (lambda c)
    (hfield c) v (jvar c) (hvar c) (method c) (ednsty c) (c_file c) (strob c) (offset c)
    (beta c) (mc_points c) (c_e c) (drive c) (c_log c).
Definition set_hfield {T} (c : config T) (v : list T) : config T :=
  mkConfig (hsize c) (ssize c) (c_t c) (c_dt c) (runs c) (trel c) (threads c) (tau c) (lambda c)
    v (hs c) (jvar c) (hvar c) (method c) (ednsty c) (c_file c) (strob c) (offset c)
    (beta c) (mc_points c) (c_e c) (drive c) (c_log c).
Definition set_ednsty {T} (c : config T) (v : T) : config T :=
  mkConfig (hsize c) (ssize c) (c_t c) (c_dt c) (runs c) (trel c) (threads c) (tau c) (lambda c)
    (hfield c) (hs c) (jvar c) (hvar c) (method c) v (c_file c) (strob c) (offset c)
    (beta c) (mc_points c) (c_e c) (drive c) (c_log c).

(** The modes, in the order of main.rs *)
Inductive mode : Type :=
| Mdesc | Mext | Mtau | Madiab2 | Mrot | Mmaglab | Mfit | Mfiteff | Mhigh | Madiabatic
| Mhist | Mdynhist | Mmagnus | Mtraj | Mavg | Mtwopoint | Mmc | Mmcprofile | Mdynprofile | Mmcfull
| Mlangevin | Mresponse | Mdefault.

(** struct Args, main.rs:34-131 *)
Record args (T : Type) : Type := mkArgs {
  a_tau : option T; a_avg : bool; a_beta : option T; a_mc : bool; a_mc_profile : bool;
  a_dyn_profile : bool; a_mc_full : bool; a_hist : option (option Z); a_dynhist : option (option Z);
  a_singletraj : option (option Z); a_langevin : option (option T); a_magnus_hist : option (option Z);
  a_config_desc : bool; a_n_steps_taus : option (list T); a_adiabatic : option T; a_adiab2 : option T;
  a_rot : option T; a_ext : bool; a_maglab : option T; a_steps : option Z; a_fit : option T;
  a_fit_effective : option T; a_response : bool; a_two_point : bool; a_high_freq : option T
}.
Arguments mkArgs {T}.
Arguments a_tau {T}. Arguments a_avg {T}. Arguments a_beta {T}. Arguments a_mc {T}. Arguments a_mc_profile {T}.
Arguments a_dyn_profile {T}. Arguments a_mc_full {T}. Arguments a_hist {T}. Arguments a_dynhist {T}.
Arguments a_singletraj {T}. Arguments a_langevin {T}. Arguments a_magnus_hist {T}.
Arguments a_config_desc {T}. Arguments a_n_steps_taus {T}. Arguments a_adiabatic {T}. Arguments a_adiab2 {T}.
Arguments a_rot {T}. Arguments a_ext {T}. Arguments a_maglab {T}. Arguments a_steps {T}. Arguments a_fit {T}.
Arguments a_fit_effective {T}. Arguments a_response {T}. Arguments a_two_point {T}. Arguments a_high_freq {T}.

Section Main.
Context (N : NumOps).
Notation T := (num N).
Notation "x * y" := (nmul N x y) : num_scope.
Notation "x / y" := (ndiv N x y) : num_scope.
Notation "- x" := (nopp N x) : num_scope.
Notation "# z" := (nofZ N z%Z) (at level 0, z at level 0) : num_scope.
Local Open Scope num_scope.

(** Randomness of one execution of the program: for each mode, and for the observables measured
    after a fit *)
Record world : Type := mkWorld { w_rng : mode -> rng N; w_obs : mode -> draws N }.

Record state : Type := mkSt {
  s_conf : config T; s_fs : fs T; s_default : bool; s_trace : list (mode * config T)
}.
(** entering mode [md] with configuration [c]; leaving it with configuration and directory [p] *)
Definition leave (md : mode) (c : config T) (s : state) (p : config T * fs T) : state :=
  mkSt (fst p) (snd p) false (s_trace s ++ [(md, c)]).
Definition when {A} (o : option A) (f : A -> state -> res state) (s : state) : res state :=
  match o with Some a => f a s | None => Ok s end.
Definition flag (b : bool) : option unit := if b then Some tt else None.

(** `SpinChain::new(conf, 0)` inside the fits truncates log file 0, spinchain.rs:197-205 *)
Definition touch0 (conf : config T) (f : fs T) : fs T :=
  if c_log conf then create (log_name (c_file conf) 0) f else f.

(** running a mode that takes the shared configuration, e.g. main.rs:166-176 *)
Definition do_run (md : mode) (mk : config T -> fs T -> res (config T * fs T)) (s : state) : res state :=
  let* p := mk (s_conf s) (s_fs s) in Ok (leave md (s_conf s) s p).

(** `-2.0 * PI / conf.tau` *)
Definition minus_omega (c : config T) : T := - (#2) * npi N / tau c.

(** --adiab_full, main.rs:178-197 *)
Definition do_adiab2 (fuel : nat) (w : world) (x : T) (s : state) : res state :=
  let conf := set_tau (s_conf s) x in
  let conf := set_hs conf [#1; #0; #0] in
  let conf := set_hfield conf [#0; #0; minus_omega conf] in
  let* '(result, conf') := find_beta2 N fuel (r_draws N (w_rng w Madiab2)) conf in
  let f := append "beta.dat" [numbers [tau conf'; beta conf'; result]] (touch0 conf (s_fs s)) in
  Ok (leave Madiab2 conf s (conf', f)).

(** the common body of -r, -E, -f, -F: a fit, then the observables of the fitted ensemble; one
    line is appended to [name] (main.rs:198-308) *)
Definition fit_and_observe (md : mode) (name : string) (w : world)
    (find : (nat -> draws N) -> config T -> res (T * config T))
    (obs : draws N -> config T -> res (T * T * T * T * config T))
    (mid : config T -> config T) (targete : T) (conf : config T) (s : state) : res state :=
  let* '(result, conf1) := find (r_draws N (w_rng w md)) conf in
  let conf1 := mid (set_beta conf1 result) in
  let* '(r0, r1, r2, r3, conf2) := obs (w_obs w md) conf1 in
  let f := append name [numbers [tau conf2; targete; beta conf2; r0; r1; r2; r3]] (touch0 conf (s_fs s)) in
  Ok (leave md conf s (conf2, f)).

Definition keep (c : config T) : config T := c.
(** main.rs:198-224 *)
Definition do_rot (fuel : nat) (w : world) (e : T) (s : state) : res state :=
  fit_and_observe Mrot "betat-rot.dat" w (find_beta_rot N fuel) (get_obs_rot N) keep e
    (set_ednsty (s_conf s) e) s.
(** main.rs:225-251 *)
Definition do_maglab (fuel : nat) (w : world) (e : T) (s : state) : res state :=
  fit_and_observe Mmaglab "betat-maglab.dat" w (find_beta_maglab N fuel) (get_obs_maglab N) keep e
    (set_ednsty (s_conf s) e) s.
(** main.rs:253-279 *)
Definition do_fit (fuel : nat) (w : world) (e : T) (s : state) : res state :=
  let conf := set_ednsty (s_conf s) e in
  let conf := set_hs conf [#1; #0; #0] in
  let conf := set_hfield conf [#0; #0; minus_omega conf] in
  let conf := set_hsize conf (ssize conf) in
  fit_and_observe Mfit "betat.dat" w (find_beta N fuel) (get_obs N) keep e conf s.
(** main.rs:281-308 *)
Definition do_fiteff (fuel : nat) (w : world) (e : T) (s : state) : res state :=
  let conf := set_ednsty (s_conf s) e in
  let conf := set_hs conf [#1; #0; #0] in
  let conf := set_hfield conf [#0; #0; minus_omega conf] in
  fit_and_observe Mfiteff "betat.dat" w (find_betah N fuel) (get_obsh N)
    (fun c => set_hs c [#1; #0; #0]) e conf s.
(** main.rs:309-330 *)
Definition do_high (w : world) (e : T) (s : state) : res state :=
  let conf := set_ednsty (s_conf s) e in
  let conf := set_hfield conf [#0; #0; - tau conf / (#4 * npi N)] in
  let* '(r0, r1, r2, r3, conf2) := get_obsh N (w_obs w Mhigh) conf in
  let f := append "betat.dat" [numbers [tau conf2; e; beta conf2; r0; r1; r2; r3]] (touch0 conf (s_fs s)) in
  Ok (leave Mhigh conf s (conf2, f)).
(** main.rs:332-379; the trajectories run on a clone of the configuration *)
Definition do_adiabatic (fuel : nat) (w : world) (x : T) (s : state) : res state :=
  let conf := set_tau (s_conf s) x in
  let* '(mean_e, f) := trajectory_mean_e N (w_rng w Madiabatic) conf (s_fs s) in
  let c := set_ednsty conf mean_e in
  let c := set_hs c [#1; #0; minus_omega c] in
  let initial_beta := beta c in
  let n := num_runs N conf in
  let* '(result, c1) := find_beta N fuel (fun k => r_draws N (w_rng w Madiabatic) (n + k)%nat) c in
  let c1 := set_beta c1 result in
  let* '(r0, r1, r2, r3, c2) := get_obs N (w_obs w Madiabatic) c1 in
  let f := append "beta.dat" [numbers [tau c2; initial_beta; result; r0; r1; r2; r3; mean_e]] (touch0 c f) in
  Ok (leave Madiabatic conf s (c2, f)).

(** average and two_point_average on the directory, obs.rs:1438-1443, 1493 and 1329-1337, 1425 *)
Definition run_average (conf : config T) (f : fs T) : res (config T * fs T) :=
  let* ls := average N conf (map snd (glob (c_file conf) f)) in
  Ok (conf, append "avg.dat" ls (create "avg.dat" f)).
Definition run_two_point (conf : config T) (f : fs T) : res (config T * fs T) :=
  let* ls := two_point_average N (map snd (glob (c_file conf) f)) in
  Ok (conf, append "two-point.dat" ls (create "two-point.dat" f)).

Definition points (dflt : Z) (o : option Z) : nat := Z.to_nat (match o with Some z => z | None => dflt end).

(** main.rs:149-379: before the temperature is settled *)
Definition main_before (fuel : nat) (w : world) (a : args T) (s : state) : res state :=
  let* s := when (flag (a_config_desc a)) (fun _ s => Ok (leave Mdesc (s_conf s) s (s_conf s, s_fs s))) s in
  (* run_ext works on a clone of the configuration *)
  let* s := when (flag (a_ext a)) (fun _ s =>
      do_run Mext (fun c f => let* '(_, f') := run_ext N fuel (w_rng w Mext) c f in Ok (c, f')) s) s in
  let steps := match a_steps a with Some z => z | None => 1000%Z end in
  let* s := when (a_n_steps_taus a) (fun taus => do_run Mtau (run_tau N fuel taus steps (w_rng w Mtau))) s in
  let* s := when (a_adiab2 a) (do_adiab2 fuel w) s in
  let* s := when (a_rot a) (do_rot fuel w) s in
  let* s := when (a_maglab a) (do_maglab fuel w) s in
  let* s := when (a_fit a) (do_fit fuel w) s in
  let* s := when (a_fit_effective a) (do_fiteff fuel w) s in
  let* s := when (a_high_freq a) (do_high w) s in
  when (a_adiabatic a) (do_adiabatic fuel w) s.

(** main.rs:381-386 *)
Definition settle_beta (fuel : nat) (a : args T) (s : state) : res state :=
  let* b := match a_beta a with Some b => Ok b | None => solve_beta N fuel (ednsty (s_conf s)) end in
  Ok (mkSt (set_beta (s_conf s) b) (s_fs s) (s_default s) (s_trace s)).

(** main.rs:388-464 *)
Definition main_after (fuel : nat) (w : world) (a : args T) (s : state) : res state :=
  let* s := when (a_hist a) (fun o => do_run Mhist (gen_hist N fuel (points 8000 o) (w_rng w Mhist))) s in
  let* s := when (a_dynhist a) (fun o => do_run Mdynhist (gen_hist_dynamics N (points 1000 o) (w_rng w Mdynhist))) s in
  let* s := when (a_magnus_hist a) (fun o => do_run Mmagnus (gen_hist_magnus N (points 8000 o) (w_rng w Mmagnus))) s in
  let* s := when (a_singletraj a) (fun o => do_run Mtraj (gen_single_traj N fuel (points 1000 o) (w_rng w Mtraj))) s in
  let* s := when (flag (a_avg a)) (fun _ => do_run Mavg run_average) s in
  let* s := when (flag (a_two_point a)) (fun _ => do_run Mtwopoint run_two_point) s in
  let* s := when (flag (a_mc a)) (fun _ => do_run Mmc (run_mc N (w_rng w Mmc))) s in
  let* s := when (flag (a_mc_profile a)) (fun _ => do_run Mmcprofile (run_mc_profile N (w_rng w Mmcprofile))) s in
  let* s := when (flag (a_dyn_profile a)) (fun _ => do_run Mdynprofile (run_dyn_profile N fuel (w_rng w Mdynprofile))) s in
  let* s := when (flag (a_mc_full a)) (fun _ => do_run Mmcfull (run_mc_magnus N (w_rng w Mmcfull))) s in
  let* s := when (a_langevin a) (fun o s =>
      let gamma := match o with Some g => g | None => #1 end in
      let s := mkSt (set_hsize (s_conf s) (ssize (s_conf s))) (s_fs s) (s_default s) (s_trace s) in
      do_run Mlangevin (run_langevin N fuel gamma (w_rng w Mlangevin)) s) s in
  when (flag (a_response a)) (fun _ => do_run Mresponse (run_sim_response N fuel (w_rng w Mresponse))) s.

(** main, main.rs:139-470 *)
Definition main (fuel : nat) (w : world) (a : args T) (f : fs T) : res state :=
  let* '(conf, f) := read_config N f in
  let conf := match a_tau a with Some x => set_tau conf x | None => conf end in
  let s := mkSt conf f true [] in
  let* s := main_before fuel w a s in
  let* s := settle_beta fuel a s in
  let* s := main_after fuel w a s in
  if s_default s then do_run Mdefault (run_sim N fuel (w_rng w Mdefault)) s else Ok s.

End Main.
