(** Transcription of the run modes of /repo/src/obs.rs:410-1324 and 1512-1792.

    Conventions.  The working directory is threaded through.  Randomness comes from an oracle
    [rng].  Worker threads are run one after the other; that every interleaving gives the same
    files is a theorem (C44, C52), and where the order does matter (files written by write_in_bg,
    order of messages in a channel) the outcome of the race is part of the oracle.  A panic in a
    worker is reported as a panic of the mode (in the program the other workers go on and the main
    thread then either waits for ever or ends normally).  Progress bars and `println!` are dropped.
    Loop counts such as 2e7 are kept as they are. *)
From Coq Require Import ZArith List Bool Arith String.
From Verif Require Import Num Monad Spin Config Chain Langevin Fit Files Toml Writers Average.
Import ListNotations.
Local Open Scope string_scope.
Local Open Scope list_scope.

Section Runs.
Context (N : NumOps).
Notation T := (num N).
Notation "x + y" := (nadd N x y) : num_scope.
Notation "x - y" := (nsub N x y) : num_scope.
Notation "x * y" := (nmul N x y) : num_scope.
Notation "x / y" := (ndiv N x y) : num_scope.
Notation "- x" := (nopp N x) : num_scope.
Notation "# z" := (nofZ N z%Z) (at level 0, z at level 0) : num_scope.
Notation "x <! y" := (nltb N x y) (at level 70) : num_scope.
Local Open Scope num_scope.

Record rng : Type := mkRng {
  r_draws : nat -> draws N;                          (* the i-th chain of the mode *)
  r_noise : nat -> nat -> v3 T * v3 T;               (* Langevin noise: chain, step *)
  r_file  : list (list (line T)) -> list (line T);   (* what write_in_bg gets onto the disk *)
  r_msgs  : list (list (pmsg N)) -> list (pmsg N);   (* order of arrival in a profile channel *)
  r_nums  : list (list T) -> list T;                 (* order of arrival in trajectory_mean_e *)
  r_fmt   : T -> string                              (* `{}` of an f64 inside a file name *)
}.

(** `SpinChain::new(conf, num)` with its log file, spinchain.rs:197-205 *)
Definition new_logged (conf : config T) (num : nat) (d : newdraw N) (f : fs T) : res (chain T * fs T) :=
  let* sc := chain_new N conf d in
  Ok (sc, if c_log conf then create (log_name (c_file conf) num) f else f).
(** lines written by the methods log and log_ext of that chain *)
Definition log_lines (conf : config T) (num : nat) (ls : list (list T)) (f : fs T) : fs T :=
  if c_log conf then append (log_name (c_file conf) num) (map numbers ls) f else f.

(** `ThreadPool::new(n)` asserts n > 0 *)
Definition pool_new (n : Z) : res unit := if (n =? 0)%Z then Panic Explicit else Ok tt.

(** [n] plain Metropolis steps *)
Definition thermalise (d : nat -> mcdraw N) (n : Z) (sc : chain T) : res (chain T) :=
  iterMi (fun k sc => metropolis_update N (d k) sc) 0 (Z.to_nat n) sc.

(** `while t < tmax { body }`; [fuel] bounds the executions of the body, [k] counts them; the body
    returns the lines it logs *)
Fixpoint time_loop {A L} (time : A -> T) (tmax : T) (body : nat -> A -> res (A * list L))
    (fuel k : nat) (s : A) : res (A * list L) :=
  if time s <! tmax then
    match fuel with
    | O => OutOfFuel
    | S fuel =>
        let* '(s, l) := body k s in
        let* '(s, l') := time_loop time tmax body fuel (Datatypes.S k) s in
        Ok (s, l ++ l')
    end
  else Ok (s, []).

(** whether a step is logged: `((tm / dt) as u64).rem_euclid(tau_steps) == 0` if strob, obs.rs:1052-1058 *)
Definition due (c : config T) (tau_steps : Z) (tm : T) : res bool :=
  if strob c then
    if (tau_steps =? 0)%Z then Panic DivByZero
    else let q := ntou64 N (tm / c_dt c) in Ok (q mod tau_steps =? 0)%Z
  else Ok true.

(** ** run_sim (obs.rs:1013-1076) and run_ext (1261-1324) *)
Definition sim_body (log : chain T -> res (list (list T))) (tau_steps : Z) (k : nat) (sc : chain T)
    : res (chain T * list (list T)) :=
  let* sc := update N sc in
  let* b := due (vars sc) tau_steps (t sc) in
  let* l := (if b then log sc else Ok []) in
  Ok (sc, l).
(** after thermalisation, obs.rs:1044-1063 *)
Definition sim_run (log : chain T -> res (list (list T))) (fuel : nat) (sc : chain T) : res (list (list T)) :=
  let tau_steps := ntou64 N (tau (vars sc) / c_dt (vars sc)) in
  let* l0 := chain_log N sc in
  let* '(_, l) := time_loop t (c_t (vars sc)) (sim_body log tau_steps) fuel 0 sc in
  Ok (l0 ++ l).
Definition sim_worker (log : chain T -> res (list (list T))) (fuel : nat) (d : draws N) (sc : chain T)
    : res (list (list T)) :=
  let* sc := thermalise (dr_mc d) 20000000 sc in sim_run log fuel sc.

(** ** run_sim_response, obs.rs:942-1011 *)
Definition response_body (tau_steps : Z) (k : nat) (sc : chain T) : res (chain T * list (list T)) :=
  let* sc := (if t sc <! #0 then update N sc else update_no_field N sc) in
  let* b := due (vars sc) tau_steps (nabs N (t sc)) in
  let* l := (if b then chain_log N sc else Ok []) in
  Ok (sc, l).
Definition response_worker (fuel : nat) (d : draws N) (sc : chain T) : res (list (list T)) :=
  let* sc := thermalise (dr_mc d) 20000000 sc in
  let tau_steps := ntou64 N (tau (vars sc) / c_dt (vars sc)) in
  let* l0 := chain_log N sc in
  let sc := set_t sc (- c_t (vars sc)) in
  let* '(_, l) := time_loop t (c_t (vars sc)) (response_body tau_steps) fuel 0 sc in
  Ok (l0 ++ l).

(** The common frame of the saving modes: one chain and one log file per run, then the offset is
    advanced and config.toml rewritten (obs.rs:1023-1075) *)
Definition run_chains (worker : draws N -> chain T -> res (list (list T))) (rg : rng) (conf : config T)
    (num : nat) (f : fs T) : res (fs T) :=
  foldM (fun i f =>
    let n := (i + Z.to_nat (offset conf))%nat in
    let* '(sc, f) := new_logged conf n (dr_new (r_draws rg i)) f in
    let* ls := worker (r_draws rg i) sc in
    Ok (log_lines conf n ls f)) (range 0 num) f.
(** `conf.offset += num as u32; fs::write("config.toml", ..)`, obs.rs:1073-1074 *)
Definition finish (conf : config T) (num : nat) (f : fs T) : res (config T * fs T) :=
  let* off := ck32 (offset conf + u32 (Z.of_nat num))%Z in
  let conf := set_offset conf off in
  let* f := save_config N conf f in
  Ok (conf, f).
Definition num_runs (conf : config T) : nat := as_usize (runs conf).

Definition run_frame (worker : draws N -> chain T -> res (list (list T))) (rg : rng) (conf : config T)
    (f : fs T) : res (config T * fs T) :=
  let* _ := pool_new (threads conf) in
  let* f := run_chains worker rg conf (num_runs conf) f in
  finish conf (num_runs conf) f.

Definition run_sim (fuel : nat) := run_frame (sim_worker (chain_log N) fuel).
Definition run_ext (fuel : nat) := run_frame (sim_worker (log_ext N) fuel).
Definition run_sim_response (fuel : nat) := run_frame (response_worker fuel).

(** ** run_langevin, obs.rs:878-940.  The chain always has a log file, with a header line
    (spinchain_langevin.rs:190-192). *)
Definition l_header : line T :=
  [Tword "#t"; Tword "E_total"; Tword "E_sub"; Tword "M_x"; Tword "M_y"; Tword "M_z"].
Definition langevin_body (noise : nat -> v3 T * v3 T) (tau_steps : Z) (k : nat) (lc : lchain T)
    : res (lchain T * list (list T)) :=
  let* lc := lupdate N (fst (noise k)) (snd (noise k)) lc in
  let* b := due (vars (base lc)) tau_steps (t (base lc)) in
  let* l := (if b then lchain_log N lc else Ok []) in
  Ok (lc, l).
Definition langevin_worker (fuel : nat) (d : draws N) (noise : nat -> v3 T * v3 T) (lc : lchain T)
    : res (list (list T)) :=
  let* lc := iterMi (fun k lc => lmetropolis_update N (dr_mc d k) lc) 0 (Z.to_nat 20000000) lc in
  let c := vars (base lc) in
  let tau_steps := ntou64 N (nround N (tau c / c_dt c)) in
  let* l0 := lchain_log N lc in
  let* '(_, l) := time_loop (fun lc => t (base lc)) (c_t c) (langevin_body noise tau_steps) fuel 0 lc in
  Ok (l0 ++ l).
Definition run_langevin (fuel : nat) (g : T) (rg : rng) (conf : config T) (f : fs T) : res (config T * fs T) :=
  let* _ := pool_new (threads conf) in
  let* f := foldM (fun i f =>
    let n := (i + Z.to_nat (offset conf))%nat in
    let* lc := lchain_new N conf g (dr_new (r_draws rg i)) in
    let f := append (log_name (c_file conf) n) [l_header] (create (log_name (c_file conf) n) f) in
    let* ls := langevin_worker fuel (r_draws rg i) (r_noise rg i) lc in
    Ok (append (log_name (c_file conf) n) (map numbers ls) f)) (range 0 (num_runs conf)) f in
  finish conf (num_runs conf) f.

(** ** Profiles: the messages for one snapshot of the chain, obs.rs:1206-1232 and 1661-1692 *)
Definition snapshot (sc : chain T) : res (list (pmsg N)) :=
  let L := as_usize (hsize (vars sc)) in
  mapM (fun i =>
    let* il := i_l L i in
    let* s_l := idx (spins sc) il in
    let* s_c := idx (spins sc) i in
    let* ir := i_r L i in
    let* s_r := idx (spins sc) ir in
    let* j_l := idx (j_couple sc) il in
    let* j_r := idx (j_couple sc) i in
    let sjs := for3 (fun k sjs =>
        let sjs := sjs - k s_l * k j_l * k s_c in
        sjs - k s_c * k j_r * k s_r) #0 in
    Ok (mkMsg i (sjs / #2) (vx s_c) (vy s_c) (vz s_c))) (range 0 L).

(** ** run_dyn_profile, obs.rs:1078-1259 *)
(** the cycle numbers of the eight checkpoints *)
Definition checkpoints : list Z := [500; 1000; 1500; 2000; 2500; 3000; 3500; 4000]%Z.
(** the first matching arm of the `match`, obs.rs:1157-1201 *)
Definition checkpoint (c : config T) (tm : T) : option Z :=
  find (fun z => nabs N (tm - nofZ N z * tau c) <! c_dt c / #5) checkpoints.
(** messages with the checkpoint they are sent to *)
Definition profile_body (k : nat) (sc : chain T) : res (chain T * list (Z * list (pmsg N))) :=
  let* sc := update N sc in
  match checkpoint (vars sc) (t sc) with
  | Some z => let* ms := snapshot sc in Ok (sc, [(z, ms)])
  | None => Ok (sc, [])
  end.
Definition profile_run (fuel : nat) (sc : chain T) : res (list (Z * list (pmsg N))) :=
  let* '(_, l) := time_loop t (c_t (vars sc)) profile_body fuel 0 sc in Ok l.
Definition profile_worker (fuel : nat) (d : draws N) (sc : chain T) : res (list (Z * list (pmsg N))) :=
  let* sc := thermalise (dr_mc d) 20000000 sc in profile_run fuel sc.
(** what a worker sends to the channel of checkpoint [z] *)
Definition sent_to (z : Z) (l : list (Z * list (pmsg N))) : list (pmsg N) :=
  flat_map (fun p => if (fst p =? z)%Z then snd p else []) l.
Definition profile_name (z : Z) : string := ("dyn_profile-" ++ dec (Z.to_nat z) ++ "-tau.dat")%string.

(** The senders kept by the main thread are alive while it joins the collecting threads. *)
Definition run_dyn_profile (fuel : nat) (rg : rng) (conf : config T) (f : fs T) : res (config T * fs T) :=
  let* _ := pool_new (threads conf) in
  let num := num_runs conf in
  let conf := set_ct conf (tau conf * #4000) in
  let f := fold_left (fun f z => create (profile_name z) f) checkpoints f in
  let* '(f, sent) := foldM (fun i fl =>
    let '(f, sent) := fl in
    let n := (i + Z.to_nat (offset conf))%nat in
    let* '(sc, f) := new_logged conf n (dr_new (r_draws rg i)) f in
    let* l := profile_worker fuel (r_draws rg i) sc in
    Ok (f, sent ++ [l])) (range 0 num) (f, []) in
  let* f := foldM (fun z f =>
    let* ls := profile_in_bg N (as_usize (hsize conf)) num true (r_msgs rg (map (sent_to z) sent)) in
    Ok (append (profile_name z) ls f)) checkpoints f in
  finish conf num f.

(** ** Monte-Carlo modes *)
(** [n] samples, each after [inner] sampler steps (the sample loop of Fit.v) *)
Definition mc_worker {A} (upd : mcdraw N -> chain T -> res (chain T)) (inner : Z) (obs : chain T -> res A)
    (d : draws N) (n : Z) (sc : chain T) : res (list A) :=
  sample_loop N upd obs (Z.to_nat inner) (dr_mc d) (Z.to_nat n) 0 sc.
(** the line of one sample, obs.rs:1572-1596 and 1763-1787 *)
Definition mc_line (sc : chain T) : res (line T) :=
  let* mm := m N sc in
  let* mt := m_tot N sc in
  let s := nofZ N (ssize (vars sc)) in
  let* e := total_energy2 N sc in
  let* es := mc_system_energy N sc in
  let* sm := idx (spins sc) (Z.to_nat (ntou64 N (s / #4))) in
  let* sp := idx (spins sc) (Z.to_nat (ntou64 N (#3 * s / #4))) in
  Ok (numbers [e; es; vx mm / s; vy mm / s; vz mm / s; vx sm; vy sm; vz sm; vx sp; vy sp; vz sp]).
(** one chain per thread (numbered from 0, whatever the offset), obs.rs:1555-1564 *)
Definition mc_frame {A} (worker : draws N -> Z -> chain T -> res A) (rg : rng) (conf : config T)
    (f : fs T) : res (list A * fs T) :=
  let* parts := mc_split (threads conf) (mc_points conf) in
  foldM (fun i lf =>
    let '(l, f) := lf in
    let* '(sc, f) := new_logged conf i (dr_new (r_draws rg i)) f in
    let* n := idx parts i in
    let* a := worker (r_draws rg i) n sc in
    Ok (l ++ [a], f)) (range 0 (List.length parts)) ([], f).
(** run_mc, obs.rs:1703-1792, and run_mc_magnus, 1512-1601 *)
Definition run_mc_with (upd : mcdraw N -> chain T -> res (chain T)) (rg : rng) (conf : config T)
    (f : fs T) : res (config T * fs T) :=
  let f := append "mc_live.dat" [] f in
  let* '(l, f) := mc_frame (mc_worker upd 1000000 mc_line) rg conf f in
  Ok (conf, append "mc_live.dat" (r_file rg l) f).
Definition run_mc := run_mc_with (metropolis_update N).
Definition run_mc_magnus := run_mc_with (metropolis_update_mag_full N).
(** run_mc_profile, obs.rs:1603-1701; the sender kept by the main thread is alive at the join *)
Definition run_mc_profile (rg : rng) (conf : config T) (f : fs T) : res (config T * fs T) :=
  let f := create "mc_profile.dat" f in
  let* '(l, f) := mc_frame (fun d n sc =>
      let* l := mc_worker (metropolis_update N) 1000000 snapshot d n sc in Ok (List.concat l)) rg conf f in
  let* ls := profile_in_bg N (as_usize (hsize conf)) (Z.to_nat (mc_points conf)) true (r_msgs rg l) in
  Ok (conf, append "mc_profile.dat" ls f).

(** ** run_tau, obs.rs:794-876: no offset is saved *)
Definition tau_dt (x : T) : T := if x <! #10 then x / #100 else nlit N 1 1.
Definition plain_body (k : nat) (sc : chain T) : res (chain T * list unit) :=
  let* sc := update N sc in Ok (sc, []).
Definition tau_worker (fuel : nat) (d : draws N) (sc : chain T) : res (list (list T) * line T) :=
  let* sc := thermalise (dr_mc d) 20000000 sc in
  let* l0 := chain_log N sc in
  let* '(sc, _) := time_loop t (c_t (vars sc)) plain_body fuel 0 sc in
  let* es := system_energy N sc in
  let* e := total_energy2 N sc in
  let* mm := m N sc in
  let s := nofZ N (ssize (vars sc)) in
  Ok (l0, numbers [tau (vars sc); t sc; e; es; vx mm / s; vy mm / s; vz mm / s]).
Definition run_tau (fuel : nat) (taus : list T) (steps : Z) (rg : rng) (conf : config T) (f : fs T)
    : res (config T * fs T) :=
  let* _ := pool_new (threads conf) in
  let name := ("evt" ++ dec (Z.to_nat steps) ++ ".dat")%string in
  let f := append name [] f in
  let* '(l, f) := foldM (fun i lf =>
    let '(l, f) := lf in
    let n := (i + Z.to_nat (offset conf))%nat in
    let* tau := idx taus i in
    let* '(sc, f) := new_logged conf n (dr_new (r_draws rg i)) f in
    let v := set_tau (vars sc) tau in
    let v := set_dt v (tau_dt tau) in
    let v := set_ct v (nofZ N steps * tau) in
    let* '(l0, o) := tau_worker fuel (r_draws rg i) (set_vars sc v) in
    Ok (l ++ [[o]], log_lines conf n l0 f)) (range 0 (List.length taus)) ([], f) in
  Ok (conf, append name (r_file rg l) f).

(** ** trajectory_mean_e, obs.rs:477-539 *)
(** step [cntr] of the dynamical loop; the samples sent *)
Definition traj_step (c cntr : Z) (sc : chain T) : res (chain T * list T) :=
  let* sc := update N sc in
  if (c =? 0)%Z then Panic DivByZero else
  if (cntr mod c =? 0)%Z then
    if (2 ^ 64 <=? 99 * c)%Z then Panic Overflow else
    if (99 * c <? cntr)%Z then let* e := system_energy N sc in Ok (sc, [e]) else Ok (sc, [])
  else Ok (sc, []).
Fixpoint traj_loop (c cntr : Z) (steps : nat) (sc : chain T) : res (list T) :=
  match steps with
  | O => Ok []
  | S n =>
      let* '(sc, l) := traj_step c cntr sc in
      let* l' := traj_loop c (cntr + 1)%Z n sc in
      Ok (l ++ l')
  end.
Definition traj_run (sc : chain T) : res (list T) :=
  let v := vars sc in
  traj_loop (ntou64 N (tau v / c_dt v)) 0 (Z.to_nat (ntou64 N (#1000 * tau v / c_dt v))) sc.
(** running_total / running_num over what was received *)
Definition traj_mean (l : list T) : T :=
  fold_left (fun a x => a + x) l #0 / fold_left (fun a _ => a + #1) l #0.
Definition trajectory_mean_e (rg : rng) (conf : config T) (f : fs T) : res (T * fs T) :=
  let* _ := pool_new (threads conf) in
  let* '(l, f) := foldM (fun i lf =>
    let '(l, f) := lf in
    let* '(sc, f) := new_logged conf 0 (dr_new (r_draws rg i)) f in
    let* sc := thermalise (dr_mc (r_draws rg i)) 20000000 sc in
    let* es := traj_run sc in
    Ok (l ++ [es], f)) (range 0 (num_runs conf)) ([], f) in
  Ok (traj_mean (r_nums rg l), f).

(** ** Histograms *)
(** `i mx my mz ed` / with two more spins, obs.rs:588-597, 443-459, 713-730 *)
Definition hist_head (first : T) (sc : chain T) : res (list T) :=
  let* mm := m N sc in
  let s := nofZ N (ssize (vars sc)) in
  let* ed := system_energy N sc in
  Ok [first; vx mm / s; vy mm / s; vz mm / s; ed].
Definition hist_line (i : nat) (sc : chain T) : res (line T) :=
  let* h := hist_head (nofZ N (Z.of_nat i)) sc in
  let s := nofZ N (ssize (vars sc)) in
  let* sm := idx (spins sc) (Z.to_nat (ntou64 N (s / #4))) in
  let* sp := idx (spins sc) (Z.to_nat (ntou64 N (#3 * s / #4))) in
  Ok (numbers (h ++ [vx sm; vy sm; vz sm; vx sp; vy sp; vz sp])).
(** `for i in 0..samples { steps; write line i }` *)
Fixpoint hist_loop (step : nat -> chain T -> res (chain T)) (i n : nat) (sc : chain T)
    : res (chain T * list (line T)) :=
  match n with
  | O => Ok (sc, [])
  | S n =>
      let* sc := step i sc in
      let* l := hist_line i sc in
      let* '(sc, r) := hist_loop step (Datatypes.S i) n sc in
      Ok (sc, l :: r)
  end.
Definition mc_steps (upd : mcdraw N -> chain T -> res (chain T)) (d : nat -> mcdraw N) (i : nat) (sc : chain T)
    : res (chain T) :=
  iterMi (fun k sc => upd (d k) sc) (i * Z.to_nat 10000) (Z.to_nat 10000) sc.

(** `conf.drive = none; conf.file = "x"`, obs.rs:413-414 and 676-677 *)
Definition set_hist_conf (c : config T) : config T :=
  let c := set_drive c Dnone in
  mkConfig (hsize c) (ssize c) (c_t c) (c_dt c) (runs c) (trel c) (threads c) (tau c) (lambda c)
    (hfield c) (hs c) (jvar c) (hvar c) (method c) (ednsty c) "x" (strob c) (offset c)
    (beta c) (mc_points c) (c_e c) (drive c) (c_log c).

(** gen_hist_magnus, obs.rs:412-475 *)
Definition gen_hist_magnus (samples : nat) (rg : rng) (conf : config T) (f : fs T) : res (config T * fs T) :=
  let conf := set_hist_conf conf in
  let* '(sc, f) := new_logged conf 0 (dr_new (r_draws rg 0)) f in
  let* '(_, ls) := hist_loop (mc_steps (metropolis_update_magnus N) (dr_mc (r_draws rg 0))) 0 samples sc in
  Ok (conf, append "hist_mc_magnus.dat" ls f).

(** the loop of gen_hist that waits for a typical state, obs.rs:744-766: another round while any of
    the four deviations is too large; [fuel] bounds the rounds *)
Definition not_typical (sc : chain T) : res bool :=
  let* e_obs := total_energy2 N sc in
  let* mt := m_tot N sc in
  let h := nofZ N (hsize (vars sc)) in
  let de := nabs N (e_obs - ednsty (vars sc)) in
  let eps := nlit N 5 3 in
  let eps_m := nlit N 3 3 in
  Ok ((eps <! de) || (eps_m <! nabs N (vx mt / h)) || (eps_m <! nabs N (vy mt / h)) || (eps_m <! nabs N (vz mt / h))).
Fixpoint wait_typical (d : nat -> mcdraw N) (fuel i : nat) (sc : chain T) : res (chain T) :=
  match fuel with
  | O => OutOfFuel
  | S fuel =>
      let* sc := mc_steps (metropolis_update N) d i sc in
      let* b := not_typical sc in
      if b then wait_typical d fuel (Datatypes.S i) sc else Ok sc
  end.
(** gen_hist, obs.rs:675-792 *)
Definition gen_hist (fuel samples : nat) (rg : rng) (conf : config T) (f : fs T) : res (config T * fs T) :=
  let conf := set_hist_conf conf in
  let d := dr_mc (r_draws rg 0) in
  let* '(sc, f) := new_logged conf 0 (dr_new (r_draws rg 0)) f in
  let f := append "hist_dyn.dat" [] (append "hist_mc.dat" [] f) in
  let* '(sc, ls) := hist_loop (mc_steps (metropolis_update N) d) 0 samples sc in
  let f := append "hist_mc.dat" ls f in
  let* sc := wait_typical d fuel samples sc in
  let* '(_, ls) := hist_loop (fun _ sc => iterM (update N) (Z.to_nat 10000) sc) 0 samples sc in
  Ok (conf, append "hist_dyn.dat" ls f).

(** gen_hist_dynamics, obs.rs:605-671 *)
Definition gen_hist_dynamics (samples : nat) (rg : rng) (conf : config T) (f : fs T) : res (config T * fs T) :=
  let name := ("dyn-hist-t-" ++ r_fmt rg (c_t conf) ++ ".dat")%string in
  let f := append name [] f in
  let steps := Z.to_nat (ntou64 N (c_t conf / c_dt conf)) in
  let* _ := pool_new (mc_threads (threads conf) (Z.of_nat samples)) in
  let* '(l, f) := foldM (fun i lf =>
    let '(l, f) := lf in
    let* '(sc, f) := new_logged conf 0 (dr_new (r_draws rg i)) f in
    let* sc := iterM (update N) steps sc in
    let* h := hist_head (nofZ N (Z.of_nat i)) sc in
    Ok (l ++ [[numbers h]], f)) (range 0 samples) ([], f) in
  Ok (conf, append name (r_file rg l) f).

(** gen_single_traj, obs.rs:541-602 *)
Definition traj_body (cycle : Z) (init : nat) (k : nat) (sc : chain T) : res (chain T * list (line T)) :=
  let* sc := update N sc in
  if (cycle =? 0)%Z then Panic DivByZero else
  if (Z.of_nat (init + Datatypes.S k) mod cycle =? 0)%Z
  then let* h := hist_head (t sc) sc in Ok (sc, [numbers h]) else Ok (sc, []).
Definition gen_single_traj (fuel samples : nat) (rg : rng) (conf : config T) (f : fs T) : res (config T * fs T) :=
  let name := ("hist-st-t-" ++ r_fmt rg (c_t conf) ++ ".dat")%string in
  let f := append name [] f in
  let final_t := (nofZ N (Z.of_nat samples) + #30) * tau conf in
  let* '(sc, f) := new_logged conf 0 (dr_new (r_draws rg 0)) f in
  let init := Z.to_nat (ntou64 N (#30 * tau conf / c_dt conf)) in
  let cycle := ntou64 N (tau conf / c_dt conf) in
  let* sc := iterM (update N) init sc in
  let* '(_, ls) := time_loop t final_t (traj_body cycle init) fuel 0 sc in
  Ok (conf, append name ls f).

End Runs.
