(** Transcription of the chain type and its methods, /repo/src/spinchain.rs.

    Conventions: `&mut self` methods return the new chain; the random draws are
    arguments; a write to the log file is returned as a list of lines, a line
    being the list of numbers printed (empty list = blank line); numbers are not
    turned into text. *)
From Coq Require Import ZArith List Arith Bool String.
From Verif Require Import Num Monad Spin Config.
Import ListNotations.

(** struct SpinChain, spinchain.rs:61-76.  The open log file handle is abstracted to
    whether there is one. *)
Record chain (T : Type) : Type := mkChain {
  j_couple : list (v3 T);
  static_h : list (v3 T);
  spins    : list (v3 T);
  t        : T;
  vars     : config T;
  has_file : bool
}.
Arguments mkChain {T}.
Arguments j_couple {T}. Arguments static_h {T}. Arguments spins {T}.
Arguments t {T}. Arguments vars {T}. Arguments has_file {T}.

Definition set_spins {T} (sc : chain T) (s : list (v3 T)) : chain T :=
  mkChain (j_couple sc) (static_h sc) s (t sc) (vars sc) (has_file sc).
Definition set_t {T} (sc : chain T) (x : T) : chain T :=
  mkChain (j_couple sc) (static_h sc) (spins sc) x (vars sc) (has_file sc).
Definition set_vars {T} (sc : chain T) (c : config T) : chain T :=
  mkChain (j_couple sc) (static_h sc) (spins sc) (t sc) c (has_file sc).
Definition chain_map {A B} (f : A -> B) (sc : chain A) : chain B :=
  mkChain (map (v3map f) (j_couple sc)) (map (v3map f) (static_h sc)) (map (v3map f) (spins sc))
          (f (t sc)) (config_map f (vars sc)) (has_file sc).

(** Neighbour indices with periodic wrap, as in `match index { .. }`
    (spinchain.rs:236-244, 308-333, 524-558): subtractions are on usize. *)
Definition i_l (s i : nat) : res nat := if i =? 0 then usub s 1 else Ok (i - 1)%nat.
Definition i_ll (s i : nat) : res nat :=
  if i =? 0 then usub s 2 else if i =? 1 then usub s 1 else Ok (i - 2)%nat.
Definition i_r (s i : nat) : res nat :=
  let* m := usub s 1 in if i =? m then Ok 0 else Ok (i + 1)%nat.
Definition i_rr (s i : nat) : res nat :=
  let* m2 := usub s 2 in
  if i =? m2 then Ok 0 else
  let* m1 := usub s 1 in
  if i =? m1 then Ok 1 else Ok (i + 2)%nat.

Section Chain.
Context (N : NumOps).
Notation T := (num N).
Notation "x + y" := (nadd N x y) : num_scope.
Notation "x - y" := (nsub N x y) : num_scope.
Notation "x * y" := (nmul N x y) : num_scope.
Notation "x / y" := (ndiv N x y) : num_scope.
Notation "- x" := (nopp N x) : num_scope.
Notation "# z" := (nofZ N z%Z) (at level 0, z at level 0) : num_scope.
Notation "x <! y" := (nltb N x y) (at level 70) : num_scope.
Local Open Scope num_scope.

(** Random draws of one sampler step: the site and three uniforms. *)
Record mcdraw : Type := mkDraw { d_idx : nat; d_u1 : T; d_u2 : T; d_u3 : T }.

(** Random draws of SpinChain::new: per site the three uniforms in the order they are
    drawn, and the standard normal variates of couplings and fields. *)
Record newdraw : Type := mkNewDraw {
  nd_u : nat -> T * T * T; nd_j : nat -> v3 T; nd_h : nat -> v3 T }.

(** solve_beta, spinchain.rs:107-116; the `while` loop with fuel *)
Fixpoint solve_beta_loop (fuel : nat) (e beta beta2 : T) : res T :=
  match fuel with
  | O => OutOfFuel
  | S fuel =>
      if nlit N 1 2 <! nabs N (beta - beta2)
      then solve_beta_loop fuel e (#1 / (e + #1 / ntanh N beta)) beta
      else Ok beta
  end.
Definition solve_beta (fuel : nat) (e : T) : res T := solve_beta_loop fuel e #20 #10.

(** rand_distr 0.4 `Normal::new(mean, std).unwrap()`: an error exactly when std is
    not finite; sampling gives mean + std * z (spinchain.rs:169, 182). *)
Definition normal_new (mean std : T) : res (T -> T) :=
  if nfinite N std then Ok (fun z => mean + std * z) else Panic Unwrap.

(** One iteration of the closure that draws the spins, spinchain.rs:141-165.
    State: (theta, phi). *)
Definition new_spin_step (beta_eff b_e b_ei : T) (u : T * T * T) (st : T * T)
  : res (v3 T * (T * T)) :=
  let '(u1, u2, u3) := u in
  let theta_perp := #2 * npi N * u1 in
  let phi_perp := nacos N (#1 - #2 * u2) in
  let rot_dir := mk3 (ncos N theta_perp * nsin N phi_perp)
                     (nsin N theta_perp * nsin N phi_perp)
                     (ncos N phi_perp) in
  let rot_angle := nacos N (nln N (b_e - u3 * (b_e - b_ei)) / beta_eff) in
  let n := rot_perp N st rot_dir rot_angle in
  let theta := fst n in
  let phi := snd n in
  let* s := new_xyz N [ncos N theta * nsin N phi; nsin N theta * nsin N phi; ncos N phi] in
  Ok (s, (theta, phi)).

Fixpoint new_spins (beta_eff b_e b_ei : T) (u : nat -> T * T * T) (k n : nat) (st : T * T)
  : res (list (v3 T)) :=
  match n with
  | O => Ok []
  | S n =>
      let* '(s, st') := new_spin_step beta_eff b_e b_ei (u k) st in
      let* rest := new_spins beta_eff b_e b_ei u (S k) n st' in
      Ok (s :: rest)
  end.

(** static field of site x, spinchain.rs:184-195 (x and ssize are i32) *)
Definition new_field (conf : config T) (h_normal : T -> T) (z : v3 T) (x : Z) : res (v3 T) :=
  if (x <? ssize conf)%Z then
    let* f0 := idx (hfield conf) 0 in let* s0 := idx (hs conf) 0 in
    let* f1 := idx (hfield conf) 1 in let* s1 := idx (hs conf) 1 in
    let* f2 := idx (hfield conf) 2 in let* s2 := idx (hs conf) 2 in
    Ok (mk3 (f0 + s0 + h_normal (vx z)) (f1 + s1 + h_normal (vy z)) (f2 + s2 + h_normal (vz z)))
  else
    let* f0 := idx (hfield conf) 0 in
    let* f1 := idx (hfield conf) 1 in
    let* f2 := idx (hfield conf) 2 in
    Ok (mk3 (f0 + h_normal (vx z)) (f1 + h_normal (vy z)) (f2 + h_normal (vz z))).

(** SpinChain::new, spinchain.rs:123-218.  The creation of the log file is the
    caller's business here (Runs.v); its failure is not modelled. *)
Definition chain_new (conf : config T) (d : newdraw) : res (chain T) :=
  let beta_eff := beta conf in
  let b_e := nexp N beta_eff in
  let b_ei := #1 / b_e in
  let theta0 := nlit N 1 2 in
  let phi0 := npi N / #2 in
  let* sp := new_spins beta_eff b_e b_ei (nd_u d) 0 (as_usize (hsize conf)) (theta0, phi0) in
  let* j_normal := normal_new #0 (jvar conf) in
  let js := map (fun x => mk3 (#1 + j_normal (vx (nd_j d x)))
                              (#1 + j_normal (vy (nd_j d x)))
                              (lambda conf + j_normal (vz (nd_j d x))))
                (seq 0 (Z.to_nat (hsize conf))) in
  let* h_normal := normal_new #0 (hvar conf) in
  let* hsts := mapM (fun x => new_field conf h_normal (nd_h d x) (Z.of_nat x))
                    (seq 0 (Z.to_nat (hsize conf))) in
  Ok (mkChain js hsts sp (- trel conf) conf (c_log conf)).

(** The proposed direction, e.g. spinchain.rs:477-479 *)
Definition propose (u1 u2 : T) : v3 T :=
  let theta := #2 * npi N * u1 in
  let phi := nacos N (#1 - #2 * u2) in
  new_from_angles N theta phi.

(** `if de < 0.0 || unif.sample(&mut rng) < (-self.vars.beta * de).exp() { assign }`,
    spinchain.rs:491-493.  (The third uniform is only drawn when it is needed.) *)
Definition accept (sc : chain T) (index : nat) (new_spin : v3 T) (de u : T) : res (chain T) :=
  if (de <! #0) || (u <! nexp N (- beta (vars sc) * de))
  then let* sp := set_idx (spins sc) index new_spin in Ok (set_spins sc sp)
  else Ok sc.

(** Energy change used by metropolis_update_maglab, spinchain.rs:252-274 *)
Definition de_maglab (om : T) (s_l s_r j_l j_r s_c new_spin : v3 T) : T :=
  let ei := for3 (fun k ei => ei - (k s_l * k j_l * k s_c + k s_r * k j_r * k s_c)) #0 in
  let ei := ei - vz s_c / (#2 * om) in
  let de := - ei in
  let de := for3 (fun k de => de - (k s_l * k j_l * k new_spin + k s_r * k j_r * k new_spin)) de in
  de - vz new_spin / (#2 * om).

(** metropolis_update_maglab, spinchain.rs:219-283 *)
Definition metropolis_update_maglab (d : mcdraw) (sc : chain T) : res (chain T) :=
  let s := as_usize (hsize (vars sc)) in
  let* index := gen_range s (d_idx d) in
  let om := #2 * npi N / tau (vars sc) in
  let* local_field := idx (static_h sc) index in
  let* s_c := idx (spins sc) index in
  let* il := i_l s index in
  let* s_l := idx (spins sc) il in
  let* ir := i_r s index in
  let* s_r := idx (spins sc) ir in
  let* j_l := idx (j_couple sc) il in
  let* j_r := idx (j_couple sc) index in
  let new_spin := propose (d_u1 d) (d_u2 d) in
  let de := de_maglab om s_l s_r j_l j_r s_c new_spin in
  accept sc index new_spin de (d_u3 d).

(** zxi_trip, spinchain.rs:433-435 *)
Definition zxi_trip (s_z s_x s_i : v3 T) : T := vz s_i * (vx s_z * vx s_x + vy s_z * vy s_x).

(** The Magnus correction sum with central spin [c], spinchain.rs:361-374; the block at
    401-418 is textually the same with new_spin for s_c, and so are 1540-1552 and 1640-1652. *)
Definition mg_add (mg : T) (s_ll s_l c s_r s_rr j_ll j_l j_r j_rr : v3 T) : T :=
  let mg := mg + ((vy j_r - vx j_r) * (vy j_r - vx j_r) * zxi_trip c c s_r) in
  let mg := mg + ((vy j_r - vx j_r) * (vy j_r - vx j_r) * zxi_trip s_r s_r c) in
  let mg := mg + ((vy j_l - vx j_l) * (vy j_l - vx j_l) * zxi_trip s_l s_l c) in
  let mg := mg + ((vy j_l - vx j_l) * (vy j_l - vx j_l) * zxi_trip c c s_l) in
  let mg := mg + ((vy j_l - vx j_l) * (vy j_r - vx j_r) * (zxi_trip s_r s_l c + zxi_trip s_l s_r c)) in
  let mg := mg + ((vy j_ll - vx j_ll) * (vy j_l - vx j_l) * (zxi_trip c s_ll s_l + zxi_trip s_ll c s_l)) in
  let mg := mg + ((vy j_r - vx j_r) * (vy j_rr - vx j_rr) * (zxi_trip s_rr c s_r + zxi_trip c s_rr s_r)) in
  mg.

(** The part of the energy of rot_magnus that contains the central spin,
    spinchain.rs:341-376 starting from accumulator [e0]; 383-420 is the same
    sequence of operations with new_spin for s_c (starting from -ei). *)
Definition e_rot (e0 om : T) (insub : bool) (s_ll s_l c s_r s_rr j_ll j_l j_r j_rr : v3 T) : T :=
  let ei := for2 (fun k ei => ei - (k s_l * nlit N 5 1 * (vx j_l + vy j_l) * k c
                                    + k s_r * nlit N 5 1 * (vx j_r + vy j_r) * k c)) e0 in
  let ei := ei - (vz s_l * vz j_l * vz c + vz s_r * vz j_r * vz c) in
  let ei := ei + vx c * (if insub then #1 else #0) in
  let ei := ei - om * vz c in
  let mg := mg_add #0 s_ll s_l c s_r s_rr j_ll j_l j_r j_rr in
  ei - mg / (#16 * om).

(** metropolis_update_rot_magnus, spinchain.rs:287-429 *)
Definition metropolis_update_rot_magnus (d : mcdraw) (sc : chain T) : res (chain T) :=
  let s := as_usize (hsize (vars sc)) in
  let ss := as_usize (ssize (vars sc)) in
  let* index := gen_range s (d_idx d) in
  let om := #2 * npi N / tau (vars sc) in
  let* local_field := idx (static_h sc) index in
  let* s_c := idx (spins sc) index in
  let* il := i_l s index in
  let* s_l := idx (spins sc) il in
  let* ill := i_ll s index in
  let* s_ll := idx (spins sc) ill in
  let* ir := i_r s index in
  let* s_r := idx (spins sc) ir in
  let* irr := i_rr s index in
  let* s_rr := idx (spins sc) irr in
  let* j_l := idx (j_couple sc) il in
  let* j_ll := idx (j_couple sc) ill in
  let* j_r := idx (j_couple sc) index in
  let* j_rr := idx (j_couple sc) ir in
  let ei := e_rot #0 om (index <? ss) s_ll s_l s_c s_r s_rr j_ll j_l j_r j_rr in
  let new_spin := propose (d_u1 d) (d_u2 d) in
  let de := e_rot (- ei) om (index <? ss) s_ll s_l new_spin s_r s_rr j_ll j_l j_r j_rr in
  accept sc index new_spin de (d_u3 d).

(** Energy change used by metropolis_update, spinchain.rs:470-474 and 481-485 *)
Definition de_plain (s_l s_r j_l j_r local_field s_c new_spin : v3 T) : T :=
  let ei := for3 (fun k ei =>
      let ei := ei - (k s_l * k j_l * k s_c + k s_r * k j_r * k s_c) in
      ei + k s_c * k local_field) #0 in
  for3 (fun k de =>
      let de := de - (k s_l * k j_l * k new_spin + k s_r * k j_r * k new_spin) in
      de + k new_spin * k local_field) (- ei).

(** metropolis_update, spinchain.rs:438-494 *)
Definition metropolis_update (d : mcdraw) (sc : chain T) : res (chain T) :=
  let s := as_usize (hsize (vars sc)) in
  let* index := gen_range s (d_idx d) in
  let* local_field := idx (static_h sc) index in
  let* s_c := idx (spins sc) index in
  let* il := i_l s index in
  let* s_l := idx (spins sc) il in
  let* ir := i_r s index in
  let* s_r := idx (spins sc) ir in
  let* j_l := idx (j_couple sc) il in
  let* j_r := idx (j_couple sc) index in
  let new_spin := propose (d_u1 d) (d_u2 d) in
  let de := de_plain s_l s_r j_l j_r local_field s_c new_spin in
  accept sc index new_spin de (d_u3 d).

(** The first-order part of mag_full, spinchain.rs:577-581; 752-758 is the same with
    new_spin for s_j *)
Definition mf_e1 (insub : bool) (s_jm1 c s_jp1 j_jm1 j_j : v3 T) : T :=
  if insub then
    let e1 := #0 - vz c / #2 in
    let e1 := e1 - (vz j_jm1 - vx j_jm1) * (vx s_jm1 * vz c + vz s_jm1 * vx c) in
    e1 - (vz j_j - vx j_j) * (vx s_jp1 * vz c + vz s_jp1 * vx c)
  else #0.

(** The second-order part of mag_full, spinchain.rs:583-730; the block 760-927 is textually
    the same with new_spin for s_j (checked mechanically).  Line 613 (794) multiplies by
    j_jm2*s_jm2 where the neighbouring lines have j_j*s_j: transcribed as written. *)
Definition mf_e2 (insub : bool) (s_jm2 s_jm1 c s_jp1 s_jp2 j_jm2 j_jm1 j_j j_jp1 : v3 T) : T :=
  if insub then
  let e2 := #0 in
  let e2 := e2 + (vx c / #2) in
  let e2 := e2 - (nlit N 5 1 * (vy j_jm1 * vz c * vz s_jm1 + vy j_j * vz c * vz s_jp1)) in
  let e2 := e2 - (nlit N 5 1 * (vz j_jm1 * vy c * vy s_jm1 + vz j_j * vy c * vy s_jp1)) in
  let e2 := e2 - (nlit N 15 1 * (vx j_jm1 * vz c * vz s_jm1 + vx j_j * vz c * vz s_jp1)) in
  let e2 := e2 - (nlit N 15 1 * (vz j_jm1 * vx c * vx s_jm1 + vz j_j * vx c * vx s_jp1)) in
  let e2 := e2 + ((vx j_jm1 * vx s_jm1 + vx j_j * vx s_jp1) * (vx c * (vx j_jm1 * vx s_jm1 + vx j_j * vx s_jp1) + vy c * (vy j_jm1 * vy s_jm1 + vy j_j * vy s_jp1) + vz c * (vz j_jm1 * vz s_jm1 + vz j_j * vz s_jp1))) in
  let e2 := e2 - (vx c * ((vx j_jm1 * vx s_jm1 + vx j_j * vx s_jp1) * (vx j_jm1 * vx s_jm1 + vx j_j * vx s_jp1) + (vy j_jm1 * vy s_jm1 + vy j_j * vy s_jp1) * (vy j_jm1 * vy s_jm1 + vy j_j * vy s_jp1) + (vz j_jm1 * vz s_jm1 + vz j_j * vz s_jp1) * (vz j_jm1 * vz s_jm1 + vz j_j * vz s_jp1))) in
  let e2 := e2 + ((vx j_j * vx c + vx j_jp1 * vx s_jp2) * (vx s_jp1 * (vx j_j * vx c + vx j_jp1 * vx s_jp2) + vy s_jp1 * (vy j_j * vy c + vy j_jp1 * vy s_jp2) + vz s_jp1 * (vz j_j * vz c + vz j_jp1 * vz s_jp2))) in
  let e2 := e2 - (vx s_jp1 * ((vx j_j * vx c + vx j_jp1 * vx s_jp2) * (vx j_jm2 * vx s_jm2 + vx j_jp1 * vx s_jp2) + (vy j_j * vy c + vy j_jp1 * vy s_jp2) * (vy j_j * vy c + vy j_jp1 * vy s_jp2) + (vz j_j * vz c + vz j_jp1 * vz s_jp2) * (vz j_j * vz c + vz j_jp1 * vz s_jp2))) in
  let e2 := e2 + ((vx j_jm2 * vx s_jm2 + vx j_jm1 * vx c) * (vx s_jm1 * (vx j_jm2 * vx s_jm2 + vx j_jm1 * vx c) + vy s_jm1 * (vy j_jm2 * vy s_jm2 + vy j_jm1 * vy c) + vz s_jm1 * (vz j_jm2 * vz s_jm2 + vz j_jm1 * vz c))) in
  let e2 := e2 - (vx s_jm1 * ((vx j_jm2 * vx s_jm2 + vx j_jm1 * vx c) * (vx j_jm2 * vx s_jm2 + vx j_jm1 * vx c) + (vy j_jm2 * vy s_jm2 + vy j_jm1 * vy c) * (vy j_jm2 * vy s_jm2 + vy j_jm1 * vy c) + (vz j_jm2 * vz s_jm2 + vz j_jm1 * vz c) * (vz j_jm2 * vz s_jm2 + vz j_jm1 * vz c))) in
  let e2 := e2 + ((vz j_jm2 * vz s_jm2 * vx s_jm1 - vx j_jm2 * vx s_jm2 * vz s_jm1) * vy j_jm1 * vz c) in
  let e2 := e2 - ((vx j_jm2 * vx s_jm2 * vy s_jm1 - vy j_jm2 * vy s_jm2 * vx s_jm1) * vz j_jm1 * vy c) in
  let e2 := e2 + ((vz j_jm1 * vz c * vx s_jm1 - vx j_jm1 * vx c * vz s_jm1) * vy j_jm1 * vz c) in
  let e2 := e2 - ((vx j_jm1 * vx c * vy s_jm1 - vy j_jm1 * vy c * vx s_jm1) * vz j_jm1 * vy c) in
  let e2 := e2 + ((vz j_jm1 * vz s_jm1 * vx c - vx j_jm1 * vx s_jm1 * vz c) * vy j_j * vz s_jp1) in
  let e2 := e2 - ((vx j_jm1 * vx s_jm1 * vy c - vy j_jm1 * vy s_jm1 * vx c) * vz j_j * vy s_jp1) in
  let e2 := e2 + ((vz j_j * vz s_jp1 * vx c - vx j_j * vx s_jp1 * vz c) * vy j_j * vz s_jp1) in
  let e2 := e2 - ((vx j_j * vx s_jp1 * vy c - vy j_j * vy s_jp1 * vx c) * vz j_j * vy s_jp1) in
  let e2 := e2 + ((vz j_j * vz c * vx s_jp1 - vx j_j * vx c * vz s_jp1) * vy j_jp1 * vz s_jp2) in
  let e2 := e2 - ((vx j_j * vx c * vy s_jp1 - vy j_j * vy c * vx s_jp1) * vz j_jp1 * vy s_jp2) in
  let e2 := e2 + ((vz j_jp1 * vz s_jp2 * vx s_jp1 - vx j_jp1 * vx s_jp2 * vz s_jp1) * vy j_jp1 * vz s_jp2) in
  let e2 := e2 - ((vx j_jp1 * vx s_jp2 * vy s_jp1 - vy j_jp1 * vy s_jp2 * vx s_jp1) * vz j_jp1 * vy s_jp2) in
  let e2 := e2 + ((vz j_j * vz c * vx s_jp1 - vx j_j * vx c * vz s_jp1) * vy j_j * vz c) in
  let e2 := e2 - ((vx j_j * vx c * vy s_jp1 - vy j_j * vy c * vx s_jp1) * vz j_j * vy c) in
  let e2 := e2 + ((vz j_jp1 * vz s_jp2 * vx s_jp1 - vx j_jp1 * vx s_jp2 * vz s_jp1) * vy j_j * vz c) in
  let e2 := e2 - ((vx j_jp1 * vx s_jp2 * vy s_jp1 - vy j_jp1 * vy s_jp2 * vx s_jp1) * vz j_j * vy c) in
  let e2 := e2 + ((vz j_jm1 * vz s_jm1 * vx c - vx j_jm1 * vx s_jm1 * vz c) * vy j_jm1 * vz s_jm1) in
  let e2 := e2 - ((vx j_jm1 * vx s_jm1 * vy c - vy j_jm1 * vy s_jm1 * vx c) * vz j_jm1 * vy s_jm1) in
  let e2 := e2 + ((vz j_j * vz s_jp1 * vx c - vx j_j * vx s_jp1 * vz c) * vy j_jm1 * vz s_jm1) in
  let e2 := e2 - ((vx j_j * vx s_jp1 * vy c - vy j_j * vy s_jp1 * vx c) * vz j_jm1 * vy s_jm1) in
  let e2 := e2 + ((vz j_jm2 * vz s_jm2 * vx s_jm1 - vx j_jm2 * vx s_jm2 * vz s_jm1) * vy j_jm2 * vz s_jm2) in
  let e2 := e2 - ((vx j_jm2 * vx s_jm2 * vy s_jm1 - vy j_jm2 * vy s_jm2 * vx s_jm1) * vz j_jm2 * vy s_jm2) in
  let e2 := e2 + ((vz j_jm1 * vz c * vx s_jm1 - vx j_jm1 * vx c * vz s_jm1) * vy j_jm2 * vz s_jm2) in
  let e2 := e2 - ((vx j_jm1 * vx c * vy s_jm1 - vy j_jm1 * vy c * vx s_jm1) * vz j_jm2 * vy s_jm2) in
  e2
  else #0.

(** Energy change used by metropolis_update_mag_full, spinchain.rs:562-572, 732, 740-750, 930 *)
Definition de_mag_full (om : T) (insub : bool)
    (s_jm2 s_jm1 s_j s_jp1 s_jp2 j_jm2 j_jm1 j_j j_jp1 new_spin : v3 T) : T :=
  let ei0 := for3 (fun k ei0 =>
      let ei0 := ei0 - k s_jm1 * k j_jm1 * k s_j in
      ei0 - k s_j * k j_j * k s_jp1) #0 in
  let ei1 := mf_e1 insub s_jm1 s_j s_jp1 j_jm1 j_j in
  let ei2 := mf_e2 insub s_jm2 s_jm1 s_j s_jp1 s_jp2 j_jm2 j_jm1 j_j j_jp1 in
  let ei := ei0 + ei1 / om + ei2 / (om * om) in
  let de := - ei in
  let de0 := for3 (fun k de0 =>
      de0 - (k s_jm1 * k j_jm1 * k new_spin + k new_spin * k j_j * k s_jp1)) #0 in
  let de1 := mf_e1 insub s_jm1 new_spin s_jp1 j_jm1 j_j in
  let de2 := mf_e2 insub s_jm2 s_jm1 new_spin s_jp1 s_jp2 j_jm2 j_jm1 j_j j_jp1 in
  de + (de0 + de1 / om + de2 / (om * om)).

(** metropolis_update_mag_full, spinchain.rs:506-937 *)
Definition metropolis_update_mag_full (d : mcdraw) (sc : chain T) : res (chain T) :=
  let s := as_usize (hsize (vars sc)) in
  let* index := gen_range s (d_idx d) in
  let om := #2 * npi N / tau (vars sc) in
  let* local_field := idx (static_h sc) index in
  let* s_j := idx (spins sc) index in
  let* ijm1 := i_l s index in
  let* s_jm1 := idx (spins sc) ijm1 in
  let* ijp1 := i_r s index in
  let* s_jp1 := idx (spins sc) ijp1 in
  let* ijp2 := i_rr s index in
  let* s_jp2 := idx (spins sc) ijp2 in
  let* ijm2 := i_ll s index in
  let* s_jm2 := idx (spins sc) ijm2 in
  let* j_jm1 := idx (j_couple sc) ijm1 in
  let* j_jp1 := idx (j_couple sc) ijp1 in
  let* j_jm2 := idx (j_couple sc) ijm2 in
  let* j_j := idx (j_couple sc) index in
  let insub := index <? as_usize (ssize (vars sc)) in
  let new_spin := propose (d_u1 d) (d_u2 d) in
  let de := de_mag_full om insub s_jm2 s_jm1 s_j s_jp1 s_jp2 j_jm2 j_jm1 j_j j_jp1 new_spin in
  accept sc index new_spin de (d_u3 d).

(** The bracket multiplying PI/tau in metropolis_update_magnus, spinchain.rs:1004-1023 and
    1040-1061.  [z0] is the linear term (`s_j.dir[2]` in BOTH places: line 1040 uses the old
    spin), [c] the central spin elsewhere. *)
Definition magnus_bracket (first last : bool) (z0 : T)
    (s_jm2 s_jm1 c s_jp1 s_jp2 j_jm2 j_jm1 j_j j_jp1 : v3 T) : T :=
  z0 + #2 *
    ((vz j_j * vz s_jp1 + vz j_jm1 * vz s_jm1) * vx c
     - (vx j_j * vx s_jp1 + vx j_jm1 * vx s_jm1) * vz c
     + (if first then #0
        else (vz j_jm1 * vz c + vz j_jm2 * vz s_jm2) * vx s_jm1
             - (vx j_jm1 * vx c + vx j_jm2 * vx s_jm2) * vz s_jm1)
     + (if last then #0
        else (vz j_jp1 * vz s_jp2 + vz j_j * vz c) * vx s_jp1
             - (vx j_jp1 * vx s_jp2 + vx j_j * vx c) * vz s_jp1)).

(** Energy change used by metropolis_update_magnus, spinchain.rs:991-1024, 1031-1062 *)
Definition de_magnus (tau : T) (insub first last : bool)
    (s_jm2 s_jm1 s_j s_jp1 s_jp2 j_jm2 j_jm1 j_j j_jp1 new_spin : v3 T) : T :=
  let ei := for3 (fun k ei => ei - (k s_jm1 * k j_jm1 * k s_j + k s_j * k j_j * k s_jp1)) #0 in
  let ei := if insub
    then ei - npi N / tau * magnus_bracket first last (vz s_j) s_jm2 s_jm1 s_j s_jp1 s_jp2
                                           j_jm2 j_jm1 j_j j_jp1
    else ei in
  let de := - ei in
  let de := for3 (fun k de =>
      de - (k s_jm1 * k j_jm1 * k new_spin + k new_spin * k j_j * k s_jp1)) de in
  if insub
  then de - npi N / tau * magnus_bracket first last (vz s_j) s_jm2 s_jm1 new_spin s_jp1 s_jp2
                                         j_jm2 j_jm1 j_j j_jp1
  else de.

(** metropolis_update_magnus, spinchain.rs:939-1069.  `self.vars.ssize - 1` (i32) cannot
    overflow because it is evaluated only when index < ssize as usize; for negative ssize
    see as_usize. *)
Definition metropolis_update_magnus (d : mcdraw) (sc : chain T) : res (chain T) :=
  let s := as_usize (hsize (vars sc)) in
  let* index := gen_range s (d_idx d) in
  let* local_field := idx (static_h sc) index in
  let* s_j := idx (spins sc) index in
  let* ijm1 := i_l s index in
  let* s_jm1 := idx (spins sc) ijm1 in
  let* ijp1 := i_r s index in
  let* s_jp1 := idx (spins sc) ijp1 in
  let* ijp2 := i_rr s index in
  let* s_jp2 := idx (spins sc) ijp2 in
  let* ijm2 := i_ll s index in
  let* s_jm2 := idx (spins sc) ijm2 in
  let* j_jm1 := idx (j_couple sc) ijm1 in
  let* j_jp1 := idx (j_couple sc) ijp1 in
  let* j_jm2 := idx (j_couple sc) ijm2 in
  let* j_j := idx (j_couple sc) index in
  let new_spin := propose (d_u1 d) (d_u2 d) in
  let de := de_magnus (tau (vars sc)) (index <? as_usize (ssize (vars sc)))
              (index =? 0) (index =? as_usize (ssize (vars sc) - 1)%Z)
              s_jm2 s_jm1 s_j s_jp1 s_jp2 j_jm2 j_jm1 j_j j_jp1 new_spin in
  accept sc index new_spin de (d_u3 d).

(** h_ext, spinchain.rs:1712-1740 *)
Definition h_ext (c : config T) (tm : T) : res (v3 T) :=
  match drive c with
  | Dxyplane =>
      let phi := #2 * npi N * tm / tau c in
      Ok (mk3 (ncos N phi) (nsin N phi) #0)
  | Duniaxial =>
      let phi := #2 * npi N * tm / tau c in
      Ok (mk3 (ncos N phi) #0 #0)
  | Dxyelliptic =>
      let phi := #2 * npi N * tm / tau c in
      Ok (mk3 (ncos N phi) (c_e c * nsin N phi) #0)
  | Dstaticfield =>
      let* a := idx (hs c) 0 in let* b := idx (hs c) 1 in let* d := idx (hs c) 2 in
      Ok (mk3 a b d)
  | Dnone => Ok (mk3 #0 #0 #0)
  end.

(** h_extp, spinchain.rs:1385-1412 *)
Definition h_extp (c : config T) (tm : T) : v3 T :=
  match drive c with
  | Dxyplane =>
      let phi := #2 * npi N * tm / tau c in
      mk3 (- nsin N phi) (ncos N phi) #0
  | Duniaxial =>
      let phi := #2 * npi N * tm / tau c in
      mk3 (- nsin N phi) #0 #0
  | Dxyelliptic =>
      let phi := #2 * npi N * tm / tau c in
      mk3 (- nsin N phi) (c_e c * ncos N phi) #0
  | Dstaticfield => mk3 #0 #0 #0
  | Dnone => mk3 #0 #0 #0
  end.

(** sum_vec, spinchain.rs:1345-1347 *)
Definition sum_vec (a b : v3 T) : v3 T := mk3 (vx a + vx b) (vy a + vy b) (vz a + vz b).

(** j_s, spinchain.rs:1742-1744 *)
Definition j_s (j s : v3 T) : v3 T := mk3 (vx j * vx s) (vy j * vy s) (vz j * vz s).

(** ssh_sum, spinchain.rs:1817-1825 *)
Definition ssh_sum (l r h : v3 T) : v3 T :=
  mk3 (vx l + vx r - vx h) (vy l + vy r - vy h) (vz l + vz r - vz h).

(** sjs_energy, spinchain.rs:1243-1252 *)
Definition sjs_energy (s1 s2 j : v3 T) : T := for3 (fun k sjs => sjs + k s1 * k j * k s2) #0.

(** sh_energy, spinchain.rs:1256-1262 *)
Definition sh_energy (s field : v3 T) : T := for3 (fun k sh => sh + k s * k field) #0.

(** body `e -= s1 J s2; e += s1 h` over k, e.g. spinchain.rs:1281-1284 *)
Definition bond_field (e : T) (s1 j s2 h : v3 T) : T :=
  for3 (fun k e => let e := e - k s1 * k j * k s2 in e + k s1 * k h) e.

(** total_energy2, spinchain.rs:1264-1293 *)
Definition total_energy2 (sc : chain T) : res T :=
  let l := as_usize (hsize (vars sc)) in
  let* h_e := h_ext (vars sc) (t sc) in
  let* hf := mapM (fun x => let* st := idx (static_h sc) x in
                            Ok (if x <? as_usize (ssize (vars sc)) then sum_vec st h_e else st))
                  (range 0 l) in
  let* lm1 := usub l 1 in
  let* e := foldM (fun j e =>
      let* s1 := idx (spins sc) j in
      let* jj := idx (j_couple sc) j in
      let* s2 := idx (spins sc) (j + 1)%nat in
      let* h := idx hf j in
      Ok (bond_field e s1 jj s2 h)) (range 0 lm1) #0 in
  let* s1 := idx (spins sc) lm1 in
  let* jj := idx (j_couple sc) lm1 in
  let* s2 := idx (spins sc) 0 in
  let* h := idx hf lm1 in
  let e := bond_field e s1 jj s2 h in
  Ok (e / nofZ N (hsize (vars sc))).

(** total_energy, spinchain.rs:1297-1342 *)
Definition total_energy (sc : chain T) : res T :=
  let s := as_usize (hsize (vars sc)) in
  let ss := as_usize (ssize (vars sc)) in
  let* sm1 := usub s 1 in
  let* sjs := foldM (fun i sjs =>
      let* s1 := idx (spins sc) i in
      let* s2 := idx (spins sc) (i + 1)%nat in
      let* j := idx (j_couple sc) i in
      Ok (sjs - sjs_energy s1 s2 j)) (range 0 sm1) #0 in
  let* s1 := idx (spins sc) sm1 in
  let* s2 := idx (spins sc) 0 in
  let* j := idx (j_couple sc) sm1 in
  let sjs := sjs - sjs_energy s1 s2 j in
  let* sh := foldM (fun i sh =>
      let* s1 := idx (spins sc) i in
      let* h := idx (static_h sc) i in
      Ok (sh + sh_energy s1 h)) (range 0 s) #0 in
  let* h_e := h_ext (vars sc) (t sc) in
  let* sh := foldM (fun i sh =>
      let* s1 := idx (spins sc) i in
      Ok (sh + sh_energy s1 h_e)) (range 0 ss) sh in
  Ok ((sjs + sh) / nofZ N (Z.of_nat s)).

(** m and m_tot, spinchain.rs:1687-1709 *)
Definition sum_spins (l : list (v3 T)) : v3 T := fold_left (fun acc x => sum_vec acc x) l (mk3 #0 #0 #0).
Definition m (sc : chain T) : res (v3 T) :=
  let* l := slice_to (as_usize (ssize (vars sc))) (spins sc) in Ok (sum_spins l).
Definition m_tot (sc : chain T) : res (v3 T) :=
  let* l := slice_to (as_usize (hsize (vars sc))) (spins sc) in Ok (sum_spins l).

(** macros sq! and dot!, spinchain.rs:31-50 *)
Definition msq (v : v3 T) : T := #0 + fold_left (fun acc i => acc + i * i) (arr N v) #0.
Definition mdot (a b : v3 T) : T :=
  #1 * vx a * vx b + #1 * vy a * vy b + #1 * vz a * vz b.

(** boundary_term, spinchain.rs:1350-1382 *)
Definition boundary_term (sc : chain T) : res T :=
  let ell := as_usize (ssize (vars sc)) in
  let* s1 := idx (spins sc) 0 in
  let s1sq := msq s1 in
  let* em1 := usub ell 1 in
  let* sl := idx (spins sc) em1 in
  let slsq := msq sl in
  let* h_el := idx (static_h sc) 0 in
  let* h_er := idx (static_h sc) em1 in
  let* j0 := idx (j_couple sc) 0 in
  let* s2 := idx (spins sc) 1 in
  let om_1 := mk3 (vx j0 * vx s2 - vx h_el) (vy j0 * vy s2 - vy h_el) (vz j0 * vz s2 - vz h_el) in
  let om_1_sq := msq om_1 in
  let oms1 := mdot om_1 s1 in
  let* em2 := usub ell 2 in
  let* jl := idx (j_couple sc) em2 in
  let* slm := idx (spins sc) em2 in
  let om_ell := mk3 (vx jl * vx slm - vx h_er) (vy jl * vy slm - vy h_er) (vz jl * vz slm - vz h_er) in
  let om_ell_sq := msq om_ell in
  let omsell := mdot om_ell sl in
  let* _ := m sc in
  Ok (#2 / beta (vars sc) * (oms1 + omsell)
      - (s1sq * om_1_sq - oms1 * oms1 + slsq * om_ell_sq - omsell * omsell)).

(** system_energy, spinchain.rs:1415-1439 *)
Definition system_energy (sc : chain T) : res T :=
  let s := as_usize (ssize (vars sc)) in
  let* h_e := h_ext (vars sc) (t sc) in
  let* h := mapM (fun x => let* st := idx (static_h sc) x in Ok (sum_vec st h_e)) (range 0 s) in
  let* sm1 := usub s 1 in
  let* e := foldM (fun i e =>
      let* s1 := idx (spins sc) i in
      let* j := idx (j_couple sc) i in
      let* s2 := idx (spins sc) (i + 1)%nat in
      let* hi := idx h i in
      Ok (bond_field e s1 j s2 hi)) (range 0 sm1) #0 in
  Ok (e / nofZ N (Z.of_nat sm1)).

(** The periodic energy loop shared (textually) by mc_total_energy, spinchain.rs:1441-1465 with
    s = hsize, and mc_system_energy, spinchain.rs:1660-1684 with s = ssize. *)
Definition mc_ring_energy (sc : chain T) (s : nat) : res T :=
  let* sm1 := usub s 1 in
  let* e := foldM (fun i e =>
      let* s1 := idx (spins sc) i in
      let* j := idx (j_couple sc) i in
      let* s2 := idx (spins sc) (i + 1)%nat in
      let* h := idx (static_h sc) i in
      Ok (bond_field e s1 j s2 h)) (range 0 sm1) #0 in
  let* s1 := idx (spins sc) sm1 in
  let* j := idx (j_couple sc) sm1 in
  let* s2 := idx (spins sc) 0 in
  let* h := idx (static_h sc) sm1 in
  Ok (bond_field e s1 j s2 h / nofZ N (Z.of_nat s)).
Definition mc_total_energy (sc : chain T) : res T :=
  mc_ring_energy sc (as_usize (hsize (vars sc))).
Definition mc_system_energy (sc : chain T) : res T :=
  mc_ring_energy sc (as_usize (ssize (vars sc))).

(** One iteration of the correction loop, spinchain.rs:1501-1553 (and 1601-1653) *)
Definition mg_loop (sc : chain T) (h index : nat) (mg : T) : res T :=
  let* s_c := idx (spins sc) index in
  let* il := i_l h index in
  let* s_l := idx (spins sc) il in
  let* ill := i_ll h index in
  let* s_ll := idx (spins sc) ill in
  let* ir := i_r h index in
  let* s_r := idx (spins sc) ir in
  let* irr := i_rr h index in
  let* s_rr := idx (spins sc) irr in
  let* j_l := idx (j_couple sc) il in
  let* j_ll := idx (j_couple sc) ill in
  let* j_r := idx (j_couple sc) index in
  let* j_rr := idx (j_couple sc) ir in
  Ok (mg_add mg s_ll s_l s_c s_r s_rr j_ll j_l j_r j_rr).

(** mc_system_energy_maglab, spinchain.rs:1466-1558 *)
Definition mc_system_energy_maglab (sc : chain T) : res T :=
  let h := as_usize (hsize (vars sc)) in
  let om := #2 * npi N / tau (vars sc) in
  let* hm1 := usub h 1 in
  let* e := foldM (fun i e =>
      let* s1 := idx (spins sc) i in
      let* j := idx (j_couple sc) i in
      let* s2 := idx (spins sc) (i + 1)%nat in
      Ok (for3 (fun k e => e - k s1 * k j * k s2) e)) (range 0 hm1) #0 in
  let* s1 := idx (spins sc) hm1 in
  let* j := idx (j_couple sc) hm1 in
  let* s2 := idx (spins sc) 0 in
  let e := for3 (fun k e => e - k s1 * k j * k s2) e in
  let* e := foldM (fun i e =>
      let* s1 := idx (spins sc) i in
      Ok (e + (- vz s1) / (#2 * om))) (range 0 h) e in
  let* mg := foldM (mg_loop sc h) (range 0 h) #0 in
  let e := e - mg / (#16 * om) in
  Ok (e / nofZ N (Z.of_nat h)).

(** body of the rotating-frame bond loop, spinchain.rs:1575-1581 and 1583-1589 *)
Definition rot_bond (e : T) (s1 j s2 : v3 T) : T :=
  let e := for2 (fun k e => e - k s1 * nlit N 5 1 * (vx j + vy j) * k s2) e in
  e - vz s1 * vz j * vz s2.

(** mc_system_energy_rot, spinchain.rs:1560-1658 *)
Definition mc_system_energy_rot (sc : chain T) : res T :=
  let s := as_usize (ssize (vars sc)) in
  let h := as_usize (hsize (vars sc)) in
  let om := #2 * npi N / tau (vars sc) in
  let* hm1 := usub h 1 in
  let* e := foldM (fun i e =>
      let* s1 := idx (spins sc) i in
      let* j := idx (j_couple sc) i in
      let* s2 := idx (spins sc) (i + 1)%nat in
      Ok (rot_bond e s1 j s2)) (range 0 hm1) #0 in
  let* s1 := idx (spins sc) hm1 in
  let* j := idx (j_couple sc) hm1 in
  let* s2 := idx (spins sc) 0 in
  let e := rot_bond e s1 j s2 in
  let* e := foldM (fun i e => let* s1 := idx (spins sc) i in Ok (e + vx s1)) (range 0 s) e in
  let* e := foldM (fun i e => let* s1 := idx (spins sc) i in Ok (e + (- om) * vz s1)) (range 0 h) e in
  let* mg := foldM (mg_loop sc h) (range 0 h) #0 in
  let e := e - mg / (#16 * om) in
  Ok (e / nofZ N (Z.of_nat h)).

(** even_omega, spinchain.rs:1829-1849 *)
Definition even_omega (sp js h : list (v3 T)) : res (list (v3 T)) :=
  let l := (Datatypes.length sp / 2)%nat in
  let* k := usub (2 * l) 1 in
  let* jl := idx js k in
  let* sl := idx sp k in
  let* j0 := idx js 0 in
  let* s1 := idx sp 1 in
  let* h0 := idx h 0 in
  let first := ssh_sum (j_s jl sl) (j_s j0 s1) h0 in
  let* rest := mapM (fun n =>
      let* jl := idx js (2 * n - 1)%nat in
      let* sl := idx sp (2 * n - 1)%nat in
      let* jr := idx js (2 * n)%nat in
      let* sr := idx sp (2 * n + 1)%nat in
      let* hn := idx h (2 * n)%nat in
      Ok (ssh_sum (j_s jl sl) (j_s jr sr) hn)) (range 1 l) in
  Ok (first :: rest).

(** odd_omega, spinchain.rs:1850-1870 *)
Definition odd_omega (sp js h : list (v3 T)) : res (list (v3 T)) :=
  let l := (Datatypes.length sp / 2)%nat in
  let* lm1 := usub l 1 in
  let* rest := mapM (fun n =>
      let* jl := idx js (2 * n)%nat in
      let* sl := idx sp (2 * n)%nat in
      let* jr := idx js (2 * n + 1)%nat in
      let* sr := idx sp (2 * n + 2)%nat in
      let* hn := idx h (2 * n + 1)%nat in
      Ok (ssh_sum (j_s jl sl) (j_s jr sr) hn)) (range 0 lm1) in
  let* jl := idx js (2 * lm1)%nat in
  let* sl := idx sp (2 * lm1)%nat in
  let* jr := idx js (2 * lm1 + 1)%nat in
  let* sr := idx sp 0 in
  let* hn := idx h (2 * lm1 + 1)%nat in
  Ok (rest ++ [ssh_sum (j_s jl sl) (j_s jr sr) hn]).

(** rotate_even / rotate_odd, spinchain.rs:1802-1815; [b] = 0 or 1 *)
Fixpoint rotate_sub (b i : nat) (field : list (v3 T)) (dt : T) (sp : list (v3 T))
  : res (list (v3 T)) :=
  match field with
  | [] => Ok sp
  | item :: rest =>
      let* s := idx sp (2 * i + b)%nat in
      let* sp' := set_idx sp (2 * i + b)%nat (rotate N s item dt) in
      rotate_sub b (S i) rest dt sp'
  end.

(** The three Suzuki-Trotter stages, spinchain.rs:1793-1795 (and 1766-1768) *)
Definition trotter (js h : list (v3 T)) (dt : T) (sp : list (v3 T)) : res (list (v3 T)) :=
  let* om := even_omega sp js h in
  let* sp := rotate_sub 0 0 om (dt / #2) sp in
  let* om := odd_omega sp js h in
  let* sp := rotate_sub 1 0 om dt sp in
  let* om := even_omega sp js h in
  rotate_sub 0 0 om (dt / #2) sp.

Fixpoint mapi {A B} (f : nat -> A -> B) (k : nat) (l : list A) : list B :=
  match l with
  | [] => []
  | a :: r => f k a :: mapi f (S k) r
  end.

(** update, spinchain.rs:1774-1798 *)
Definition update (sc : chain T) : res (chain T) :=
  let dt := c_dt (vars sc) in
  let* he := h_ext (vars sc) (t sc + dt / #2) in
  let s := as_usize (ssize (vars sc)) in
  let h := mapi (fun i item => if i <? s then sum_vec item he else item) 0 (static_h sc) in
  let* sp := trotter (j_couple sc) h dt (spins sc) in
  Ok (mkChain (j_couple sc) (static_h sc) sp (t sc + dt) (vars sc) (has_file sc)).

(** update_no_field, spinchain.rs:1747-1771 *)
Definition update_no_field (sc : chain T) : res (chain T) :=
  let dt := c_dt (vars sc) in
  let* he := h_ext (vars sc) (t sc + dt / #2) in
  let s := as_usize (ssize (vars sc)) in
  let h := mapi (fun i item => if i <? s then he else mk3 #0 #0 #0) 0 (static_h sc) in
  let* sp := trotter (j_couple sc) h dt (spins sc) in
  Ok (mkChain (j_couple sc) (static_h sc) sp (t sc + dt) (vars sc) (has_file sc)).

(** rustfft `process` on a buffer of the planned length; other buffer lengths panic here (rustfft
    also accepts multiples of the planned length, which cannot arise from SpinChain::new). *)
Definition fft_process (l : nat) (buf : list T) : res (list (T * T)) :=
  if Datatypes.length buf =? l then Ok (map (nfft N buf) (seq 0 l)) else Panic Explicit.

(** power of the three components, spinchain.rs:1198-1203 *)
Definition power (x y z : T * T) : T :=
  fst x * fst x + snd x * snd x + fst y * fst y + snd y * snd y + fst z * fst z + snd z * snd z.

(** energy_spectrum, spinchain.rs:1155-1217 *)
Definition energy_spectrum (sc : chain T) : res (list T) :=
  let l := as_usize (hsize (vars sc)) in
  let* xb := fft_process l (map vx (spins sc)) in
  let* yb := fft_process l (map vy (spins sc)) in
  let* zb := fft_process l (map vz (spins sc)) in
  let* ek := foldM (fun i ek =>
      let* x := idx xb i in let* y := idx yb i in let* z := idx zb i in
      set_idx ek (i - l / 2)%nat (power x y z)) (range (l / 2)%nat l) (repeat #0 l) in
  foldM (fun i ek =>
      let* x := idx xb i in let* y := idx yb i in let* z := idx zb i in
      set_idx ek (i + l / 2)%nat (power x y z)) (range 0 (l / 2)%nat) ek.

(** log_fft, spinchain.rs:1219-1240: only computes the spectrum and drops it *)
Definition log_fft (sc : chain T) : res unit := let* _ := energy_spectrum sc in Ok tt.

(** log, spinchain.rs:1112-1151: the lines written *)
Definition chain_log (sc : chain T) : res (list (list T)) :=
  let* e := system_energy sc in
  let* es := total_energy2 sc in
  let* m := m sc in
  let* mt := m_tot sc in
  let s := nofZ N (ssize (vars sc)) in
  let* sm := idx (spins sc) (Z.to_nat (ntou64 N (s / #4))) in
  let* sp := idx (spins sc) (Z.to_nat (ntou64 N (#3 * s / #4))) in
  let out := if has_file sc
    then [[t sc; es; e; vx m / s; vy m / s; vz m / s; vz mt / nofZ N (hsize (vars sc));
           vx sm; vy sm; vz sm; vx sp; vy sp; vz sp]]
    else [] in
  let* _ := (if nabs N (nsin N (npi N * t sc / (#100 * tau (vars sc)))) <! c_dt (vars sc) / (#20 * npi N)
             then log_fft sc else Ok tt) in
  Ok out.

(** log_ext, spinchain.rs:1070-1110: the lines written.  `hsize - 1` is on i32. *)
Definition log_ext (sc : chain T) : res (list (list T)) :=
  let* h_e := h_ext (vars sc) (t sc) in
  let* h := mapM (fun x => let* st := idx (static_h sc) x in Ok (sum_vec st h_e))
                 (range 0 (as_usize (ssize (vars sc)))) in
  let* rows := mapM (fun j =>
      let* sl := idx (spins sc) (j - 1)%nat in
      let* jl := idx (j_couple sc) (j - 1)%nat in
      let* s := idx (spins sc) j in
      let* jr := idx (j_couple sc) j in
      let* sr := idx (spins sc) (j + 1)%nat in
      let* hj := idx h j in
      let e_loc := for3 (fun k e_loc =>
          let e_loc := e_loc - nlit N 5 1 * (k sl * k jl * k s + k s * k jr * k sr) in
          if j <? as_usize (ssize (vars sc)) then e_loc + k hj * k s else e_loc) #0 in
      Ok [t sc; nofZ N (Z.of_nat j); e_loc; vx s; vy s; vz s])
      (skipn 1 (range 0 (Nat.min (Datatypes.length h) (as_usize (hsize (vars sc) - 1)%Z)))) in
  Ok (if has_file sc then rows ++ [[]] else []).

End Chain.
Arguments mkDraw {N}. Arguments d_idx {N}. Arguments d_u1 {N}. Arguments d_u2 {N}. Arguments d_u3 {N}.
Arguments mkNewDraw {N}. Arguments nd_u {N}. Arguments nd_j {N}. Arguments nd_h {N}.
