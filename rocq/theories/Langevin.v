(** Transcription of /repo/src/spinchain_langevin.rs.

    The functions solve_beta, total_energy, total_energy2, system_energy, h_ext, h_extp, j_s,
    ssh_sum, sum_vec, sjs_energy, sh_energy, rotate_even, rotate_odd and
    metropolis_update_magnus of SpinChainLangevin are textually those of SpinChain; the
    definitions of Chain.v are used for them (applied to [base]). *)
From Coq Require Import ZArith List Arith Bool.
From Verif Require Import Num Monad Spin Config Chain.
Import ListNotations.

(** struct SpinChainLangevin, spinchain_langevin.rs:52-67; the file is always open *)
Record lchain (T : Type) : Type := mkL { base : chain T; gamma : T }.
Arguments mkL {T}. Arguments base {T}. Arguments gamma {T}.

Section Langevin.
Context (N : NumOps).
Notation T := (num N).
Notation "x + y" := (nadd N x y) : num_scope.
Notation "x - y" := (nsub N x y) : num_scope.
Notation "x * y" := (nmul N x y) : num_scope.
Notation "x / y" := (ndiv N x y) : num_scope.
Notation "- x" := (nopp N x) : num_scope.
Notation "# z" := (nofZ N z%Z) (at level 0, z at level 0) : num_scope.
Local Open Scope num_scope.

(** new, spinchain_langevin.rs:114-205: as SpinChain::new, but a log file is always created
    (with a header line, see Runs.v) *)
Definition lchain_new (conf : config T) (g : T) (d : newdraw N) : res (lchain T) :=
  let* c := chain_new N conf d in
  Ok (mkL (mkChain (j_couple c) (static_h c) (spins c) (t c) (vars c) true) g).

(** metropolis_update, spinchain_langevin.rs:208-262: the local field is zero *)
Definition lmetropolis_update (d : mcdraw N) (sc : lchain T) : res (lchain T) :=
  let b := base sc in
  let s := as_usize (hsize (vars b)) in
  let* index := gen_range s (d_idx d) in
  let local_field := mk3 #0 #0 #0 in
  let* s_c := idx (spins b) index in
  let* il := i_l s index in
  let* s_l := idx (spins b) il in
  let* ir := i_r s index in
  let* s_r := idx (spins b) ir in
  let* j_l := idx (j_couple b) il in
  let* j_r := idx (j_couple b) index in
  let new_spin := propose N (d_u1 d) (d_u2 d) in
  let de := de_plain N s_l s_r j_l j_r local_field s_c new_spin in
  let* b' := accept N b index new_spin de (d_u3 d) in
  Ok (mkL b' (gamma sc)).

(** metropolis_update_magnus, spinchain_langevin.rs:274-405 *)
Definition lmetropolis_update_magnus (d : mcdraw N) (sc : lchain T) : res (lchain T) :=
  let* b' := metropolis_update_magnus N d (base sc) in Ok (mkL b' (gamma sc)).

(** m_tot, spinchain_langevin.rs:619-629: sums all spins *)
Definition lm_tot (sc : lchain T) : v3 T := sum_spins N (spins (base sc)).

(** boundary_term, spinchain_langevin.rs:543-576 *)
Definition lboundary_term (sc : lchain T) : res T :=
  let b := base sc in
  let ell := as_usize (ssize (vars b)) in
  let* s1 := idx (spins b) 0 in
  let s1sq := msq N s1 in
  let* em1 := usub ell 1 in
  let* sl := idx (spins b) em1 in
  let slsq := msq N sl in
  let* h_e := h_ext N (vars b) (t b) in
  let* j0 := idx (j_couple b) 0 in
  let* s2 := idx (spins b) 1 in
  let om_1 := mk3 (vx j0 * vx s2 - vx h_e) (vy j0 * vy s2 - vy h_e) (vz j0 * vz s2 - vz h_e) in
  let om_1_sq := msq N om_1 in
  let oms1 := mdot N om_1 s1 in
  let* em2 := usub ell 2 in
  let* jl := idx (j_couple b) em2 in
  let* slm := idx (spins b) em2 in
  let om_ell := mk3 (vx jl * vx slm - vx h_e) (vy jl * vy slm - vy h_e) (vz jl * vz slm - vz h_e) in
  let om_ell_sq := msq N om_ell in
  let omsell := mdot N om_ell sl in
  let* mm := m N b in
  let h_ep := h_extp N (vars b) (t b) in
  Ok (#2 * gamma sc / beta (vars b) * (oms1 + omsell)
      - gamma sc * (s1sq * om_1_sq - oms1 * oms1 + slsq * om_ell_sq - omsell * omsell)
      + #2 * npi N * mdot N h_ep mm / tau (vars b)).

(** log, spinchain_langevin.rs:407-433 *)
Definition lchain_log (sc : lchain T) : res (list (list T)) :=
  let b := base sc in
  let* e := system_energy N b in
  let es := e in
  let* mm := m N b in
  let mt := lm_tot sc in
  let s := nofZ N (ssize (vars b)) in
  let* bt := lboundary_term sc in
  Ok [[t b; es; e; vx mm / s; vy mm / s; vz mm / s; vz mt / nofZ N (hsize (vars b)); bt]].

(** cross, spinchain_langevin.rs:773-779 *)
Definition lcross (l r : v3 T) (g : T) : v3 T :=
  mk3 (g * (vy l * vz r - vy r * vz l))
      (g * (vz l * vx r - vz r * vx l))
      (g * (vx l * vy r - vx r * vy l)).

(** The field on an end spin: bare field, Landau-Lifshitz-Gilbert term and noise,
    spinchain_langevin.rs:787-805 and 830-845 *)
Definition end_omega (g dt : T) (noise j s_other h s_end : v3 T) : v3 T :=
  let dh := mk3 (vx noise / dt) (vy noise / dt) (vz noise / dt) in
  let js := j_s N j s_other in
  let omega_bare := mk3 (vx js - vx h) (vy js - vy h) (vz js - vz h) in
  let llg := lcross s_end omega_bare (- g) in
  ssh_sum N omega_bare llg dh.

(** even_omega, spinchain_langevin.rs:781-816 (the parameter delta_t is unused) *)
Definition leven_omega (g dt : T) (h_l : v3 T) (sp js h : list (v3 T)) : res (list (v3 T)) :=
  let l := (length sp / 2)%nat in
  let* j0 := idx js 0 in
  let* s1 := idx sp 1 in
  let* h0 := idx h 0 in
  let* s0 := idx sp 0 in
  let first := end_omega g dt h_l j0 s1 h0 s0 in
  let* rest := mapM (fun n =>
      let* jl := idx js (2 * n - 1)%nat in
      let* sl := idx sp (2 * n - 1)%nat in
      let* jr := idx js (2 * n)%nat in
      let* sr := idx sp (2 * n + 1)%nat in
      let* hn := idx h (2 * n)%nat in
      Ok (ssh_sum N (j_s N jl sl) (j_s N jr sr) hn)) (range 1 l) in
  Ok (first :: rest).

(** odd_omega, spinchain_langevin.rs:817-849 *)
Definition lodd_omega (g dt : T) (h_r : v3 T) (sp js h : list (v3 T)) : res (list (v3 T)) :=
  let l := (length sp / 2)%nat in
  let* lm1 := usub l 1 in
  let* rest := mapM (fun n =>
      let* jl := idx js (2 * n)%nat in
      let* sl := idx sp (2 * n)%nat in
      let* jr := idx js (2 * n + 1)%nat in
      let* sr := idx sp (2 * n + 2)%nat in
      let* hn := idx h (2 * n + 1)%nat in
      Ok (ssh_sum N (j_s N jl sl) (j_s N jr sr) hn)) (range 0 lm1) in
  let* jl := idx js (2 * lm1)%nat in
  let* sl := idx sp (2 * lm1)%nat in
  let* hn := idx h (2 * lm1 + 1)%nat in
  let* se := idx sp (2 * lm1 + 1)%nat in
  Ok (rest ++ [end_omega g dt h_r jl sl hn se]).

(** The three stages, spinchain_langevin.rs:734-744 *)
Definition ltrotter (g dt : T) (h_l h_r : v3 T) (js h sp : list (v3 T)) : res (list (v3 T)) :=
  let* om := leven_omega g dt h_l sp js h in
  let* sp := rotate_sub N 0 0 om (dt / #2) sp in
  let* om := lodd_omega g dt h_r sp js h in
  let* sp := rotate_sub N 1 0 om dt sp in
  let* om := leven_omega g dt h_l sp js h in
  rotate_sub N 0 0 om (dt / #2) sp.

(** update, spinchain_langevin.rs:697-747; [zl], [zr] are the standard normal draws *)
Definition lupdate (zl zr : v3 T) (sc : lchain T) : res (lchain T) :=
  let b := base sc in
  let dt := c_dt (vars b) in
  let* he := h_ext N (vars b) (t b + dt) in
  let s := as_usize (ssize (vars b)) in
  let h := mapi (fun i item => if i <? s then sum_vec N item he else item) 0 (static_h b) in
  let sigma := nsqrt N (#2 * gamma sc * dt / beta (vars b)) in
  let* h_normal := normal_new N #0 sigma in
  let h_l := v3map h_normal zl in
  let h_r := v3map h_normal zr in
  let* sp := ltrotter (gamma sc) dt h_l h_r (j_couple b) h (spins b) in
  Ok (mkL (mkChain (j_couple b) (static_h b) sp (t b + dt) (vars b) (has_file b)) (gamma sc)).

End Langevin.
