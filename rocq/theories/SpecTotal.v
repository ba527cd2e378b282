(** Specification for panic freedom: the operations a user can call on a chain, and the sizes each
    of them needs. *)
From Coq Require Import ZArith List Arith Bool.
From Verif Require Import Num Monad Spin Config Chain Langevin.
Import ListNotations.

(** Read-only operations of SpinChain and SpinChainLangevin *)
Inductive query :=
| Qtotal_energy | Qtotal_energy2 | Qsystem_energy | Qmc_total_energy | Qmc_system_energy
| Qmc_maglab | Qmc_rot | Qboundary | Qm | Qm_tot | Qspectrum | Qlog | Qlog_ext
| Qlboundary | Qllog.

(** Operations that change the chain *)
Inductive action (N : NumOps) :=
| Aupdate | Aupdate_no_field
| Aplain (d : mcdraw N) | Amaglab (d : mcdraw N) | Arot (d : mcdraw N) | Amagfull (d : mcdraw N)
| Amagnus (d : mcdraw N)
| Alupdate (zl zr : v3 (num N)) | Alplain (d : mcdraw N) | Almagnus (d : mcdraw N).
Arguments Aupdate {N}. Arguments Aupdate_no_field {N}. Arguments Aplain {N}. Arguments Amaglab {N}.
Arguments Arot {N}. Arguments Amagfull {N}. Arguments Amagnus {N}. Arguments Alupdate {N}.
Arguments Alplain {N}. Arguments Almagnus {N}.

Definition forget {A} (r : res A) : res unit := let* _ := r in Ok tt.

(** The Langevin operations act on [lc]; the others on the chain part of [lc]. *)
Definition ask (N : NumOps) (q : query) (lc : lchain (num N)) : res unit :=
  let sc := base lc in
  match q with
  | Qtotal_energy => forget (total_energy N sc)
  | Qtotal_energy2 => forget (total_energy2 N sc)
  | Qsystem_energy => forget (system_energy N sc)
  | Qmc_total_energy => forget (mc_total_energy N sc)
  | Qmc_system_energy => forget (mc_system_energy N sc)
  | Qmc_maglab => forget (mc_system_energy_maglab N sc)
  | Qmc_rot => forget (mc_system_energy_rot N sc)
  | Qboundary => forget (boundary_term N sc)
  | Qm => forget (m N sc)
  | Qm_tot => forget (m_tot N sc)
  | Qspectrum => forget (energy_spectrum N sc)
  | Qlog => forget (chain_log N sc)
  | Qlog_ext => forget (log_ext N sc)
  | Qlboundary => forget (lboundary_term N lc)
  | Qllog => forget (lchain_log N lc)
  end.

Definition on_base {T} (lc : lchain T) (r : res (chain T)) : res (lchain T) :=
  let* sc := r in Ok (mkL sc (gamma lc)).

Definition act (N : NumOps) (a : action N) (lc : lchain (num N)) : res (lchain (num N)) :=
  match a with
  | Aupdate => on_base lc (update N (base lc))
  | Aupdate_no_field => on_base lc (update_no_field N (base lc))
  | Aplain d => on_base lc (metropolis_update N d (base lc))
  | Amaglab d => on_base lc (metropolis_update_maglab N d (base lc))
  | Arot d => on_base lc (metropolis_update_rot_magnus N d (base lc))
  | Amagfull d => on_base lc (metropolis_update_mag_full N d (base lc))
  | Amagnus d => on_base lc (metropolis_update_magnus N d (base lc))
  | Alupdate zl zr => lupdate N zl zr lc
  | Alplain d => lmetropolis_update N d lc
  | Almagnus d => lmetropolis_update_magnus N d lc
  end.

(** [n] sites, [s] of them in the subsystem: the sizes an operation needs *)
Definition query_needs (q : query) (n s : nat) : Prop :=
  match q with
  | Qtotal_energy | Qtotal_energy2 | Qmc_total_energy => 1 <= n
  | Qsystem_energy | Qmc_system_energy | Qlog => 1 <= s
  | Qmc_maglab | Qmc_rot => 2 <= n
  | Qboundary | Qlboundary | Qllog => 2 <= s
  | Qm | Qm_tot | Qspectrum | Qlog_ext => True
  end.
Definition action_needs {N} (a : action N) (n : nat) : Prop :=
  match a with
  | Aplain _ | Amaglab _ | Alplain _ => 1 <= n
  | _ => 2 <= n
  end.
(** The Langevin step needs a finite noise amplitude sqrt(2 gamma dt / beta). *)
Definition noise_finite (N : NumOps) (lc : lchain (num N)) : Prop :=
  nfinite N (nsqrt N (ndiv N (nmul N (nmul N (nofZ N 2) (gamma lc)) (c_dt (vars (base lc))))
                            (beta (vars (base lc))))) = true.
Definition action_noise {N} (a : action N) (lc : lchain (num N)) : Prop :=
  match a with Alupdate _ _ => noise_finite N lc | _ => True end.

Definition returns {A} (r : res A) : Prop := exists a, r = Ok a.
Definition panics {A} (r : res A) : Prop := exists p, r = Panic p.

(** A program is a list of operations *)
Definition run (N : NumOps) (l : list (query + action N)) (lc : lchain (num N)) : res (lchain (num N)) :=
  foldM (fun o lc => match o with
                     | inl q => let* _ := ask N q lc in Ok lc
                     | inr a => act N a lc
                     end) l lc.
