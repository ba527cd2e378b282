(** Conditions under which an invocation of the program completes (C63). *)
From Coq Require Import String SpecFloat Reals ZArith List Arith.
From Verif Require Import Num Monad NumR NumF64 Config Chain Fit Files Writers Runs Main SpecChain SpecToml SpecWriters SpecRuns.
Import ListNotations.
Local Close Scope R_scope.
Local Open Scope nat_scope.

(** The two arithmetics: exact, and binary64 with any maths library *)
Inductive arithmetic : NumOps -> Prop :=
| exact_arith : arithmetic ERNum
| binary64 : forall L, arithmetic (F64 L).

Section R.
Context (N : NumOps).
Notation T := (num N).

(** Enough steps per period, and not too many for 64 bits *)
Definition period_ok (dt x : T) : Prop :=
  let q := ndiv N x dt in (1 <= ntou64 N q)%Z /\ (99 * ntou64 N q < 2 ^ 64)%Z /\ (1 <= ntou64 N (nround N q))%Z.
(** --singletraj ends: it starts after 30 periods and runs until [samples + 30] periods *)
Definition traj_ends (r dt x : T) (samples : Z) (fuel : nat) : Prop :=
  ends N (Nat.iter (Z.to_nat (ntou64 N (ndiv N (nmul N (nofZ N 30) x) dt))) (fun y => nadd N y dt) (nopp N r)) dt
    (nmul N (nadd N (nofZ N samples) (nofZ N 30)) x) fuel.
(** The periods that occur in an invocation *)
Definition periods (a : args T) (x : T) : Prop :=
  a_adiab2 a = Some x \/ a_adiabatic a = Some x.

(** [conf] is the configuration in config.toml, [tau0] the period after the override *)
Record ready (fuel : nat) (w : world N) (a : args T) (conf : config T) : Prop := mkReady {
  (* the modes that can wait for ever, or depend on what is in the directory, are not asked for *)
  rd_modes : a_hist a = None /\ a_avg a = false /\ a_two_point a = false /\ a_dyn_profile a = false;
  rd_beta : a_beta a <> None;
  rd_conf : conf_ok N conf /\ (2 <= ssize conf <= hsize conf)%Z /\ (1 <= threads conf)%Z /\ (1 <= mc_points conf < 2 ^ 31)%Z;
  rd_room : (0 <= runs conf)%Z /\ (offset conf + 2 * runs conf < 2 ^ 32)%Z;
  rd_hist : forall z, a_dynhist a = Some (Some z) -> (1 <= z)%Z;
  rd_fuel : 13 <= fuel;
  rd_noise : forall o b, a_langevin a = Some o -> a_beta a = Some b ->
    nfinite N (nsqrt N (ndiv N (nmul N (nmul N (nofZ N 2) (match o with Some g => g | None => nofZ N 1 end)) (c_dt conf)) b)) = true;
  rd_period : forall x, x = match a_tau a with Some x => x | None => tau conf end \/ periods a x -> period_ok (c_dt conf) x /\
    forall o, a_singletraj a = Some o -> traj_ends (trel conf) (c_dt conf) x (match o with Some z => Z.of_nat (Z.to_nat z) | None => 1000 end) fuel;
  rd_taus : forall l x, a_n_steps_taus a = Some l -> In x l ->
    ends N (nopp N (trel conf)) (tau_dt N x) (nmul N (nofZ N (match a_steps a with Some z => z | None => 1000%Z end)) x) fuel;
  rd_time : ends N (nopp N (trel conf)) (c_dt conf) (c_t conf) fuel;
  rd_back : a_response a = true -> ends N (nopp N (c_t conf)) (c_dt conf) (c_t conf) fuel;
  rd_msgs : forall ws, interleaving ws (r_msgs N (w_rng N w Mmcprofile) ws)
}.
End R.
