(** Theorems about the columns of the output files: properties C64 and C65.
    The rows [log_row], [mc_row], ... are defined in SpecColumns.v from the state of the chain. *)
From Coq Require Import Reals List ZArith Lra Lia.
From Verif Require Import Num Monad NumR NumF64 Config Chain Langevin Files Writers Runs SpecVec SpecChain SpecMC SpecColumns Samples
  ProofsColumns.
Import ListNotations.
Local Open Scope R_scope.

(** The example chain meets the hypotheses, with and without drive *)
Example columns_case : forall dr, wf 4 2 (ex_chain 2 dr) /\ drive_ok (vars (ex_chain 2 dr)) /\
  beta (vars (ex_chain 2 dr)) <> 0 /\ tau (vars (ex_chain 2 dr)) <> 0 /\ has_file (ex_chain 2 dr) = true.
Proof.
  intro dr. split; [apply (ex_wf 2); lia|]. split; [apply ex_drive|]. cbn. repeat split; lra.
Qed.

(** * C64 *)
(** The line of log<n>.dat: time, energy per site of the ring, energy per bond of the subsystem,
    magnetisation per site of the subsystem, z magnetisation per site of the chain, the spins a
    quarter and three quarters into the subsystem *)
Theorem C64_log : forall n s sc, wf n s sc -> (2 <= s)%nat -> drive_ok (vars sc) ->
  chain_log ERNum (fin sc) = Ok (if has_file sc then [map Some (log_row n s sc)] else []).
Proof. exact log_value. Qed.
Print Assumptions C64_log.
(** In binary64 the last six columns are the components of these two spins, unrounded *)
Theorem C64_log_watched : forall L n s (sc : chain (num (F64 L))), wf n s sc -> hs_ok (vars sc) -> (1 <= s)%nat ->
  has_file sc = true ->
  exists e es mx my mz Mz a b, nth_error (spins sc) (s / 4) = Some a /\ nth_error (spins sc) (3 * s / 4) = Some b /\
  chain_log (F64 L) sc = Ok [[t sc; e; es; mx; my; mz; Mz; vx a; vy a; vz a; vx b; vy b; vz b]].
Proof. exact log_watched. Qed.
Print Assumptions C64_log_watched.
Example C64_log_watched_case : forall L x dt tmax tau st, wf 4 2 (ex_at (F64 L) x dt tmax tau st) /\
  hs_ok (vars (ex_at (F64 L) x dt tmax tau st)) /\ has_file (ex_at (F64 L) x dt tmax tau st) = true.
Proof. intros. split; [apply ex_at_wf|]. split; [apply ex_at_hs|reflexivity]. Qed.
(** The line of mc_live.dat: the subsystem energy is that of a closed ring, unlike in the log *)
Theorem C64_mc_line : forall n s sc, wf n s sc -> (1 <= s)%nat -> drive_ok (vars sc) ->
  mc_line ERNum (fin sc) = Ok (numbers (map Some (mc_row n s sc))).
Proof. exact mc_line_value. Qed.
Print Assumptions C64_mc_line.
(** The lines of the histograms, short and long *)
Theorem C64_hist_short : forall n s sc, wf n s sc -> forall x, (2 <= s)%nat -> drive_ok (vars sc) ->
  hist_head ERNum (Some x) (fin sc) = Ok (map Some (hist_short x s sc)).
Proof. exact hist_head_value. Qed.
Print Assumptions C64_hist_short.
Theorem C64_hist : forall n s sc, wf n s sc -> forall i, (2 <= s)%nat -> drive_ok (vars sc) ->
  hist_line ERNum i (fin sc) = Ok (numbers (map Some (hist_short (INR i) s sc ++ watched s sc))).
Proof. exact hist_line_value. Qed.
Print Assumptions C64_hist.
(** The log of the Langevin chain: both energy columns show the energy of the subsystem *)
Theorem C64_langevin_log : forall n s sc, wf n s sc -> forall g, (2 <= s)%nat -> drive_ok (vars sc) ->
  beta (vars sc) <> 0 -> tau (vars sc) <> 0 ->
  exists bt, lboundary_term ERNum (mkL (fin sc) (Some g)) = Ok (Some bt) /\
  lchain_log ERNum (mkL (fin sc) (Some g)) = Ok [map Some (langevin_row n s sc bt)].
Proof. exact llog_value. Qed.
Print Assumptions C64_langevin_log.

(** * C65 *)
(** A profile snapshot sends for every site half the energy of its two bonds and its spin *)
Theorem C65_profile : forall n s sc, wf n s sc ->
  snapshot ERNum (fin sc) = Ok (map (fun i => mkMsg (N := ERNum) i (Some (half_bonds n sc i))
     (Some (vx (S_ sc i))) (Some (vy (S_ sc i))) (Some (vz (S_ sc i)))) (seq 0 n)).
Proof. exact snapshot_value. Qed.
Print Assumptions C65_profile.
(** These add up to the energy of the ring without fields *)
Theorem C65_profile_sum : forall n sc, (1 <= n)%nat -> Rsum n (half_bonds n sc) = exchange_energy n (S_ sc) (J_ sc).
Proof. exact half_bonds_sum. Qed.
Print Assumptions C65_profile_sum.
(** One logging step of run_ext: one row for each site 1 ... min (s, n - 1) - 1, then an empty line.
    Site 0 is left out, and so is the last site of the chain. *)
Theorem C65_ext : forall n s sc, wf n s sc -> drive_ok (vars sc) ->
  log_ext ERNum (fin sc) = Ok (if has_file sc
    then map (fun j => map Some (ext_row sc j)) (seq 1 (Nat.min s (n - 1) - 1)) ++ [[]] else []).
Proof. exact ext_value. Qed.
Print Assumptions C65_ext.
(** On the example the rows are those of the sites 1 and 2 *)
Example C65_ext_case : exists a b, log_ext ERNum (fin (ex_chain 4 Duniaxial)) = Ok [a; b; []] /\
  nth 1 a None = Some (INR 1) /\ nth 1 b None = Some (INR 2).
Proof.
  rewrite (C65_ext 4 4); [|apply (ex_wf 4); lia|apply ex_drive].
  do 2 eexists. split; [reflexivity|]. split; reflexivity.
Qed.
