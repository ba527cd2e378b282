(** Theorems about what the Monte-Carlo modes record: property C77. *)
From Coq Require Import String Reals List ZArith Arith Lra Lia.
From Verif Require Import Num Monad NumR Config Chain Fit Files Runs Main SpecVec SpecChain SpecMC SpecMagnus SpecColumns SpecWriters SpecSampling SpecReport SpecLive
  Samples ProofsWriters ProofsRunSamples ProofsSampling ProofsReport2 ProofsLive.
Import ListNotations.
Local Open Scope R_scope.
Local Open Scope list_scope.

(** --monte-carlo: every thread follows a Metropolis path of the static energy from the chain it made, and
    writes the row of the state reached after every million steps. *)
Theorem C77_plain : forall rg conf f n s c mv,
  (1 <= threads conf)%Z -> (1 <= mc_points conf < 2 ^ 31)%Z -> started rg conf n s c mv -> (2 <= n)%nat -> (1 <= s)%nat -> drive_ok conf ->
  exists sh st f', shares (threads conf) (mc_points conf) sh /\
    (forall i, st i 0%nat = c i /\ metropolis_path n (ens_energy Estatic n s 0) (beta conf) (mv i) (st i)) /\
    run_mc ERNum rg (config_map Some conf) f = Ok (config_map Some conf, f') /\
    lines_of f' "mc_live.dat" = lines_of f "mc_live.dat" ++ r_file ERNum rg (map (map (fun x => numbers (map Some (mc_row n s x)))) (records sh st)).
Proof. exact plain_live. Qed.
Print Assumptions C77_plain.
(** --monte-carlo-magnus: the same with the energy changes of C71_second *)
Theorem C77_second : forall rg conf f n s c mv,
  (1 <= threads conf)%Z -> (1 <= mc_points conf < 2 ^ 31)%Z -> started rg conf n s c mv -> (3 <= n)%nat -> (1 <= s)%nat -> drive_ok conf -> tau conf <> 0 ->
  exists sh st f', shares (threads conf) (mc_points conf) sh /\
    (forall i, st i 0%nat = c i /\ change_path n (second_order_change n s) (beta conf) (mv i) (st i)) /\
    run_mc_magnus ERNum rg (config_map Some conf) f = Ok (config_map Some conf, f') /\
    lines_of f' "mc_live.dat" = lines_of f "mc_live.dat" ++ r_file ERNum rg (map (map (fun x => numbers (map Some (mc_row n s x)))) (records sh st)).
Proof. exact full_live. Qed.
Print Assumptions C77_second.
(** --monte-carlo-profile: one line per site with the averages over all recorded states of all threads, however
    their messages are interleaved; the file of an earlier run is replaced. *)
Theorem C77_profile : forall rg conf f n s c mv,
  (1 <= threads conf)%Z -> (1 <= mc_points conf < 2 ^ 31)%Z -> started rg conf n s c mv -> (2 <= n)%nat ->
  (forall ws, interleaving ws (r_msgs ERNum rg ws)) ->
  exists sh st f', shares (threads conf) (mc_points conf) sh /\
    (forall i, st i 0%nat = c i /\ metropolis_path n (ens_energy Estatic n s 0) (beta conf) (mv i) (st i)) /\
    run_mc_profile ERNum rg (config_map Some conf) f = Ok (config_map Some conf, f') /\
    lines_of f' "mc_profile.dat" = map (profile_line (map (site_of n) (concat (records sh st)))) (seq 0 n).
Proof. exact profile_value. Qed.
Print Assumptions C77_profile.
Example C77_case : let conf := ex_conf 4 2 Dxyplane in (1 <= threads conf)%Z /\ (1 <= mc_points conf < 2 ^ 31)%Z /\ drive_ok conf /\ tau conf <> 0 /\
  (exists c, started ex_rngR conf 4 2 c (fun _ _ => ex_move)) /\ forall ws, interleaving ws (r_msgs ERNum ex_rngR ws).
Proof.
  intro conf. split; [cbn; lia|]. split; [cbn; lia|]. split; [cbn; lra|]. split; [cbn; lra|]. split.
  - destruct (straight_fin 2 Dxyplane ltac:(lia)) as (sc & A & B & W). exists (fun _ => sc). constructor; intros; [exact A|exact B|exact W|exact ex_move_fair|reflexivity].
  - intros ws. exact (concat_interleaving ws).
Qed.
