(** Theorems about the distribution of samples over threads and the background writers:
    properties C43, C44 and C46. *)
From Coq Require Import String SpecFloat Reals ZArith List Lra Lia Permutation.
From Verif Require Import Num Monad NumR NumF64 Spin Config Chain SpecVec SpecChain Samples Fit Files Writers Runs
  SpecWriters ProofsEnergy ProofsWriters ProofsProfile.
Import ListNotations.

(** * C43 *)
(** The numbers of samples per thread: one thread per point if there are fewer points than threads,
    at least one sample each, and altogether the number asked for. *)
Theorem C43_split : forall th p, (1 <= th)%Z -> (1 <= p < 2 ^ 31)%Z ->
  exists l, mc_split th p = Ok l /\ Z.of_nat (length l) = Z.min th p /\
    Forall (fun n => (1 <= n)%Z) l /\ zsum l = p.
Proof. exact mc_split_ok. Qed.
Print Assumptions C43_split.
Example C43_split_case : mc_split 3 8 = Ok [2; 2; 4]%Z.
Proof. reflexivity. Qed.

(** So a finished Monte-Carlo run has sent exactly that many lines to its writer. *)
Theorem C43_lines : forall N upd rg conf f conf' f',
  (1 <= threads conf)%Z -> (1 <= mc_points conf < 2 ^ 31)%Z ->
  run_mc_with N upd rg conf f = Ok (conf', f') ->
  exists work f1, conf' = conf /\ f' = append "mc_live.dat"%string (r_file N rg work) f1 /\
    Z.of_nat (length work) = Z.min (threads conf) (mc_points conf) /\
    Z.of_nat (length (concat work)) = mc_points conf.
Proof. exact run_mc_lines. Qed.
Print Assumptions C43_lines.

(** No threads or no points: ThreadPool::new(0) panics. *)
Theorem C43_zero : forall th p, (0 <= th)%Z -> (0 <= p)%Z -> (th = 0 \/ p = 0)%Z -> mc_split th p = Panic Explicit.
Proof. exact mc_split_zero. Qed.
Print Assumptions C43_zero.
Example C43_zero_case : mc_split 0 5 = Panic Explicit /\ mc_split 4 0 = Panic Explicit.
Proof. split; reflexivity. Qed.

(** The bound 2^31 is needed: beyond it the 32-bit counts overflow, or samples are silently
    dropped. *)
Theorem C43_large_refuted : exists p q, (p = 2 ^ 31)%Z /\ mc_split 1 p = Panic Overflow /\
  (q = 2 ^ 32 + 2)%Z /\ mc_split 1 q = Ok [2%Z].
Proof. exists (2 ^ 31)%Z, (2 ^ 32 + 2)%Z. repeat split. Qed.
Print Assumptions C43_large_refuted.

(** * C44 *)
(** [work] lists the samples each thread takes.  However their messages are interleaved in the
    channel, the profile has one line per site, with the averages over all samples. *)
Theorem C44_profile : forall size work alive msgs,
  concat work <> [] -> (Z.of_nat size * Z.of_nat (length (concat work)) < 2 ^ 64)%Z ->
  interleaving (map (flat_map (messages size)) work) msgs ->
  profile_in_bg ERNum size (length (concat work)) alive msgs
  = Ok (map (profile_line (concat work)) (seq 0 size)).
Proof. exact profile_schedule. Qed.
Print Assumptions C44_profile.
(** Two threads, one sample each, two sites; the messages alternate. *)
Example C44_profile_case : let a := fun i => mkSite (INR i) 1 2 3 in let b := fun i => mkSite 0 (INR i) 5 6 in
  interleaving (map (flat_map (messages 2)) [[a]; [b]])
    [message 0 (a 0%nat); message 0 (b 0%nat); message 1 (b 1%nat); message 1 (a 1%nat)].
Proof.
  intros a b. cbn [map flat_map messages app seq].
  apply (il_cons []); apply (il_cons [_]); apply (il_cons [_]); apply (il_cons []). constructor. repeat constructor.
Qed.

(** The messages the workers send for a chain are its bond energies and spins, site by site, ... *)
Theorem C44_messages : forall n s sc, wf n s sc -> (1 <= n)%nat ->
  snapshot ERNum (fin sc) = Ok (messages n (site_of n sc)).
Proof. exact snapshot_ok. Qed.
Print Assumptions C44_messages.
(** ... and the energies of the sites add up to the energy of all bonds. *)
Theorem C44_energies : forall n sc, (1 <= n)%nat ->
  Rsum n (fun i => s_e (site_of n sc i)) = ring_energy n (S_ sc) (J_ sc) (fun _ => vzero).
Proof. exact site_energy_sum. Qed.
Print Assumptions C44_energies.
Example C44_messages_case : wf 4 2 (ex_chain 2 Dxyplane).
Proof. exact (ex_wf 2 Dxyplane ltac:(lia)). Qed.

(** With too few messages the collecting thread waits for ever if a sender is alive (as in the
    program, where the main thread keeps one) and panics otherwise. *)
Theorem C44_blocks : forall size pts alive ms,
  (Z.of_nat size * Z.of_nat pts < 2 ^ 64)%Z -> Forall (fun m => (p_i m < size)%nat) ms ->
  (length ms < size * pts)%nat ->
  profile_in_bg ERNum size pts alive ms = (if alive then OutOfFuel else Panic Unwrap).
Proof. exact profile_blocks. Qed.
Print Assumptions C44_blocks.
Example C44_blocks_case : profile_in_bg ERNum 2 1 true [message 1 (mkSite 0 0 0 1)] = OutOfFuel.
Proof. apply C44_blocks; [reflexivity|repeat constructor|cbn; lia]. Qed.

(** A message for a site that does not exist makes it panic. *)
Theorem C44_bad_index : forall size pts alive i s pre post,
  (Z.of_nat size * Z.of_nat pts < 2 ^ 64)%Z -> (size <= i)%nat -> (length pre < size * pts)%nat ->
  Forall (fun m => (fst m < size)%nat) pre ->
  profile_in_bg ERNum size pts alive (map (fun m => message (fst m) (snd m)) pre ++ message i s :: post)
  = Panic IndexOOB.
Proof. exact profile_oob. Qed.
Print Assumptions C44_bad_index.
Example C44_bad_index_case : (Z.of_nat 2 * Z.of_nat 1 < 2 ^ 64)%Z /\ (2 <= 2)%nat /\ (0 < 2 * 1)%nat.
Proof. repeat split; lia. Qed.

(** In binary64 the averages do depend on the schedule: three threads sending 10^16, 1 and -10^16
    for the one site give 0 or 1/3. *)
Theorem C44_f64_refuted : forall L, exists work msgs1 msgs2,
  interleaving work msgs1 /\ interleaving work msgs2 /\
  profile_in_bg (F64 L) 1 3 true msgs1 <> profile_in_bg (F64 L) 1 3 true msgs2.
Proof.
  intros L. set (p := fun z => mkMsg (N := F64 L) 0 (f_ofZ z) (f_ofZ 0) (f_ofZ 0) (f_ofZ 1)).
  exists [[p (10 ^ 16)%Z]; [p 1%Z]; [p (- 10 ^ 16)%Z]], [p (10 ^ 16)%Z; p 1%Z; p (- 10 ^ 16)%Z], [p (10 ^ 16)%Z; p (- 10 ^ 16)%Z; p 1%Z].
  split; [|split].
  - apply (il_cons []), (il_cons [_]), (il_cons [_; _]). constructor. repeat constructor.
  - apply (il_cons []), (il_cons [_; _]), (il_cons [_]). constructor. repeat constructor.
  - vm_compute. discriminate.
Qed.
Print Assumptions C44_f64_refuted.

(** * C46 *)
(** At any moment the file holds the first lines of some interleaving of everything the workers
    send; the lines that are missing are still in the channel or not yet sent. *)
Theorem C46_prefix : forall (L : Type) (ws : list (list L)) s,
  wsteps (mkW ws [] [] false) s ->
  exists sent rest, interleaving ws (sent ++ rest) /\ interleaving (w_workers s) rest /\
    sent = w_file s ++ w_queue s.
Proof. intros L. exact write_prefix. Qed.
Print Assumptions C46_prefix.
(** When the program has ended every line was sent, but the file may hold only a prefix; *)
Theorem C46_sent : forall (L : Type) (ws : list (list L)) s,
  wsteps (mkW ws [] [] false) s -> w_done s = true ->
  Forall (fun w => w = []) (w_workers s).
Proof. intros L ws s H. exact (w_done_empty _ _ H eq_refl). Qed.
Print Assumptions C46_sent.
(** and every prefix of every interleaving is a possible outcome, down to the empty file. *)
Theorem C46_lost : forall (L : Type) (ws : list (list L)) l1 l2, interleaving ws (l1 ++ l2) ->
  exists s, wsteps (mkW ws [] [] false) s /\ w_done s = true /\
    Forall (fun w => w = []) (w_workers s) /\ w_file s = l1.
Proof. intros L. exact write_any_prefix. Qed.
Print Assumptions C46_lost.
Example C46_case : interleaving [[1; 2]; [3]]%Z ([1; 3] ++ [2])%Z.
Proof. apply (il_cons [] _ [2%Z]); apply (il_cons [_]); apply (il_cons []). constructor. repeat constructor. Qed.
