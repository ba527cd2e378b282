(** trajectory_mean_e. *)
From Coq Require Import String SpecFloat Reals Lra Lia List ZArith Arith Bool Permutation.
From Flocq Require Import Core.
From Verif Require Import Num Monad NumR NumF64 Spin Config Chain Langevin Fit Files Toml Writers Runs SpecVec SpecChain SpecTotal SpecToml SpecWriters SpecRuns
  ProofsChain ProofsEnergy ProofsDyn ProofsMC ProofsNew ProofsTotal ProofsToml ProofsNames ProofsFrame ProofsLoop ProofsSim ProofsStrobe.
Import ListNotations.
Local Close Scope R_scope.
Local Open Scope nat_scope.

Section Gen.
Context (N : NumOps).
Notation T := (num N).

Definition sampled (c : nat) (i : nat) : bool := (i mod c =? 0) && (99 * c <? i).

Lemma traj_loop_ok c st e : 1 <= c -> (99 * Z.of_nat c < 2 ^ 64)%Z -> (forall k, update N (st k) = Ok (st (S k))) ->
  (forall k, system_energy N (st k) = Ok (e k)) -> forall steps j,
  traj_loop N (Z.of_nat c) (Z.of_nat j) steps (st j) = Ok (map (fun i => e (S i)) (filter (sampled c) (seq j steps))).
Proof.
  intros C1 C2 U E. induction steps as [|m IH]; intros j; [reflexivity|]. cbn [traj_loop seq filter]. unfold traj_step. rewrite U. cbn [bind].
  destruct (Z.eqb_spec (Z.of_nat c) 0); [lia|]. unfold sampled at 1.
  rewrite <- Nat2Z.inj_mod. replace (Z.of_nat j + 1)%Z with (Z.of_nat (S j)) by lia.
  destruct (Nat.eqb_spec (j mod c) 0) as [Q|Q].
  - rewrite Q. destruct (Z.eqb_spec (Z.of_nat 0) 0); [|lia]. destruct (Z.leb_spec (2 ^ 64) (99 * Z.of_nat c)); [lia|].
    destruct (Z.ltb_spec (99 * Z.of_nat c) (Z.of_nat j)); destruct (Nat.ltb_spec (99 * c) j); try lia; cbn [andb].
    + rewrite E. cbn [bind]. rewrite IH. reflexivity.
    + cbn [bind]. rewrite IH. reflexivity.
  - destruct (Z.eqb_spec (Z.of_nat (j mod c)) 0); [lia|]. cbn [bind andb]. rewrite IH. reflexivity.
Qed.

Lemma energies n s sc st : wf n s sc -> 1 <= s -> hs_ok (vars sc) ->
  (forall k, wf n s (st k) /\ vars (st k) = vars sc /\ has_file (st k) = has_file sc /\ t (st k) = after_steps N k (c_dt (vars sc)) (t sc)) ->
  exists e, forall k, system_energy N (st k) = Ok (e k).
Proof.
  intros W Hs Hh P. exists (fun k => match system_energy N (st k) with Ok x => x | _ => nofZ N 0 end). intros k. destruct (P k) as (Wk & V & _).
  rewrite system_energy_pure with (n := n) (s := s); [reflexivity|exact Wk|exact Hs|rewrite V; exact Hh].
Qed.

Theorem traj_run_ok n s sc c total : wf n s sc -> 2 <= n -> 1 <= s -> hs_ok (vars sc) ->
  ntou64 N (ndiv N (tau (vars sc)) (c_dt (vars sc))) = Z.of_nat c ->
  ntou64 N (ndiv N (nmul N (nofZ N 1000) (tau (vars sc))) (c_dt (vars sc))) = Z.of_nat total ->
  1 <= c -> (99 * Z.of_nat c < 2 ^ 64)%Z ->
  exists st e, dynamics N sc st /\ (forall k, system_energy N (st k) = Ok (e k)) /\
    traj_run N sc = Ok (map (fun i => e (S i)) (filter (sampled c) (seq 0 total))).
Proof.
  intros W Hn Hs Hh Ec Et C1 C2. destruct (states N n s sc W Hn Hh) as (st & D & P).
  destruct (energies n s sc st W Hs Hh P) as [e E]. exists st, e. split; [exact D|]. split; [exact E|].
  unfold traj_run. rewrite Ec, Et, Nat2Z.id. pose proof (traj_loop_ok c st e C1 C2 (proj2 D) E total 0) as H. rewrite (proj1 D) in H. exact H.
Qed.
Theorem traj_run_zero n s sc : wf n s sc -> 2 <= n -> hs_ok (vars sc) ->
  ntou64 N (ndiv N (tau (vars sc)) (c_dt (vars sc))) = 0%Z ->
  (1 <= ntou64 N (ndiv N (nmul N (nofZ N 1000) (tau (vars sc))) (c_dt (vars sc))))%Z ->
  traj_run N sc = Panic DivByZero.
Proof.
  intros W Hn Hh Ec Et. unfold traj_run. rewrite Ec. destruct (Z.to_nat _) as [|m] eqn:Em; [lia|]. cbn [traj_loop]. unfold traj_step.
  destruct (update_pure N n s sc W Hn Hh) as (sp & -> & _). reflexivity.
Qed.
End Gen.

(** the sampled steps, cycle by cycle *)
Lemma block c j : 1 <= c -> filter (fun i => (i mod c =? 0)) (seq (j * c) c) = [j * c].
Proof.
  intros C1. destruct c as [|c]; [lia|]. cbn [seq filter]. rewrite Nat.mod_mul by lia. cbn [Nat.eqb]. f_equal.
  assert (G : forall k, filter (fun i => i mod S c =? 0) (seq (j * S c + S k) (c - k)) = []).
  { intros k. remember (c - k) as d eqn:Ed. revert k Ed. induction d as [|d IH]; intros k Ed; [reflexivity|]. cbn [seq filter].
    replace ((j * S c + S k) mod S c) with (S k).
    - cbn [Nat.eqb]. replace (S (j * S c + S k)) with (j * S c + S (S k)) by lia. apply IH. lia.
    - rewrite Nat.add_comm, Nat.mod_add by lia. rewrite Nat.mod_small by lia. reflexivity. }
  specialize (G 0). rewrite Nat.sub_0_r in G. replace (S (j * S c)) with (j * S c + 1) by lia. exact G.
Qed.
Lemma blocks c K : 1 <= c -> filter (fun i => (i mod c =? 0)) (seq 0 (K * c)) = map (fun j => j * c) (seq 0 K).
Proof.
  intros C1. induction K as [|K IH]; [reflexivity|]. replace (S K * c) with (K * c + c) by lia. rewrite seq_app, filter_app, IH.
  cbn [Nat.add]. rewrite block by exact C1. rewrite seq_S, map_app. reflexivity.
Qed.
Lemma filter_filter {A} (p q : A -> bool) l : filter (fun x => p x && q x) l = filter q (filter p l).
Proof. induction l as [|x l IH]; [reflexivity|]. cbn. destruct (p x); cbn; [destruct (q x)|]; rewrite IH; reflexivity. Qed.
Lemma filter_map_mul c q K : filter q (map (fun j => j * c) (seq 0 K)) = map (fun j => j * c) (filter (fun j => q (j * c)) (seq 0 K)).
Proof. induction (seq 0 K) as [|k l IH]; [reflexivity|]. cbn. destruct (q (k * c)); cbn; rewrite IH; reflexivity. Qed.
Lemma filter_gt K : filter (fun j => 99 <? j) (seq 0 K) = seq 100 (K - 100).
Proof.
  induction K as [|K IH]; [reflexivity|]. rewrite seq_S, filter_app, IH. cbn [Nat.add filter]. destruct (Nat.ltb_spec 99 K).
  - replace (S K - 100) with (S (K - 100)) by lia. rewrite seq_S. do 2 f_equal. lia.
  - replace (S K - 100) with 0 by lia. replace (K - 100) with 0 by lia. reflexivity.
Qed.
Theorem sampled_cycles c K : 1 <= c -> filter (sampled c) (seq 0 (K * c)) = map (fun j => j * c) (seq 100 (K - 100)).
Proof.
  intros C1. unfold sampled. rewrite filter_filter, blocks by exact C1. rewrite filter_map_mul. f_equal. rewrite <- filter_gt.
  apply filter_ext. intros j. destruct (Nat.ltb_spec (99 * c) (j * c)); destruct (Nat.ltb_spec 99 j); try reflexivity; nia.
Qed.

(** ** Exact arithmetic *)
Section ER.
Local Open Scope R_scope.
Lemma fold_sum l : forall a, fold_left (fun a x => nadd ERNum a x) (map Some l) (Some a) = Some (a + rsum l).
Proof.
  induction l as [|x l IH]; intros a; cbn [map fold_left rsum fold_right].
  - rewrite Rplus_0_r. reflexivity.
  - change (nadd ERNum (Some a) (Some x)) with (Some (a + x)). rewrite IH. f_equal. unfold rsum. cbn. ring.
Qed.
Lemma fold_count (l : list ER) : forall a, fold_left (fun a _ => nadd ERNum a (nofZ ERNum 1)) l (Some a) = Some (a + INR (length l)).
Proof.
  induction l as [|x l IH]; intros a; cbn [fold_left length].
  - rewrite Rplus_0_r. reflexivity.
  - change (nadd ERNum (Some a) (nofZ ERNum 1)) with (Some (a + 1)). rewrite IH, S_INR. f_equal. ring.
Qed.
Theorem traj_mean_ok l : l <> [] -> traj_mean ERNum (map Some l) = Some (avg l).
Proof.
  intros H. unfold traj_mean. change (nofZ ERNum 0) with (Some 0). rewrite fold_sum.
  etransitivity; [apply f_equal; apply fold_count|]. rewrite map_length, !Rplus_0_l. cbn. unfold er_div, avg.
  destruct (Req_EM_T _ _) as [E|E]; [|reflexivity]. exfalso. destruct l; [contradiction|]. cbn [length] in E. rewrite S_INR in E. pose proof (pos_INR (length l)). lra.
Qed.
Theorem traj_mean_nil : traj_mean ERNum [] = None.
Proof. unfold traj_mean. cbn. unfold er_div. destruct (Req_EM_T 0 0); [reflexivity|lra]. Qed.
Lemma rsum_perm l l' : Permutation l l' -> rsum l = rsum l'.
Proof. unfold rsum. induction 1; cbn; lra. Qed.
Theorem traj_mean_order l l' : Permutation l l' -> traj_mean ERNum l = traj_mean ERNum l'.
Proof.
  intros P. unfold traj_mean.
  assert (C : fold_left (fun a _ => nadd ERNum a (nofZ ERNum 1)) l (nofZ ERNum 0) = fold_left (fun a _ => nadd ERNum a (nofZ ERNum 1)) l' (nofZ ERNum 0)).
  { change (nofZ ERNum 0) with (Some 0). etransitivity; [apply fold_count|]. etransitivity; [|symmetry; apply fold_count]. do 3 f_equal. apply Permutation_length. exact P. }
  rewrite C. f_equal. clear C.
  assert (G : forall l l', Permutation l l' -> forall a, fold_left (fun a x => nadd ERNum a x) l a = fold_left (fun a x => nadd ERNum a x) l' a).
  { clear. induction 1; intros a; cbn [fold_left]; auto; try congruence. f_equal.
    change (er2 Rplus (er2 Rplus a y) x = er2 Rplus (er2 Rplus a x) y). destruct a, x, y; cbn; try reflexivity. f_equal. ring. }
  apply G. exact P.
Qed.

Lemma floor_mul c dt : 0 < dt -> u64 (Zfloor (INR c * dt / dt)) = Z.min (2 ^ 64 - 1) (Z.of_nat c).
Proof.
  intros Hd. replace (INR c * dt / dt) with (IZR (Z.of_nat c)) by (rewrite <- INR_IZR_INZ; field; lra).
  rewrite Zfloor_IZR. unfold u64. lia.
Qed.
Theorem traj_cycles n s (sc : chain (num ERNum)) c dt : wf n s sc -> (2 <= n)%nat -> (1 <= s)%nat -> hs_ok (vars sc) ->
  c_dt (vars sc) = Some dt -> tau (vars sc) = Some (INR c * dt) -> 0 < dt -> (1 <= c)%nat -> (1000 * Z.of_nat c < 2 ^ 64)%Z ->
  exists st e, dynamics ERNum sc st /\ (forall k, system_energy ERNum (st k) = Ok (e k)) /\
    traj_run ERNum sc = Ok (map (fun j => e (j * c + 1)%nat) (seq 100 900)).
Proof.
  intros W Hn Hs Hh Ed Ec Hd C1 C2.
  destruct (traj_run_ok ERNum n s sc c (1000 * c) W Hn Hs Hh) as (st & e & D & E & R).
  - transitivity (ntou64 ERNum (ndiv ERNum (Some (INR c * dt)) (Some dt))); [f_equal; apply f_equal2; assumption|].
    rewrite div_ER by exact Hd. rewrite tou_ER, floor_mul by exact Hd. lia.
  - transitivity (ntou64 ERNum (ndiv ERNum (Some (1000 * (INR c * dt))) (Some dt))); [f_equal; apply f_equal2; [|assumption]|].
    + change (Some (1000 * (INR c * dt))) with (nmul ERNum (nofZ ERNum 1000) (Some (INR c * dt))). f_equal. exact Ec.
    + rewrite div_ER by exact Hd. rewrite tou_ER. replace (1000 * (INR c * dt)) with (INR (1000 * c) * dt) by (rewrite mult_INR; simpl (INR 1000); ring).
      rewrite floor_mul by exact Hd. lia.
  - exact C1.
  - lia.
  - exists st, e. split; [exact D|]. split; [exact E|]. rewrite R, sampled_cycles by exact C1. rewrite map_map. f_equal. apply map_ext. intros j. f_equal. lia.
Qed.
End ER.

(** the whole estimate *)
Lemma foldM_collect {A S : Type} (step : nat -> list A * S -> res (list A * S)) (P : nat -> A -> Prop) n : forall k l s,
  (forall i l s, exists a s', step i (l, s) = Ok (l ++ [a], s') /\ P i a) ->
  exists ls s', foldM step (seq k n) (l, s) = Ok (l ++ ls, s') /\ length ls = n /\ Forall2 P (seq k n) ls.
Proof.
  induction n as [|n IH]; intros k l s H; cbn [seq foldM].
  - exists [], s. rewrite app_nil_r. repeat split; constructor.
  - destruct (H k l s) as (a & s1 & -> & Pa). cbn [bind]. destruct (IH (Datatypes.S k) (l ++ [a]) s1 H) as (ls & s2 & E & Le & F).
    exists (a :: ls), s2. rewrite E, <- app_assoc. cbn. repeat split; [congruence|constructor; assumption].
Qed.

Theorem mean_e_ok rg (conf : config (num ERNum)) f c dt : usable ERNum conf -> c_dt conf = Some dt -> tau conf = Some (INR c * dt)%R -> (0 < dt)%R ->
  1 <= c -> (1000 * Z.of_nat c < 2 ^ 64)%Z ->
  exists ess f', trajectory_mean_e ERNum rg conf f = Ok (traj_mean ERNum (r_nums ERNum rg ess), f') /\
    length ess = Z.to_nat (runs conf) /\ Forall (fun es => length es = 900) ess.
Proof.
  intros (C & Rg & Hh & Hs & Th & Rn & Off) Ed Ec Hd C1 C2. unfold trajectory_mean_e. rewrite pool_ok by lia. cbn [bind].
  destruct (num_runs_small ERNum conf Rg Rn) as [-> _]. unfold range. rewrite Nat.sub_0_r.
  match goal with |- context [foldM ?g _ _] => destruct (@foldM_collect (list (num ERNum)) (fs (num ERNum)) g (fun _ es => length es = 900) (Z.to_nat (runs conf)) 0 [] f) as (ess & f' & E & Le & F) end.
  - intros i l g. unfold new_logged.
    destruct (new_wf ERNum conf (dr_new (r_draws ERNum rg i)) C ltac:(lia)) as (sc0 & -> & W & V & Tt & Ff). cbn [bind].
    destruct (thermalise_ok ERNum _ _ (dr_mc (r_draws ERNum rg i)) 20000000 sc0 W ltac:(lia)) as (sc1 & -> & W1 & V1 & T1 & F1); [rewrite V; exact (conf_hs ERNum conf C)|].
    cbn [bind]. rewrite V in V1.
    destruct (traj_cycles _ _ sc1 c dt W1 ltac:(lia) ltac:(lia)) as (st & e & D & X & ->); try (rewrite V1; assumption); try assumption.
    + rewrite V1. exact (conf_hs ERNum conf C).
    + cbn [bind]. eexists _, _. split; [reflexivity|]. rewrite map_length, seq_length. reflexivity.
  - rewrite E. cbn [bind]. exists ess, f'. split; [reflexivity|]. split; [exact Le|]. clear - F. induction F; constructor; assumption.
Qed.
