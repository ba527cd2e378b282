(** The whole program: completed default runs, saved configurations, crashes while saving. *)
From Coq Require Import String SpecFloat Reals ZArith List Lia Arith Bool.
From Flocq Require Import Core.
From Verif Require Import Num NumR Monad Spin Config Chain Langevin Fit Files Toml Writers Average Runs Main
  SpecChain SpecRuns SpecToml SpecMain ProofsDir ProofsNames ProofsToml ProofsFrame ProofsMain ProofsHistory ProofsSim.
Import ListNotations.
Local Close Scope R_scope.
Local Open Scope nat_scope.
Local Open Scope list_scope.

Section P.
Context (N : NumOps).
Notation T := (num N).
Implicit Types (s : state N) (a : args T) (f d : fs T) (conf c : config T).

Lemma main_default_ok fuel w a f conf f0 b c' f' : selected a = [] -> read_config N f = Ok (conf, f0) ->
  settled N fuel a (with_tau N a conf) b -> run_sim N fuel (w_rng N w Mdefault) (set_beta (with_tau N a conf) b) f0 = Ok (c', f') ->
  main N fuel w a f = Ok (mkSt N c' f' false [(Mdefault, set_beta (with_tau N a conf) b)]).
Proof.
  intros S Rd Hb E. assert (H : only N Mdefault a) by (intros m; rewrite S; intros []).
  unfold main, main_before, main_after.
  rewrite (off_desc N _ (fun h => ltac:(discriminate (H _ h)))), (off_ext N _ (fun h => ltac:(discriminate (H _ h)))),
    (off_tau N _ (fun h => ltac:(discriminate (H _ h)))), (off_adiab2 N _ (fun h => ltac:(discriminate (H _ h)))),
    (off_rot N _ (fun h => ltac:(discriminate (H _ h)))), (off_maglab N _ (fun h => ltac:(discriminate (H _ h)))),
    (off_fit N _ (fun h => ltac:(discriminate (H _ h)))), (off_fiteff N _ (fun h => ltac:(discriminate (H _ h)))),
    (off_high N _ (fun h => ltac:(discriminate (H _ h)))), (off_adiabatic N _ (fun h => ltac:(discriminate (H _ h)))),
    (off_hist N _ (fun h => ltac:(discriminate (H _ h)))), (off_dynhist N _ (fun h => ltac:(discriminate (H _ h)))),
    (off_magnus N _ (fun h => ltac:(discriminate (H _ h)))), (off_traj N _ (fun h => ltac:(discriminate (H _ h)))),
    (off_avg N _ (fun h => ltac:(discriminate (H _ h)))), (off_two N _ (fun h => ltac:(discriminate (H _ h)))),
    (off_mc N _ (fun h => ltac:(discriminate (H _ h)))), (off_mcp N _ (fun h => ltac:(discriminate (H _ h)))),
    (off_dynp N _ (fun h => ltac:(discriminate (H _ h)))), (off_mcf N _ (fun h => ltac:(discriminate (H _ h)))),
    (off_lang N _ (fun h => ltac:(discriminate (H _ h)))), (off_resp N _ (fun h => ltac:(discriminate (H _ h)))).
  cbn [flag when bind]. rewrite Rd. cbn [bind]. fold (with_tau N a conf).
  assert (X : settle_beta N fuel a (mkSt N (with_tau N a conf) f0 true []) = Ok (mkSt N (set_beta (with_tau N a conf) b) f0 true [])).
  { unfold settle_beta, settled in *. cbn [s_conf s_fs s_default s_trace]. destruct (a_beta a); [subst b; reflexivity|]. rewrite Hb. reflexivity. }
  rewrite X. cbn [bind s_default]. unfold do_run. cbn [s_conf s_fs]. rewrite E. reflexivity.
Qed.

(** Saving and loading *)
Lemma reload conf d : in_range conf -> exists d', save_config N conf d = Ok d' /\ f_dat d' = f_dat d /\ read_config N d' = Ok (conf, d').
Proof.
  intros R. destruct (round_trip N conf R) as (l & E1 & E2). unfold save_config. rewrite E1. cbn [bind].
  eexists. split; [reflexivity|]. split; [reflexivity|]. unfold read_config. cbn [put_conf f_conf]. rewrite E2. reflexivity.
Qed.
Lemma save_refused conf d : (2 ^ 63 <= threads conf \/ 2 ^ 63 <= mc_points conf)%Z -> save_config N conf d = Panic Unwrap.
Proof.
  intros H. unfold save_config, to_toml. destruct (Z.leb_spec (2 ^ 63) (threads conf)), (Z.leb_spec (2 ^ 63) (mc_points conf)); cbn; (reflexivity || lia).
Qed.
Lemma read_table l d : f_conf d = Table l -> forall conf d', read_config N d = Ok (conf, d') <->
  (NoDup (map fst l) /\ (forall k v kd, In (k, v) l -> In (k, kd) keys -> allowed kd v) /\ denotes N l conf /\ d' = d).
Proof.
  intros E conf d'. unfold read_config. rewrite E. pose proof (from_toml_iff N l) as I. split.
  - destruct (from_toml N l) as [c|]; [|discriminate]. intros [= <- <-]. destruct (proj1 (I c) eq_refl) as (A & B & C). auto.
  - intros (A & B & C & ->). rewrite (proj2 (I conf) (conj A (conj B C))). reflexivity.
Qed.
Lemma read_bad l d : f_conf d = Table l ->
  (~ NoDup (map fst l) \/ exists k v kd, In (k, v) l /\ In (k, kd) keys /\ ~ allowed kd v) -> read_config N d = Panic Explicit.
Proof.
  intros E H. unfold read_config. rewrite E. rewrite (proj2 (from_toml_none N l)); [reflexivity|].
  intros [A B]. destruct H as [H|(k & v & kd & H1 & H2 & H3)]; [exact (H A)|]. exact (H3 (B _ _ _ H1 H2)).
Qed.
Lemma read_good l d : f_conf d = Table l ->
  NoDup (map fst l) -> (forall k v kd, In (k, v) l -> In (k, kd) keys -> allowed kd v) -> exists conf, read_config N d = Ok (conf, d).
Proof.
  intros E A B. destruct (from_toml_total N l A B) as [c Ec]. exists c. unfold read_config. rewrite E, Ec. reflexivity.
Qed.

Lemma read_missing d : f_conf d = Missing -> exists conf d', read_config N d = Ok (conf, d') /\ denotes N [] conf /\
  f_dat d' = f_dat d /\ (exists l, f_conf d' = Table l) /\ read_config N d' = Ok (conf, d').
Proof.
  intros E. destruct (reload (config_default N) d (default_in_range N)) as (d' & E1 & E2 & E3).
  exists (config_default N), d'. unfold read_config at 1. rewrite E, E1. cbn [bind]. split; [reflexivity|]. split; [|split; [exact E2|split; [|exact E3]]].
  - apply from_toml_iff. reflexivity.
  - unfold save_config in E1. destruct (to_toml N _) as [l| |]; cbn [bind] in E1; try discriminate. injection E1 as <-. exists l. reflexivity.
Qed.

(** A crash after [n] lines *)
Lemma cut_read conf l d n : in_range conf -> to_toml N conf = Ok l ->
  read_config N (put_conf (Table (firstn n l)) d) = Ok (cut N n conf, put_conf (Table (firstn n l)) d).
Proof.
  intros R E. apply to_toml_lines in E. subst l. unfold read_config. cbn [put_conf f_conf]. rewrite (from_cut N conf n R). reflexivity.
Qed.
Lemma cut_reset conf l d n : in_range conf -> to_toml N conf = Ok l ->
  save_config N conf d = Ok (put_conf (Table l) d) /\ length l = 23 /\
  exists conf', read_config N (put_conf (Table (firstn n l)) d) = Ok (conf', put_conf (Table (firstn n l)) d) /\
    denotes N (firstn n l) conf' /\
    (n <= 17 -> offset conf' = 0%Z) /\ (n <= 15 -> c_file conf' = "log"%string) /\ (16 <= n -> c_file conf' = c_file conf) /\ (23 <= n -> conf' = conf).
Proof.
  intros R E. split; [unfold save_config; rewrite E; reflexivity|]. split; [apply to_toml_lines in E; subst l; reflexivity|].
  exists (cut N n conf). split; [apply cut_read; assumption|]. split.
  - apply from_toml_iff. apply to_toml_lines in E. subst l. apply from_cut. exact R.
  - unfold cut; cbn [offset c_file]. repeat split; intros H.
    + destruct (Nat.ltb_spec 17 n); [lia|reflexivity].
    + destruct (Nat.ltb_spec 15 n); [lia|reflexivity].
    + destruct (Nat.ltb_spec 15 n); [reflexivity|lia].
    + exact (cut_all N conf n H).
Qed.

(** Runs do not look at the old contents of their logs *)
Lemma run_frame_same worker rg conf f1 f2 c1 g1 c2 g2 i : c_log conf = true -> i < num_runs N conf ->
  run_frame N worker rg conf f1 = Ok (c1, g1) -> run_frame N worker rg conf f2 = Ok (c2, g2) ->
  exists ls, contents g1 (log_name (c_file conf) (Z.to_nat (offset conf) + i)) = Some ls /\
             contents g2 (log_name (c_file conf) (Z.to_nat (offset conf) + i)) = Some ls.
Proof.
  intros L Hi E1 E2. apply run_frame_wrote in E1, E2. destruct E1 as [(l1 & F1 & [W1 _]) _], E2 as [(l2 & F2 & [W2 _]) _]. rewrite L in *.
  assert (l1 = l2) as <-.
  { clear - F1 F2. revert l2 F2. induction F1 as [|j ls q l1 (sc & out & A & B & ->) F1 IH]; intros l2 F2; inversion F2 as [|? ls2 ? l2' (sc2 & out2 & A2 & B2 & ->) F2']; subst; [reflexivity|].
    rewrite A in A2. injection A2 as <-. rewrite B in B2. assert (out2 = out) as -> by congruence. f_equal. apply IH. exact F2'. }
  pose proof (F2_length _ _ _ F1) as FL. rewrite seq_length in FL.
  destruct (nth_error l1 i) as [ls|] eqn:El; [|apply nth_error_None in El; lia].
  exists ls. split; [apply W1|apply W2]; apply logs_in; exact El.
Qed.
Lemma settled_fun fuel a conf b b' : settled N fuel a conf b -> settled N fuel a conf b' -> b = b'.
Proof. unfold settled. destruct (a_beta a); congruence. Qed.
Lemma cut_overwrites conf l n fuel w a d1 d2 st1 st2 : in_range conf -> to_toml N conf = Ok l -> 16 <= n <= 17 -> (1 <= runs conf)%Z ->
  selected a = [] -> main N fuel w a (put_conf (Table (firstn n l)) d1) = Ok st1 -> main N fuel w a (put_conf (Table (firstn n l)) d2) = Ok st2 ->
  exists ls, contents (s_fs N st1) (log_name (c_file conf) 0) = Some ls /\ contents (s_fs N st2) (log_name (c_file conf) 0) = Some ls.
Proof.
  intros R E Hn Hr S M1 M2. apply (main_default N) in M1, M2; try exact S.
  destruct M1 as (c1 & f1 & b1 & Rd1 & B1 & E1 & _), M2 as (c2 & f2 & b2 & Rd2 & B2 & E2 & _).
  rewrite (cut_read _ _ _ _ R E) in Rd1. rewrite (cut_read _ _ _ _ R E) in Rd2. injection Rd1 as <- <-. injection Rd2 as <- <-.
  rewrite (settled_fun _ _ _ _ _ B2 B1) in E2. clear B2.
  set (conf1 := set_beta (with_tau N a (cut N n conf)) b1) in *.
  assert (L : c_log conf1 = true /\ offset conf1 = 0%Z /\ c_file conf1 = c_file conf /\ runs conf1 = runs conf).
  { unfold conf1, with_tau. assert (X : c_log (cut N n conf) = true /\ offset (cut N n conf) = 0%Z /\ c_file (cut N n conf) = c_file conf /\ runs (cut N n conf) = runs conf).
    { unfold cut; cbn [c_log offset c_file runs]. destruct (Nat.ltb_spec 22 n); [lia|]. destruct (Nat.ltb_spec 17 n); [lia|]. destruct (Nat.ltb_spec 15 n); [|lia]. destruct (Nat.ltb_spec 4 n); [|lia]. auto. }
    destruct (a_tau a); exact X. }
  destruct L as (L1 & L2 & L3 & L4).
  assert (Hi : 0 < num_runs N conf1).
  { unfold num_runs, as_usize. rewrite L4. unfold in_range in R. rewrite Z.mod_small by lia. lia. }
  destruct (run_frame_same _ _ _ _ _ _ _ _ _ 0 L1 Hi E1 E2) as (ls & A & B). rewrite L2, L3 in A, B. eauto.
Qed.
End P.

(** Exact arithmetic: completed default invocations *)
Definition plain_conf (conf : config (num ERNum)) (r dt tmax : R) : Prop :=
  usable ERNum conf /\ c_log conf = true /\ strob conf = false /\ trel conf = Some r /\ c_dt conf = Some dt /\ c_t conf = Some tmax /\ (0 < dt)%R.

Lemma main_plain fuel w (a : args (num ERNum)) f conf f0 r dt tmax b : selected a = [] -> a_beta a = Some b -> read_config ERNum f = Ok (conf, f0) ->
  plain_conf conf r dt tmax -> let m := Z.to_nat (Zceil ((tmax + r) / dt)) in m <= fuel ->
  exists st, main ERNum fuel w a f = Ok st /\
    forall i, i < Z.to_nat (runs conf) -> exists ls, contents (s_fs ERNum st) (log_name (c_file conf) (Z.to_nat (offset conf) + i)) = Some ls /\ length ls = S m.
Proof.
  intros S B Rd (U & L & St & Er & Ed & Et & Hd) m Hm. set (conf1 := set_beta (with_tau ERNum a conf) b).
  assert (K : usable ERNum conf1 /\ c_log conf1 = true /\ strob conf1 = false /\ trel conf1 = Some r /\ c_dt conf1 = Some dt /\ c_t conf1 = Some tmax /\
    c_file conf1 = c_file conf /\ offset conf1 = offset conf /\ runs conf1 = runs conf).
  { unfold conf1, with_tau. destruct (a_tau a); (split; [exact U|]); auto 10. }
  destruct K as (U1 & L1 & St1 & Er1 & Ed1 & Et1 & F1 & O1 & R1).
  destruct (run_sim_files fuel (w_rng ERNum w Mdefault) conf1 f0 r dt tmax U1 L1 St1 Er1 Ed1 Et1 Hd Hm) as (c' & f' & E & H & _).
  eexists. split; [apply (main_default_ok ERNum fuel w a f conf f0 b c' f' S Rd); [unfold settled; rewrite B; reflexivity|exact E]|].
  cbn [s_fs]. intros i Hi. rewrite R1, F1, O1 in H. destruct (H i Hi) as (ls & C & Ln & _). eauto.
Qed.

Lemma cut_runs conf l d n fuel w (a : args (num ERNum)) b r dt tmax : to_toml ERNum conf = Ok l -> plain_conf conf r dt tmax ->
  16 <= n <= 17 -> (1 <= runs conf)%Z -> selected a = [] -> a_beta a = Some b -> let m := Z.to_nat (Zceil ((tmax + r) / dt)) in m <= fuel ->
  exists st, main ERNum fuel w a (put_conf (Table (firstn n l)) d) = Ok st /\
    exists ls, contents (s_fs ERNum st) (log_name (c_file conf) 0) = Some ls /\ length ls = S m.
Proof.
  intros E (U & L & St & Er & Ed & Et & Hd) Hn Hr S B m Hm. assert (R := U). destruct R as (C & R & H1 & H2 & H3 & H4 & H5).
  destruct (main_plain fuel w a (put_conf (Table (firstn n l)) d) (cut ERNum n conf) _ r dt tmax b S B (cut_read ERNum conf l d n R E)) as (st & M & Q); [|exact Hm|].
  - unfold plain_conf, usable, conf_ok, in_range in *. unfold cut.
    cbn [hsize ssize runs method offset threads mc_points jvar hvar hfield hs length c_log strob trel c_dt c_t].
    assert (Lo : forall A i (x y : A), i < 16 -> (if i <? n then x else y) = x) by (intros A i x y Hi; destruct (Nat.ltb_spec i n); [reflexivity|lia]).
    assert (Hi : forall A i (x y : A), 17 <= i -> (if i <? n then x else y) = y) by (intros A i x y Hi; destruct (Nat.ltb_spec i n); [lia|reflexivity]).
    rewrite ?(Lo _ 0), ?(Lo _ 1), ?(Lo _ 2), ?(Lo _ 3), ?(Lo _ 4), ?(Lo _ 5), ?(Lo _ 6), ?(Lo _ 9), ?(Lo _ 10), ?(Lo _ 11), ?(Lo _ 12), ?(Lo _ 13) by lia.
    rewrite ?(Hi _ 17), ?(Hi _ 19), ?(Hi _ 22) by lia.
    cbn [config_default offset mc_points c_log strob].
    assert (SS : (if 16 <? n then strob conf else false) = false) by (destruct (16 <? n); [exact St|reflexivity]). rewrite SS.
    repeat split; try assumption; try apply C; lia.
  - exists st. split; [exact M|].
    assert (X : offset (cut ERNum n conf) = 0%Z /\ c_file (cut ERNum n conf) = c_file conf /\ runs (cut ERNum n conf) = runs conf).
    { unfold cut; cbn [offset c_file runs]. destruct (Nat.ltb_spec 17 n); [lia|]. destruct (Nat.ltb_spec 15 n); [|lia]. destruct (Nat.ltb_spec 4 n); [|lia]. auto. }
    destruct X as (X1 & X2 & X3). rewrite X1, X2, X3 in Q. apply (Q 0). lia.
Qed.
Lemma read_writes_nothing N (d : fs (num N)) conf d' : f_conf d <> Missing -> read_config N d = Ok (conf, d') -> d' = d.
Proof.
  unfold read_config. intros M. destruct (f_conf d) as [| |l]; [contradiction|discriminate|].
  destruct (from_toml N l); [|discriminate]. intros [= <- <-]. reflexivity.
Qed.
