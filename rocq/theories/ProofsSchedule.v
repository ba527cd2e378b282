(** The contents of the log files do not depend on the schedule of the threads. *)
From Coq Require Import String ZArith List Lia Arith Bool.
From Verif Require Import Num Monad Spin Config Chain Langevin Fit Files Toml Writers Average Runs Main
  SpecToml SpecWriters SpecRuns ProofsDir ProofsNames ProofsToml ProofsFrame ProofsHistory.
Import ListNotations.
Local Open Scope list_scope.

Section S.
Context {T : Type}.
Implicit Types (f : fs T) (a : action T).
Definition target a : string := match a with Create n => n | Append n _ => n end.
Definition touches (n : string) a : bool := String.eqb n (target a).

Lemma exec_other n a f : touches n a = false -> contents (exec a f) n = contents f n.
Proof. unfold touches. destruct a as [m|m l]; cbn [target exec]; intros H; [rewrite contents_create|rewrite contents_append]; rewrite H; reflexivity. Qed.
Lemma exec_same n a f g : contents f n = contents g n -> contents (exec a f) n = contents (exec a g) n.
Proof.
  intros H. destruct a as [m|m l]; cbn [exec]; [rewrite !contents_create|rewrite !contents_append]; destruct (String.eqb_spec n m) as [->|]; try assumption; try reflexivity.
  rewrite H. reflexivity.
Qed.
Lemma exec_all_same n l : forall f g, contents f n = contents g n -> contents (exec_all l f) n = contents (exec_all l g) n.
Proof. induction l as [|a l IH]; intros f g H; cbn; [exact H|]. apply IH, exec_same, H. Qed.
Lemma exec_all_filter n l : forall f, contents (exec_all l f) n = contents (exec_all (filter (touches n) l) f) n.
Proof.
  induction l as [|a l IH]; intros f; cbn; [reflexivity|]. destruct (touches n a) eqn:E; cbn; [apply IH|]. change (contents (exec_all l (exec a f)) n = contents (exec_all (filter (touches n) l) f) n). rewrite <- IH.
  apply exec_all_same, exec_other, E.
Qed.
Lemma filter_all {A} (p : A -> bool) l : Forall (fun x => p x = true) l -> filter p l = l.
Proof. induction 1; cbn; [reflexivity|]. rewrite H. f_equal. assumption. Qed.
Lemma filter_none {A} (p : A -> bool) l : Forall (fun x => p x = false) l -> filter p l = [].
Proof. induction 1; cbn; [reflexivity|]. rewrite H. assumption. Qed.

(** each member of [ws] acts on its own file *)
Definition owns (ns : list string) (ws : list (list (action T))) : Prop := Forall2 (fun n w => Forall (fun a => target a = n) w) ns ws.
Lemma inter_filter ws l : interleaving ws l -> forall ns, owns ns ws -> NoDup ns ->
  (forall i n w, nth_error ns i = Some n -> nth_error ws i = Some w -> filter (touches n) l = w) /\ (forall n, ~ In n ns -> filter (touches n) l = []).
Proof.
  induction 1 as [ws H|ws1 x w ws2 l H IH]; intros ns Ow Nd.
  - split; [|reflexivity]. intros i n w _ Hw. apply nth_error_In in Hw. rewrite Forall_forall in H. rewrite (H _ Hw). reflexivity.
  - unfold owns in Ow. apply Forall2_app_inv_r in Ow. destruct Ow as (ns1 & ns2' & O1 & O2 & ->). inversion O2 as [|n w' ns2 ws' Hx O3]; subst. inversion Hx as [|x' w' Tx Hw]; subst.
    destruct (IH (ns1 ++ target x :: ns2)) as [A B].
    { apply Forall2_app; [exact O1|]. constructor; assumption. }
    { exact Nd. }
    pose proof (F2_length _ _ _ O1) as Ln. split.
    + intros i n w0 Hn H0. cbn [filter]. unfold touches at 1. destruct (Nat.eq_dec i (length ns1)) as [->|Hi].
      * rewrite nth_error_app2, Nat.sub_diag in Hn by lia. injection Hn as <-. rewrite nth_error_app2, Ln, Nat.sub_diag in H0 by lia. injection H0 as <-.
        rewrite String.eqb_refl. f_equal. apply (A (length ns1)); [rewrite nth_error_app2, Nat.sub_diag by lia; reflexivity|]. rewrite nth_error_app2, Ln, Nat.sub_diag by lia. reflexivity.
      * destruct (String.eqb_spec n (target x)) as [->|_].
        { exfalso. apply Hi. apply (proj1 (NoDup_nth_error _) Nd); [apply nth_error_Some; congruence|]. rewrite Hn, nth_error_app2, Nat.sub_diag by lia. reflexivity. }
        apply (A i); [exact Hn|]. destruct (Nat.lt_ge_cases i (length ns1)) as [Hlt|Hge]; [rewrite nth_error_app1 in * by lia; exact H0|].
        rewrite nth_error_app2 in * by lia. replace (i - length ws1) with (S (i - length ws1 - 1)) in * by lia. exact H0.
    + intros n Hn. cbn [filter]. unfold touches at 1. destruct (String.eqb_spec n (target x)) as [->|_]; [|apply B, Hn].
      exfalso. apply Hn, in_app_iff. right. left. reflexivity.
Qed.

Lemma run_actions_owns (l : list (string * list (line T))) : owns (map fst l) (map (fun p => run_actions (fst p) (snd p)) l).
Proof.
  induction l as [|[n ls] l IH]; constructor; [|exact IH]. constructor; [reflexivity|]. induction ls; constructor; auto.
Qed.
Lemma exec_appends n (ls : list (line T)) : forall f c, contents f n = Some c -> contents (exec_all (map (Append n) ls) f) n = Some (c ++ ls).
Proof.
  induction ls as [|x ls IH]; intros f c H; cbn; [rewrite app_nil_r; exact H|]. fold (exec_all (map (Append n) ls) (append n [x] f)).
  rewrite (IH _ (c ++ [x])); [rewrite <- app_assoc; reflexivity|]. rewrite contents_append, String.eqb_refl, H. reflexivity.
Qed.
Lemma exec_run n (ls : list (line T)) f : contents (exec_all (run_actions n ls) f) n = Some ls.
Proof. unfold run_actions. cbn. fold (exec_all (map (Append n) ls) (create n f)). rewrite (exec_appends n ls _ []); [reflexivity|]. rewrite contents_create, String.eqb_refl. reflexivity. Qed.

Theorem schedule f l acts : NoDup (map fst l) -> interleaving (map (fun p => run_actions (fst p) (snd p)) l) acts -> wrote f (exec_all acts f) l.
Proof.
  intros Nd I. destruct (inter_filter _ _ I _ (run_actions_owns l) Nd) as [A B]. split.
  - intros n ls Hin. rewrite exec_all_filter. apply In_nth_error in Hin. destruct Hin as [i Hi].
    rewrite (A i n (run_actions n ls)); [apply exec_run| |]; rewrite nth_error_map, Hi; reflexivity.
  - intros n Hn. rewrite exec_all_filter, (B n Hn). reflexivity.
Qed.
Lemma filter_prefix {A} (p : A -> bool) l1 l2 : filter p (l1 ++ l2) = filter p l1 ++ filter p l2.
Proof. apply filter_app. Qed.
Theorem schedule_prefix f l acts1 acts2 : NoDup (map fst l) -> interleaving (map (fun p => run_actions (fst p) (snd p)) l) (acts1 ++ acts2) ->
  (forall n ls, In (n, ls) l -> contents (exec_all acts1 f) n = contents f n \/ exists k, contents (exec_all acts1 f) n = Some (firstn k ls)) /\
  (forall n, ~ In n (map fst l) -> contents (exec_all acts1 f) n = contents f n).
Proof.
  intros Nd I. destruct (inter_filter _ _ I _ (run_actions_owns l) Nd) as [A B]. split.
  - intros n ls Hin. rewrite exec_all_filter. apply In_nth_error in Hin. destruct Hin as [i Hi].
    assert (F : filter (touches n) (acts1 ++ acts2) = run_actions n ls) by (apply (A i); rewrite nth_error_map, Hi; reflexivity).
    rewrite filter_app in F. destruct (filter (touches n) acts1) as [|a r]; [left; reflexivity|]. right. cbn in F. injection F as -> F.
    assert (Er : r = firstn (length r) (map (Append n) ls)) by (rewrite <- F, firstn_app, Nat.sub_diag, firstn_all, app_nil_r; reflexivity).
    exists (length r). assert (X : r = map (Append n) (firstn (length r) ls)) by (rewrite <- firstn_map; exact Er).
    pose proof (exec_run n (firstn (length r) ls) f) as Y. unfold run_actions in Y. rewrite <- X in Y. exact Y.
  - intros n Hn. rewrite exec_all_filter. specialize (B n Hn). rewrite filter_app in B. apply app_eq_nil in B. destruct B as [-> _]. reflexivity.
Qed.
Lemma wrote_det f g g' l : NoDup (map fst l) -> wrote f g l -> wrote f g' l -> forall n, contents g n = contents g' n.
Proof.
  intros Nd [A1 B1] [A2 B2] n. destruct (in_dec string_dec n (map fst l)) as [H|H]; [|rewrite B1, B2; auto].
  apply in_map_iff in H. destruct H as ([m ls] & <- & Hin). cbn. rewrite (A1 _ _ Hin), (A2 _ _ Hin). reflexivity.
Qed.
Lemma logs_nodup file (lss : list (list (line T))) : forall o, NoDup (map fst (logs file o lss)).
Proof.
  induction lss as [|ls lss IH]; intros o; [constructor|]. rewrite logs_cons. cbn [map fst]. constructor; [|apply IH].
  intros H. apply logs_names in H. destruct H as (i & _ & H). apply log_name_inj in H. lia.
Qed.
End S.

Section M.
Context (N : NumOps).
Notation T := (num N).
(** the saving modes: any schedule of the threads leads to the directory of the model *)
Definition any_schedule (P : nat -> list (line T) -> Prop) (conf : config T) (f f' : fs T) : Prop :=
  exists lss, Forall2 P (seq 0 (length lss)) lss /\ length lss = num_runs N conf /\
    forall acts, interleaving (map (fun p => run_actions (fst p) (snd p)) (logs (c_file conf) (Z.to_nat (offset conf)) lss)) acts ->
      forall n, contents (exec_all acts f) n = contents f' n.
Lemma frame_schedule worker rg conf f conf' f' : run_frame N worker rg conf f = Ok (conf', f') -> c_log conf = true ->
  any_schedule (fun i ls => exists sc out, chain_new N conf (dr_new (r_draws N rg i)) = Ok sc /\ worker (r_draws N rg i) sc = Ok out /\ ls = map numbers out) conf f f'.
Proof.
  intros E L. apply run_frame_wrote in E. destruct E as [(lss & F & W) _]. rewrite L in W. pose proof (F2_length _ _ _ F) as Ln. rewrite seq_length in Ln.
  exists lss. rewrite <- Ln. split; [exact F|]. split; [reflexivity|]. intros acts I. apply (wrote_det f _ _ _ (logs_nodup _ _ _) (schedule _ _ _ (logs_nodup _ _ _) I) W).
Qed.
Lemma langevin_schedule fuel g rg conf f conf' f' : run_langevin N fuel g rg conf f = Ok (conf', f') ->
  any_schedule (fun i ls => exists lc out, lchain_new N conf g (dr_new (r_draws N rg i)) = Ok lc /\
    langevin_worker N fuel (r_draws N rg i) (r_noise N rg i) lc = Ok out /\ ls = l_header N :: map numbers out) conf f f'.
Proof.
  unfold run_langevin. intros E. apply bind_ok in E. destruct E as (u & E1 & E). apply bind_ok in E. destruct E as (f1 & E2 & E3).
  pose proof (finish_ok _ _ _ _ _ _ E3) as (_ & _ & D & _). unfold range in E2. rewrite Nat.sub_0_r in E2.
  apply (fold_wrote (fun f => f) _ (c_file conf) (fun i ls => exists lc out, lchain_new N conf g (dr_new (r_draws N rg i)) = Ok lc /\
    langevin_worker N fuel (r_draws N rg i) (r_noise N rg i) lc = Ok out /\ ls = l_header N :: map numbers out) 0 (num_runs N conf) (Z.to_nat (offset conf))) in E2.
  - destruct E2 as (lss & F & W). pose proof (F2_length _ _ _ F) as Ln. rewrite seq_length in Ln. exists lss. rewrite <- Ln. split; [exact F|]. split; [reflexivity|].
    intros acts I n. unfold contents at 2. rewrite D. fold (contents f1 n). revert n. exact (wrote_det f _ _ _ (logs_nodup _ _ _) (schedule _ _ _ (logs_nodup _ _ _) I) W).
  - intros i h h' Hi Eh. apply bind_ok in Eh. destruct Eh as (lc & Elc & Eh). apply bind_ok in Eh. destruct Eh as (out & Eo & Eh).
    apply Ok_inj in Eh. subst h'. exists (l_header N :: map numbers out). split; [eauto 6|]. rewrite Nat.sub_0_r.
    apply (wrote_append _ _ _ [l_header N] (map numbers out)). apply (wrote_append _ _ _ [] [l_header N]). apply wrote_create.
Qed.
End M.
Lemma modes_schedule N fuel rg conf f conf' f' : c_log conf = true ->
  let same worker := exists lss, length lss = num_runs N conf /\
    Forall2 (fun i ls => exists sc out, chain_new N conf (dr_new (r_draws N rg i)) = Ok sc /\ worker (r_draws N rg i) sc = Ok out /\ ls = map numbers out) (seq 0 (length lss)) lss /\
    forall acts, interleaving (map (fun p => run_actions (fst p) (snd p)) (logs (c_file conf) (Z.to_nat (offset conf)) lss)) acts ->
      forall n, contents (exec_all acts f) n = contents f' n in
  (run_sim N fuel rg conf f = Ok (conf', f') -> same (sim_worker N (chain_log N) fuel)) /\
  (run_ext N fuel rg conf f = Ok (conf', f') -> same (sim_worker N (log_ext N) fuel)) /\
  (run_sim_response N fuel rg conf f = Ok (conf', f') -> same (response_worker N fuel)).
Proof.
  intros L same. split; [|split]; intros E; apply frame_schedule in E; try exact L; destruct E as (lss & A & B & C); exists lss; (split; [exact B|]); (split; [exact A|exact C]).
Qed.
Lemma langevin_schedule2 N fuel g rg conf f conf' f' : run_langevin N fuel g rg conf f = Ok (conf', f') ->
  exists lss, length lss = num_runs N conf /\
    Forall2 (fun i ls => exists lc out, lchain_new N conf g (dr_new (r_draws N rg i)) = Ok lc /\
      langevin_worker N fuel (r_draws N rg i) (r_noise N rg i) lc = Ok out /\ ls = l_header N :: map numbers out) (seq 0 (length lss)) lss /\
    forall acts, interleaving (map (fun p => run_actions (fst p) (snd p)) (logs (c_file conf) (Z.to_nat (offset conf)) lss)) acts ->
      forall n, contents (exec_all acts f) n = contents f' n.
Proof. intros E. apply langevin_schedule in E. destruct E as (lss & A & B & C). exists lss. auto. Qed.
