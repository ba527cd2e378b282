(** The frame of the run modes: which files they write. *)
From Coq Require Import String ZArith List Lia Arith Bool.
From Verif Require Import Num Monad Spin Config Chain Langevin Fit Files Toml Writers Average Runs
  SpecRuns SpecToml ProofsDir ProofsNames ProofsToml.
Import ListNotations.
Local Open Scope list_scope.

Lemma bind_ok {A B} (m : res A) (f : A -> res B) r : bind m f = Ok r -> exists a, m = Ok a /\ f a = Ok r.
Proof. destruct m; cbn; try discriminate. eauto. Qed.

Lemma F2_length {A B} (R : A -> B -> Prop) l l' : Forall2 R l l' -> length l = length l'.
Proof. induction 1; cbn; congruence. Qed.
Section Wrote.
Context {T : Type}.
Implicit Types (f : fs T).

Lemma wrote_refl f : wrote f f [].
Proof. split; [intros n ls []|reflexivity]. Qed.
Lemma wrote_trans f f1 f2 l1 l2 : wrote f f1 l1 -> wrote f1 f2 l2 ->
  (forall n, In n (map fst l1) -> ~ In n (map fst l2)) -> wrote f f2 (l1 ++ l2).
Proof.
  intros [A1 B1] [A2 B2] D. split.
  - intros n ls H. apply in_app_or in H. destruct H as [H|H]; [|apply A2, H].
    rewrite B2; [apply A1, H|]. apply D. apply (in_map fst) in H. exact H.
  - intros n H. rewrite map_app in H. rewrite B2, B1; [reflexivity| |]; intros H'; apply H; apply in_or_app; auto.
Qed.
Lemma wrote_create n f : wrote f (create n f) [(n, [])].
Proof.
  split.
  - intros m ls [[= <- <-]|[]]. rewrite contents_create, String.eqb_refl. reflexivity.
  - intros m H. rewrite contents_create. destruct (String.eqb_spec m n) as [->|]; [|reflexivity]. exfalso. apply H. left. reflexivity.
Qed.
Lemma wrote_append f f' n ls more : wrote f f' [(n, ls)] -> wrote f (append n more f') [(n, ls ++ more)].
Proof.
  intros [A B]. split.
  - intros m ls' [[= <- <-]|[]]. rewrite contents_append, String.eqb_refl, (A n ls) by (left; reflexivity). reflexivity.
  - intros m H. rewrite contents_append. destruct (String.eqb_spec m n) as [->|]; [exfalso; apply H; left; reflexivity|].
    apply B. intros [E|[]]. apply H. left. exact E.
Qed.
Lemma wrote_conf f f' l c : wrote f f' l -> wrote f (put_conf c f') l.
Proof. intros H. exact H. Qed.
Lemma wrote_conf_l f f' l c : wrote f f' l -> wrote (put_conf c f) f' l.
Proof. intros H. exact H. Qed.

Lemma logs_cons file o (ls : list (line T)) lss : logs file o (ls :: lss) = (log_name file o, ls) :: logs file (S o) lss.
Proof. reflexivity. Qed.
Lemma logs_names file lss : forall o n, In n (map fst (@logs T file o lss)) -> exists i, i < length lss /\ n = log_name file (o + i).
Proof.
  induction lss as [|ls lss IH]; intros o n; [intros []|]. rewrite logs_cons. cbn [map fst length].
  intros [<-|H]; [exists 0; rewrite Nat.add_0_r; split; [lia|reflexivity]|].
  apply IH in H. destruct H as (i & Hi & ->). exists (S i). rewrite <- Nat.add_succ_comm. split; [lia|reflexivity].
Qed.
Lemma logs_in file lss : forall o i ls, nth_error lss i = Some ls -> In (log_name file (o + i), ls) (@logs T file o lss).
Proof.
  induction lss as [|l0 lss IH]; intros o [|i] ls H; try discriminate; rewrite logs_cons.
  - cbn in H. injection H as ->. rewrite Nat.add_0_r. left. reflexivity.
  - right. rewrite <- Nat.add_succ_comm. apply IH. exact H.
Qed.

(** A fold whose i-th step writes log file number [o + i] *)
Lemma fold_wrote {A} (dir : A -> fs T) (step : nat -> A -> res A) (file : string) (P : nat -> list (line T) -> Prop) k n : forall o a a',
  (forall i a a', In i (seq k n) -> step i a = Ok a' -> exists ls, P i ls /\ wrote (dir a) (dir a') [(log_name file (i - k + o), ls)]) ->
  foldM step (seq k n) a = Ok a' ->
  exists lss, Forall2 P (seq k n) lss /\ wrote (dir a) (dir a') (logs file o lss).
Proof.
  revert k. induction n as [|n IH]; intros k o a a' H E; cbn [seq foldM] in E.
  - injection E as <-. exists []. split; [constructor|apply wrote_refl].
  - apply bind_ok in E. destruct E as (a1 & E1 & E2).
    destruct (H k a a1 (or_introl eq_refl) E1) as (ls & HP & W). rewrite Nat.sub_diag in W. cbn [Nat.add] in W.
    destruct (IH (S k) (S o) a1 a') as (lss & F & W2).
    + intros i b b' Hi Hb. destruct (H i b b') as (ls' & HP' & W').
      * right. exact Hi.
      * exact Hb.
      * exists ls'. split; [exact HP'|]. apply in_seq in Hi. replace (i - S k + S o) with (i - k + o) by lia. exact W'.
    + exact E2.
    + exists (ls :: lss). split; [constructor; assumption|]. rewrite logs_cons.
      apply (wrote_trans _ (dir a1) _ [_]); [exact W|exact W2|].
      intros m [<-|[]] Hin. apply logs_names in Hin. destruct Hin as (i & _ & Hi). apply log_name_inj in Hi. lia.
Qed.
Lemma fold_quiet {A} (dir : A -> fs T) (step : nat -> A -> res A) (P : nat -> Prop) k n : forall a a',
  (forall i a a', In i (seq k n) -> step i a = Ok a' -> P i /\ wrote (dir a) (dir a') []) ->
  foldM step (seq k n) a = Ok a' -> Forall P (seq k n) /\ wrote (dir a) (dir a') [].
Proof.
  revert k. induction n as [|n IH]; intros k a a' H E; cbn [seq foldM] in E.
  - injection E as <-. split; [constructor|apply wrote_refl].
  - apply bind_ok in E. destruct E as (a1 & E1 & E2).
    destruct (H k a a1 (or_introl eq_refl) E1) as (HP & W).
    destruct (IH (S k) a1 a') as (F & W2); [|exact E2|].
    + intros i b b' Hi Hb. apply H; [right; exact Hi|exact Hb].
    + split; [constructor; assumption|]. apply (wrote_trans _ (dir a1) _ [] []); [exact W|exact W2|intros ? []].
Qed.
End Wrote.

Section Frame.
Context (N : NumOps).
Notation T := (num N).
Implicit Types (conf : config T) (f : fs T).

Definition is_run (worker : draws N -> chain T -> res (list (list T))) (rg : rng N) conf (i : nat) (ls : list (line T)) : Prop :=
  exists sc out, chain_new N conf (dr_new (r_draws N rg i)) = Ok sc /\ worker (r_draws N rg i) sc = Ok out /\ ls = map numbers out.

Lemma run_chains_wrote worker rg conf num f f' : run_chains N worker rg conf num f = Ok f' ->
  exists lss, Forall2 (is_run worker rg conf) (seq 0 num) lss /\
    wrote f f' (if c_log conf then logs (c_file conf) (Z.to_nat (offset conf)) lss else []) /\ f_conf f' = f_conf f.
Proof.
  intros E. unfold run_chains, range in E. rewrite Nat.sub_0_r in E.
  assert (C : f_conf f' = f_conf f).
  { clear - E. revert f f' E. generalize 0. induction num as [|num IH]; intros k f f' E; cbn [seq foldM] in E; [congruence|].
    apply bind_ok in E. destruct E as (f1 & E1 & E2). apply IH in E2. rewrite E2. clear E2.
    apply bind_ok in E1. destruct E1 as ([sc f2] & E3 & E4). apply bind_ok in E4. destruct E4 as (ls & E5 & E6).
    unfold new_logged in E3. apply bind_ok in E3. destruct E3 as (sc' & E7 & E8). injection E8 as <- <-. injection E6 as <-.
    unfold log_lines. destruct (c_log conf); reflexivity. }
  destruct (c_log conf) eqn:L.
  - apply (fold_wrote (fun f => f) _ (c_file conf) (is_run worker rg conf) 0 num (Z.to_nat (offset conf))) in E.
    + destruct E as (lss & F & W). exists lss. split; [exact F|]. split; [exact W|exact C].
    + intros i g g' Hi Eg. apply bind_ok in Eg. destruct Eg as ([sc g1] & E1 & E2). apply bind_ok in E2. destruct E2 as (out & E3 & E4).
      unfold new_logged in E1. apply bind_ok in E1. destruct E1 as (sc' & E5 & E6). rewrite L in E6. injection E6 as <- <-.
      injection E4 as <-. unfold log_lines. rewrite L. exists (map numbers out). split; [exists sc', out; auto|].
      rewrite Nat.sub_0_r. apply (wrote_append _ _ _ [] (map numbers out)). apply wrote_create.
  - apply (fold_quiet (fun f => f) _ (fun i => exists ls, is_run worker rg conf i ls) 0 num) in E.
    + destruct E as (F & W).
      assert (G : exists lss, Forall2 (is_run worker rg conf) (seq 0 num) lss).
      { clear - F. induction F as [|i l [ls Hls] F [lss IH]]; [exists []; constructor|exists (ls :: lss); constructor; assumption]. }
      destruct G as [lss G]. exists lss. auto.
    + intros i g g' Hi Eg. apply bind_ok in Eg. destruct Eg as ([sc g1] & E1 & E2). apply bind_ok in E2. destruct E2 as (out & E3 & E4).
      unfold new_logged in E1. apply bind_ok in E1. destruct E1 as (sc' & E5 & E6). rewrite L in E6. injection E6 as <- <-.
      injection E4 as <-. unfold log_lines. rewrite L. split; [exists (map numbers out), sc', out; auto|apply wrote_refl].
Qed.

Lemma finish_ok conf num f conf' f' : finish N conf num f = Ok (conf', f') ->
  (0 <= offset conf + u32 (Z.of_nat num) < 2 ^ 32)%Z /\
  conf' = set_offset conf (offset conf + u32 (Z.of_nat num))%Z /\ f_dat f' = f_dat f /\
  exists l, to_toml N conf' = Ok l /\ f_conf f' = Table l.
Proof.
  unfold finish. intros E. apply bind_ok in E. destruct E as (off & E1 & E2). unfold ck32 in E1.
  destruct (_ && _)%bool eqn:B in E1; [|discriminate]. injection E1 as <-. apply andb_prop in B. destruct B as [B1 B2].
  apply bind_ok in E2. destruct E2 as (f1 & E3 & E4). injection E4 as <- <-. unfold save_config in E3.
  apply bind_ok in E3. destruct E3 as (l & E5 & E6). injection E6 as <-.
  split; [lia|]. split; [reflexivity|]. split; [reflexivity|]. exists l. auto.
Qed.
Lemma wrote_dat f f1 f2 l : wrote f f1 l -> f_dat f2 = f_dat f1 -> wrote (T := T) f f2 l.
Proof. intros [A B] E. unfold wrote, contents in *. rewrite E. auto. Qed.

Lemma run_frame_wrote worker rg conf f conf' f' : run_frame N worker rg conf f = Ok (conf', f') ->
  (exists lss, Forall2 (is_run worker rg conf) (seq 0 (num_runs N conf)) lss /\
    wrote f f' (if c_log conf then logs (c_file conf) (Z.to_nat (offset conf)) lss else [])) /\
  finish N conf (num_runs N conf) f = Ok (conf', mkFs (f_conf f') (f_dat f)).
Proof.
  unfold run_frame. intros E. apply bind_ok in E. destruct E as (u & E1 & E). apply bind_ok in E. destruct E as (f1 & E2 & E3).
  apply run_chains_wrote in E2. destruct E2 as (lss & F & W & C).
  pose proof (finish_ok _ _ _ _ _ E3) as (_ & _ & D & _). split.
  - exists lss. split; [exact F|]. exact (wrote_dat _ _ _ _ W D).
  - unfold finish in *. destruct (ck32 _); cbn [bind] in *; try discriminate. unfold save_config in *.
    destruct (to_toml N _); cbn [bind] in *; try discriminate. injection E3 as <- <-. reflexivity.
Qed.

Lemma run_langevin_wrote fuel g rg conf f conf' f' : run_langevin N fuel g rg conf f = Ok (conf', f') ->
  (exists lss, length lss = num_runs N conf /\ Forall (fun ls => exists r, ls = l_header N :: r) lss /\
    wrote f f' (logs (c_file conf) (Z.to_nat (offset conf)) lss)) /\
  finish N conf (num_runs N conf) f = Ok (conf', mkFs (f_conf f') (f_dat f)).
Proof.
  unfold run_langevin. intros E. apply bind_ok in E. destruct E as (u & E1 & E). apply bind_ok in E. destruct E as (f1 & E2 & E3).
  pose proof (finish_ok _ _ _ _ _ E3) as (_ & _ & D & _). split.
  - unfold range in E2. rewrite Nat.sub_0_r in E2.
    apply (fold_wrote (fun f => f) _ (c_file conf) (fun _ ls => exists r, ls = l_header N :: r) 0 (num_runs N conf) (Z.to_nat (offset conf))) in E2.
    + destruct E2 as (lss & F & W). exists lss. split; [|split].
      * apply F2_length in F. rewrite seq_length in F. auto.
      * clear -F. induction F; constructor; assumption.
      * exact (wrote_dat _ _ _ _ W D).
    + intros i h h' Hi Eh. apply bind_ok in Eh. destruct Eh as (lc & Elc & Eh). apply bind_ok in Eh. destruct Eh as (out & Eo & Eh).
      injection Eh as <-. exists (l_header N :: map numbers out). split; [eauto|]. rewrite Nat.sub_0_r.
      apply (wrote_append _ _ _ [l_header N] (map numbers out)). apply (wrote_append _ _ _ [] [l_header N]). apply wrote_create.
  - unfold finish in *. destruct (ck32 _); cbn [bind] in *; try discriminate. unfold save_config in *.
    destruct (to_toml N _); cbn [bind] in *; try discriminate. injection E3 as <- <-. reflexivity.
Qed.

(** files named by the checkpoints *)
Definition profiles : list string := map profile_name checkpoints.
Lemma create_profiles f : forall n, ~ In n profiles ->
  contents (fold_left (fun f z => create (profile_name z) f) checkpoints f) n = contents f n.
Proof.
  intros n H. unfold profiles in H. generalize dependent f. induction checkpoints as [|z l IH]; intros f; [reflexivity|].
  cbn [fold_left map] in *. rewrite IH by (intros H'; apply H; right; exact H'). rewrite contents_create.
  destruct (String.eqb_spec n (profile_name z)) as [->|]; [exfalso; apply H; left; reflexivity|reflexivity].
Qed.
Lemma run_dyn_wrote fuel rg conf f conf' f' : run_dyn_profile N fuel rg conf f = Ok (conf', f') ->
  (exists lss, length lss = num_runs N conf /\ Forall (fun ls => ls = []) lss /\
    exists f1, (forall n, ~ In n profiles -> contents f1 n = contents f n) /\
    exists f2, wrote f1 f2 (if c_log conf then logs (c_file conf) (Z.to_nat (offset conf)) lss else []) /\
    (forall n, ~ In n profiles -> contents f' n = contents f2 n)) /\
  finish N (set_ct conf (nmul N (tau conf) (nofZ N 4000))) (num_runs N conf) f = Ok (conf', mkFs (f_conf f') (f_dat f)).
Proof.
  unfold run_dyn_profile. intros E. apply bind_ok in E. destruct E as (u & E1 & E). apply bind_ok in E.
  destruct E as ([f2 sent] & E2 & E3). apply bind_ok in E3. destruct E3 as (f3 & E3 & E4).
  pose proof (finish_ok _ _ _ _ _ E4) as (_ & _ & D & _). split.
  - unfold range in E2. rewrite Nat.sub_0_r in E2.
    set (f1 := fold_left (fun f z => create (profile_name z) f) checkpoints f) in *.
    assert (Q : forall n, ~ In n profiles -> contents f' n = contents f2 n).
    { intros n H. unfold contents. rewrite D. clear - E3 H. unfold profiles in H. revert f2 f3 E3. induction checkpoints as [|z l IH]; intros f2 f3 E3.
      - cbn in E3. injection E3 as <-. reflexivity.
      - cbn [foldM map] in *. apply bind_ok in E3. destruct E3 as (f4 & E4 & E5). apply IH in E5; [|intros H'; apply H; right; exact H'].
        rewrite E5. apply bind_ok in E4. destruct E4 as (ls & _ & E4). injection E4 as <-.
        change (lookup n (f_dat (append (profile_name z) ls f2))) with (contents (append (profile_name z) ls f2) n).
        rewrite contents_append. destruct (String.eqb_spec n (profile_name z)) as [->|]; [exfalso; apply H; left; reflexivity|reflexivity]. }
    destruct (c_log conf) eqn:L.
    + apply (fold_wrote fst _ (c_file conf) (fun _ ls => ls = []) 0 (num_runs N conf) (Z.to_nat (offset conf))) in E2.
      * destruct E2 as (lss & F & W). exists lss. split; [|split].
        -- apply F2_length in F. rewrite seq_length in F. auto.
        -- clear -F. induction F; constructor; assumption.
        -- exists f1. split; [apply create_profiles|]. exists f2. split; [exact W|exact Q].
      * intros i [h s0] [h' s1] Hi Eh. apply bind_ok in Eh. destruct Eh as ([sc h1] & E5 & E6). apply bind_ok in E6. destruct E6 as (l & E7 & E8).
        injection E8 as <- <-. unfold new_logged in E5. apply bind_ok in E5. destruct E5 as (sc' & E9 & E10).
        cbn [set_ct c_log] in E10. rewrite L in E10. injection E10 as <- <-. exists []. split; [reflexivity|]. cbn [fst set_ct c_file offset].
        rewrite Nat.sub_0_r. apply wrote_create.
    + apply (fold_quiet fst _ (fun _ => True) 0 (num_runs N conf)) in E2.
      * destruct E2 as (_ & W). exists (repeat [] (num_runs N conf)). split; [apply repeat_length|]. split.
        -- apply Forall_forall. intros x Hx. apply repeat_spec in Hx. exact Hx.
        -- exists f1. split; [apply create_profiles|]. exists f2. split; [exact W|exact Q].
      * intros i [h s0] [h' s1] Hi Eh. apply bind_ok in Eh. destruct Eh as ([sc h1] & E5 & E6). apply bind_ok in E6. destruct E6 as (l & E7 & E8).
        injection E8 as <- <-. unfold new_logged in E5. apply bind_ok in E5. destruct E5 as (sc' & E9 & E10).
        cbn [set_ct c_log] in E10. rewrite L in E10. injection E10 as <- <-. split; [exact I|]. apply wrote_refl.
  - unfold finish in *. destruct (ck32 _); cbn [bind] in *; try discriminate. unfold save_config in *.
    destruct (to_toml N _); cbn [bind] in *; try discriminate. injection E4 as <- <-. reflexivity.
Qed.
End Frame.
