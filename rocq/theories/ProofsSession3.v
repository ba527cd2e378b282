(** Averages over the logs of several invocations: -a and -w. *)
From Coq Require Import String Reals ZArith List Arith Lia Lra Permutation Bool.
From Flocq Require Import Core.
From Verif Require Import Num Monad NumR Spin Config Chain Langevin Fit Files Toml Writers Average Runs Main
  SpecChain SpecTotal SpecToml SpecWriters SpecAverage SpecRuns SpecMain SpecOptions SpecSession
  ProofsChain ProofsWriters ProofsAverage ProofsDir ProofsNames ProofsToml ProofsNew ProofsFrame ProofsHistory ProofsLoop ProofsSim ProofsStrobe ProofsLangRun ProofsOptions ProofsSession ProofsSession2.
Import ListNotations.
Local Close Scope R_scope.
Local Open Scope nat_scope.

(** ** The options *)
Section O.
Context (N : NumOps).
Notation T := (num N).
Implicit Types (a : args T) (f : fs T).
Ltac offs H :=
  unfold main, main_before, main_after;
  try rewrite (off_desc _ _ (fun h => ltac:(discriminate (H _ h)))); try rewrite (off_ext _ _ (fun h => ltac:(discriminate (H _ h))));
  try rewrite (off_tau _ _ (fun h => ltac:(discriminate (H _ h)))); try rewrite (off_adiab2 _ _ (fun h => ltac:(discriminate (H _ h))));
  try rewrite (off_rot _ _ (fun h => ltac:(discriminate (H _ h)))); try rewrite (off_maglab _ _ (fun h => ltac:(discriminate (H _ h))));
  try rewrite (off_fit _ _ (fun h => ltac:(discriminate (H _ h)))); try rewrite (off_fiteff _ _ (fun h => ltac:(discriminate (H _ h))));
  try rewrite (off_high _ _ (fun h => ltac:(discriminate (H _ h)))); try rewrite (off_adiabatic _ _ (fun h => ltac:(discriminate (H _ h))));
  try rewrite (off_hist _ _ (fun h => ltac:(discriminate (H _ h)))); try rewrite (off_dynhist _ _ (fun h => ltac:(discriminate (H _ h))));
  try rewrite (off_magnus _ _ (fun h => ltac:(discriminate (H _ h)))); try rewrite (off_traj _ _ (fun h => ltac:(discriminate (H _ h))));
  try rewrite (off_avg _ _ (fun h => ltac:(discriminate (H _ h)))); try rewrite (off_two _ _ (fun h => ltac:(discriminate (H _ h))));
  try rewrite (off_mc _ _ (fun h => ltac:(discriminate (H _ h)))); try rewrite (off_mcp _ _ (fun h => ltac:(discriminate (H _ h))));
  try rewrite (off_dynp _ _ (fun h => ltac:(discriminate (H _ h)))); try rewrite (off_mcf _ _ (fun h => ltac:(discriminate (H _ h))));
  try rewrite (off_lang _ _ (fun h => ltac:(discriminate (H _ h)))); try rewrite (off_resp _ _ (fun h => ltac:(discriminate (H _ h))));
  cbn [flag when bind].
Ltac after1 := unfold with_tau, asked; destruct (read_config N _) as [[conf f0]| |]; [|reflexivity|reflexivity]; cbn [bind];
  destruct (settle_beta N _ _ _) as [s| |]; [|reflexivity|reflexivity]; cbn [bind s_conf s_fs s_default s_trace];
  destruct s; unfold do_run; cbn [s_conf s_fs s_default s_trace];
  match goal with |- context [bind ?x _] => destruct x; reflexivity end.
Ltac only_ S := let m := fresh in intros m; rewrite S; intros [<-|[]]; reflexivity.
Ltac sel := let H := fresh "H" in unfold selected; rewrite !in_app_iff; intros H;
  repeat (destruct H as [H|H]); first [apply in_on in H | apply in_onb in H]; let A := fresh in let B := fresh in destruct H as [A B]; (discriminate A || exact B).
Lemma sel_avg a : In Mavg (selected a) -> a_avg a = true. Proof. sel. Qed.
Lemma sel_two a : In Mtwopoint (selected a) -> a_two_point a = true. Proof. sel. Qed.

Lemma opt_avg fuel w a f : selected a = [Mavg] -> main N fuel w a f = late_mode N Mavg (run_average N) (fun c => c) fuel a f.
Proof.
  intros S. assert (H : only N Mavg a) by only_ S. offs H. rewrite (sel_avg a) by (rewrite S; left; reflexivity).
  cbn [flag when bind]. unfold late_mode. after1.
Qed.
Lemma opt_two fuel w a f : selected a = [Mtwopoint] -> main N fuel w a f = late_mode N Mtwopoint (run_two_point N) (fun c => c) fuel a f.
Proof.
  intros S. assert (H : only N Mtwopoint a) by only_ S. offs H. rewrite (sel_two a) by (rewrite S; left; reflexivity).
  cbn [flag when bind]. unfold late_mode. after1.
Qed.
End O.

Lemma finite_choice {A} (P : nat -> A -> Prop) n (a0 : A) : (forall i, i < n -> exists x, P i x) -> exists F, forall i, i < n -> P i (F i).
Proof.
  induction n as [|n IH]; intros H; [exists (fun _ => a0); intros i Hi; lia|].
  destruct IH as [F HF]; [intros i Hi; apply H; lia|]. destruct (H n) as [x Hx]; [lia|].
  exists (fun i => if i =? n then x else F i). intros i Hi. destruct (Nat.eqb_spec i n) as [->|D]; [exact Hx|apply HF; lia].
Qed.

(** ** The order of the files does not matter *)
Lemma all_perm l l' : Permutation l l' -> match all_numbers l, all_numbers l' with Some r, Some r' => Permutation r r' | None, None => True | _, _ => False end.
Proof.
  induction 1 as [|x l l' H IH|x y l|l1 l2 l3 H1 IH1 H2 IH2]; cbn [all_numbers].
  - apply Permutation_refl.
  - destruct x as [a|]; [|exact I]. destruct (all_numbers l), (all_numbers l'); try contradiction; [apply perm_skip; exact IH|exact I].
  - destruct x as [a|], y as [b|]; try exact I; destruct (all_numbers l); try exact I. apply perm_swap.
  - destruct (all_numbers l1), (all_numbers l2), (all_numbers l3); try contradiction; try exact I. eapply Permutation_trans; eassumption.
Qed.
Lemma rsum_perm l l' : Permutation l l' -> rsum l = rsum l'.
Proof. unfold rsum. induction 1; cbn; try lra. Qed.
Lemma emean_perm l l' : Permutation l l' -> emean l = emean l'.
Proof.
  intros H. apply all_perm in H. unfold emean. destruct (all_numbers l), (all_numbers l'); try contradiction; [|reflexivity].
  cbn. f_equal. unfold avg. rewrite (rsum_perm _ _ H), (Permutation_length H). reflexivity.
Qed.
Lemma mean_perm w l l' : Permutation l l' -> mean_line w l = mean_line w l'.
Proof. intros H. unfold mean_line. apply map_ext. intros j. apply emean_perm, Permutation_map, H. Qed.

(** ** Two-point averages of equally long tables *)
Lemma eprod_is x y : nmul ERNum x y = eprod x y.
Proof. destruct x, y; reflexivity. Qed.
Lemma times_zero_against w (z row : list ER) : length z = S w -> length row = S w -> times_zero ERNum z row = Ok (against z row).
Proof.
  intros Lz Lr. unfold times_zero. rewrite range0.
  rewrite (mapM_ok _ (fun i => if i =? 0 then nth 0 row None else eprod (nth i row None) (nth i z None))).
  - f_equal. unfold against. destruct row as [|x row]; [discriminate|]. change (@length (num ERNum) (x :: row)) with (S (length row)). cbn [length seq map Nat.eqb nth]. f_equal.
    rewrite Nat.sub_succ, Nat.sub_0_r. apply map_ext_in. intros i Hi. apply in_seq in Hi. destruct (Nat.eqb_spec i 0); [lia|reflexivity].
  - intros i Hi. apply in_seq in Hi. assert (Hi' : i < S w) by (eapply Nat.lt_le_trans; [apply Hi|]; cbn [Nat.add]; exact (Nat.eq_le_incl _ _ Lr)).
    unfold idx. rewrite (nth_error_nth' (A := ER) row None) by exact (eq_ind_r (fun q => i < q) Hi' Lr). cbn [bind]. destruct (Nat.eqb_spec i 0) as [->|D]; [reflexivity|].
    rewrite (nth_error_nth' (A := ER) z None) by exact (eq_ind_r (fun q => i < q) Hi' Lz). cbn [bind]. rewrite eprod_is. reflexivity.
Qed.
Lemma against_length z row : length (against z row) = length row.
Proof. unfold against. destruct row as [|x row]; [reflexivity|]. cbn [length]. rewrite map_length, seq_length. lia. Qed.

Lemma two_rows w n (fs : list (line ER * (nat -> list ER))) (z : line ER * (nat -> list ER) -> list ER) :
  fs <> [] -> (forall p k, In p fs -> k < n -> length (snd p k) = S w) ->
  (forall p, In p fs -> length (z p) = S w /\ t_zero ERNum (map (snd p) (seq 0 n)) = Ok (z p)) ->
  two_point_average ERNum (map (fun p => with_first (fst p) (snd p) n) fs)
  = Ok (map (fun k => numbers (mean_line (S w) (map (fun p => against (z p) (snd p k)) fs))) (seq 0 n)).
Proof.
  intros Hn Hw Hz. unfold two_point_average.
  assert (E : forall st, foldM (two_point_file ERNum) (map (fun p => with_first (fst p) (snd p) n) fs) (split_st ERNum st)
    = Ok (split_st ERNum (fold_left (merge ERNum) (map (fun p => map (fun k => against (z p) (snd p k)) (seq 0 n)) fs) st))).
  { clear Hn. induction fs as [|p fs IH]; intros st; [reflexivity|]. cbn [map foldM fold_left].
    destruct (Hz p (or_introl eq_refl)) as [Lz Ez].
    assert (X : two_point_file ERNum (with_first (fst p) (snd p) n) (split_st ERNum st)
      = Ok (split_st ERNum (merge ERNum st (map (fun k => against (z p) (snd p k)) (seq 0 n))))).
    { unfold two_point_file. cbv zeta.
      assert (R : map (parse_line ERNum) (skipn 1 (with_first (fst p) (snd p) n)) = map (snd p) (seq 0 n)) by apply rows_with_first.
      etransitivity; [exact (f_equal (fun ls => let* z0 := t_zero ERNum ls in let* vs := mapM (times_zero ERNum z0) ls in add_lines ERNum 0 vs (split_st ERNum st)) R)|].
      eapply bind_eq; [exact Ez|].
      eapply bind_eq.
      { instantiate (1 := map (fun k => against (z p) (snd p k)) (seq 0 n)).
        assert (G : forall l, (forall k, In k l -> k < n) -> mapM (times_zero ERNum (z p)) (map (snd p) l) = Ok (map (fun k => against (z p) (snd p k)) l)).
        { induction l as [|k l IHl]; intros Hl; [reflexivity|]. cbn [map mapM].
          eapply bind_eq; [apply (times_zero_against w); [exact Lz|apply Hw; [left; reflexivity|apply Hl; left; reflexivity]]|].
          eapply bind_eq; [apply IHl; intros k' Hk'; apply Hl; right; exact Hk'|]. reflexivity. }
        apply G. intros k Hk. apply in_seq in Hk. lia. }
      exact (add_lines_merge ERNum (map (fun k => against (z p) (snd p k)) (seq 0 n)) [] st). }
    eapply bind_eq; [exact X|]. apply IH.
    - intros q k Hq. apply Hw. right. exact Hq.
    - intros q Hq. apply Hz. right. exact Hq. }
  eapply bind_eq; [exact (E [])|]. etransitivity; [apply means_split|]. f_equal.
  assert (T : map (fun p => map (fun k => against (z p) (snd p k)) (seq 0 n)) fs = map (fun h => map h (seq 0 n)) (map (fun p k => against (z p) (snd p k)) fs)) by (rewrite map_map; reflexivity).
  etransitivity; [exact (f_equal (fun l => map (out_line ERNum) (merged ERNum l)) T)|].
  etransitivity; [apply (means_of (S w))|].
  - destruct fs; [contradiction|discriminate].
  - intros h k Hh Hk. apply in_map_iff in Hh. destruct Hh as (p & <- & Hp). rewrite against_length. apply Hw; assumption.
  - apply map_ext. intros k. rewrite map_map. reflexivity.
Qed.

(** the row at time 0 *)
Section Zero.
Context (dt : R) (k0 w : nat) (rows : nat -> list ER).
Hypothesis (Hd : (1 / 100000 <= dt)%R) (Tb : steps_table (INR k0 * dt) dt w rows).
Lemma zero_time k : nltb ERNum (nabs ERNum (Some (- (INR k0 * dt) + INR k * dt)%R)) (nlit ERNum 1 5) = (k =? k0).
Proof.
  change (Rltb (Rabs (- (INR k0 * dt) + INR k * dt)) (1 / 100000) = (k =? k0)). unfold Rltb. destruct (Nat.eqb_spec k k0) as [->|D].
  - replace (- (INR k0 * dt) + INR k0 * dt)%R with 0%R by ring. rewrite Rabs_R0. destruct (Rlt_dec 0 (1 / 100000)); [reflexivity|lra].
  - destruct (Rlt_dec _ _) as [H|H]; [|reflexivity]. exfalso. apply Rabs_def2 in H. destruct (Nat.lt_gt_cases k k0) as [Q _]. destruct (Q D) as [Q1|Q1].
    + assert (INR k + 1 <= INR k0)%R by (rewrite <- S_INR; apply le_INR; lia). assert ((INR k + 1) * dt <= INR k0 * dt)%R by (apply Rmult_le_compat_r; lra). lra.
    + assert (INR k0 + 1 <= INR k)%R by (rewrite <- S_INR; apply le_INR; lia). assert ((INR k0 + 1) * dt <= INR k * dt)%R by (apply Rmult_le_compat_r; lra). lra.
Qed.
Lemma zero_fold l : forall z, foldM (fun v z => let* x := idx v 0 in Ok (if nltb ERNum (nabs ERNum x) (nlit ERNum 1 5) then v else z)) (map rows l) z
  = Ok (fold_left (fun z k => if k =? k0 then rows k else z) l z).
Proof.
  induction l as [|k l IH]; intros z; [reflexivity|]. cbn [map foldM fold_left]. destruct (Tb k) as (q & _ & E).
  assert (X : (let* x := idx (rows k) 0 in Ok (if nltb ERNum (nabs ERNum x) (nlit ERNum 1 5) then rows k else z)) = Ok (if k =? k0 then rows k else z)).
  { rewrite E at 1. unfold idx. cbn [nth_error bind]. f_equal. rewrite zero_time. reflexivity. }
  eapply bind_eq; [exact X|]. apply IH.
Qed.
Lemma zero_none l : forall z : list ER, ~ In k0 l -> fold_left (fun z k => if k =? k0 then rows k else z) l z = z.
Proof.
  induction l as [|k l IH]; intros z H; [reflexivity|]. cbn. destruct (Nat.eqb_spec k k0) as [->|D]; [exfalso; apply H; left; reflexivity|].
  apply IH. intros Hin. apply H. right. exact Hin.
Qed.
Lemma zero_some l : forall z : list ER, In k0 l -> fold_left (fun z k => if k =? k0 then rows k else z) l z = rows k0.
Proof.
  induction l as [|k l IH]; intros z H; [contradiction|]. cbn [fold_left]. destruct (in_dec Nat.eq_dec k0 l) as [Hin|Hin]; [apply IH; exact Hin|].
  destruct H as [->|H]; [|contradiction]. rewrite Nat.eqb_refl. apply zero_none. exact Hin.
Qed.
End Zero.
