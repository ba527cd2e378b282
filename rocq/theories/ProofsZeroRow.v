(** Two-point averages of the logs of the default simulation. *)
From Coq Require Import String SpecFloat Reals Lra Lia List ZArith Arith Bool.
From Flocq Require Import Core.
From Verif Require Import Num Monad NumR Spin Config Chain Langevin Fit Files Toml Writers Average Runs Main SpecVec SpecChain SpecTotal SpecToml SpecRuns SpecWriters SpecAverage
  ProofsChain ProofsEnergy ProofsDyn ProofsMC ProofsNew ProofsTotal ProofsToml ProofsNames ProofsFrame ProofsLoop ProofsSim ProofsAverage.
Import ListNotations.
Local Close Scope R_scope.
Local Open Scope nat_scope.

Lemma parse_numbers (v : list ER) : parse_line ERNum (numbers v) = v.
Proof. unfold parse_line, numbers. induction v as [|x v IH]; [reflexivity|]. cbn [map flat_map app]. rewrite IH. reflexivity. Qed.

Lemma two_point_log (h : line ER) rows s : rows <> [] ->
  Forall (fun v => exists (x : R) y r, v = Some x :: y :: r /\ (1 / 100000 <= Rabs x)%R) rows ->
  two_point_file ERNum (h :: map numbers rows) s = Panic IndexOOB.
Proof.
  intros Hne F. unfold two_point_file. cbv zeta.
  match goal with |- context [map (parse_line ERNum) ?l] => assert (E : map (parse_line ERNum) l = rows) end.
  { cbn [skipn]. etransitivity; [apply map_map|]. etransitivity; [|apply map_id]. apply map_ext. intros. apply parse_numbers. }
  rewrite E. clear E.
  assert (Z0 : forall z, foldM (fun v z => let* x := idx v 0 in Ok (if nltb ERNum (nabs ERNum x) (nlit ERNum 1 5) then v else z)) rows z = Ok z).
  { clear Hne. induction F as [|v rows (x & y & r & -> & Hx) F IH]; intros z; [reflexivity|]. cbn [foldM idx nth_error bind].
    assert (G : nltb ERNum (nabs ERNum (Some x)) (nlit ERNum 1 5) = false).
    { change (Rltb (Rabs x) (1 / IZR (10 ^ 5)) = false). unfold Rltb. destruct (Rlt_dec _ _); [|reflexivity]. cbn in r0. lra. }
    unfold idx. cbn [nth_error bind]. rewrite G. apply IH. }
  unfold t_zero. rewrite Z0. cbn [bind]. destruct F as [|v rows (x & y & r & -> & Hx) F]; [contradiction|]. reflexivity.
Qed.

Lemma rows_of_nth (ls : list (line ER)) m (g : nat -> R) : length ls = S m ->
  (forall k, k <= m -> exists rest, length rest = 12 /\ nth_error ls k = Some (numbers (Some (g k) :: rest))) ->
  exists h rows, ls = h :: map numbers rows /\ length rows = m /\
    forall k v, nth_error rows k = Some v -> exists y r, v = Some (g (S k)) :: y :: r.
Proof.
  intros L H. destruct ls as [|h ls]; [discriminate|]. exists h. injection L as L.
  assert (H' : forall k, k < m -> exists rest, length rest = 12 /\ nth_error ls k = Some (numbers (Some (g (S k)) :: rest))).
  { intros k Hk. apply (H (S k)). lia. }
  clear H. exists (map (parse_line ERNum) ls). split; [|split; [rewrite map_length; exact L|]].
  - f_equal. rewrite map_map. symmetry. etransitivity; [|apply map_id]. apply map_ext_in. intros l Hl. apply In_nth_error in Hl. destruct Hl as [k Hk].
    assert (k < m) by (rewrite <- L; apply nth_error_Some; rewrite Hk; discriminate). destruct (H' k H) as (rest & _ & E). rewrite E in Hk. injection Hk as <-.
    exact (f_equal numbers (parse_numbers (Some (g (S k)) :: rest))).
  - intros k v Hv. 
    assert (X : forall (q : list (line (num ERNum))), nth_error (map (parse_line ERNum) q) k = Some v -> exists l, nth_error q k = Some l /\ parse_line ERNum l = v).
    { clear. intros q. rewrite nth_error_map. destruct (nth_error q k) as [l|]; cbn; [|discriminate]. intros [= <-]. eauto. }
    destruct (X ls Hv) as (l & El & Ev). clear X.
    assert (k < m) by (rewrite <- L; apply nth_error_Some; intros Q; assert (Q' : None = Some l) by (etransitivity; [symmetry; exact Q|exact El]); discriminate). destruct (H' k H) as (rest & Lr & E). assert (El' := eq_trans (eq_sym E) El). assert (Q : numbers (Some (g (S k)) :: rest) = l) by congruence. subst l.
    destruct rest as [|y rest]; [discriminate|]. exists y, rest. rewrite <- Ev. apply parse_numbers.
Qed.

Theorem default_two_point fuel rg (conf : config (num ERNum)) f dt tmax : usable ERNum conf -> (1 <= runs conf)%Z -> c_log conf = true -> strob conf = false ->
  trel conf = Some 0%R -> c_dt conf = Some dt -> c_t conf = Some tmax -> (1 / 100000 <= dt)%R -> (0 < tmax)%R ->
  (Z.to_nat (Zceil (tmax / dt)) <= fuel)%nat ->
  exists conf' f', run_sim ERNum fuel rg conf f = Ok (conf', f') /\
   forall i, (i < Z.to_nat (runs conf))%nat -> exists ls, contents f' (log_name (c_file conf) (Z.to_nat (offset conf) + i)) = Some ls /\
     2 <= length ls /\ forall files, In ls files -> exists p, two_point_average ERNum files = Panic p.
Proof.
  intros U R1 L St Er Ed Et Hd Hm Hf.
  assert (Hd0 : (0 < dt)%R) by lra.
  destruct (run_sim_files fuel rg conf f 0%R dt tmax U L St Er Ed Et Hd0) as (conf' & f' & E & Fl & _); [rewrite Rplus_0_r; exact Hf|].
  rewrite Rplus_0_r in Fl. set (m := Z.to_nat (Zceil (tmax / dt))) in *.
  assert (M1 : 1 <= m).
  { unfold m. assert (0 < Zceil (tmax / dt))%Z; [|lia]. destruct (Z_lt_le_dec 0 (Zceil (tmax / dt))) as [H|H]; [exact H|]. exfalso.
    apply IZR_le in H. pose proof (Zceil_ub (tmax / dt)) as H2. assert (0 < tmax / dt)%R by (apply Rdiv_lt_0_compat; lra). lra. }
  exists conf', f'. split; [exact E|]. intros i Hi. destruct (Fl i Hi) as (ls & C & Ll & Rows). exists ls. split; [exact C|]. split; [lia|].
  intros files Hin. destruct (rows_of_nth ls m (fun k => - 0 + INR k * dt)%R Ll Rows) as (h & rows & -> & Lr & Hr).
  apply (two_point_panics files _ Hin). intros s. exists IndexOOB. apply two_point_log.
  - destruct rows; [cbn in Lr; lia|discriminate].
  - apply Forall_forall. intros v Hv. apply In_nth_error in Hv. destruct Hv as [k Hk]. destruct (Hr k v Hk) as (y & r & ->).
    eexists _, y, r. split; [reflexivity|]. rewrite S_INR. pose proof (pos_INR k).
    rewrite Rabs_right; nra.
Qed.
