(** The concrete cases shown beside the theorems about sessions. *)
From Coq Require Import String Reals ZArith List Arith Lia Lra Permutation Bool.
From Flocq Require Import Core.
From Verif Require Import Num Monad NumR Spin Config Chain Langevin Fit Files Toml Writers Average Runs Main
  SpecChain SpecTotal SpecToml SpecWriters SpecAverage SpecRuns SpecMain SpecOptions SpecSession Samples
  ProofsChain ProofsWriters ProofsAverage ProofsDir ProofsNames ProofsToml ProofsNew ProofsFrame ProofsHistory ProofsLoop ProofsSim ProofsStrobe ProofsLangRun ProofsOptions ProofsProgram
  ProofsRunSamples ProofsOptionsSamples ProofsSession ProofsSession2 ProofsSession3 ProofsSession4 ProofsSession5.
Import ListNotations.
Local Close Scope R_scope.
Local Open Scope nat_scope.

Lemma default_session fuel (w : world ERNum) (a : args (num ERNum)) b r dt tmax : selected a = [] -> a_beta a = Some b -> Z.to_nat (Zceil ((tmax + r) / dt)) <= fuel ->
  forall K f conf f0, read_config ERNum f = Ok (conf, f0) -> plain_conf conf r dt tmax -> (offset conf + Z.of_nat (S K) * runs conf < 2 ^ 32)%Z ->
  exists g, session ERNum (fun a => selected a = []) K f g.
Proof.
  intros Sl Eb Hf. induction K as [|K IH]; intros f conf f0 Rd Pl Ho; [exists f; constructor|].
  destruct (main_plain fuel w a f conf f0 r dt tmax b Sl Eb Rd Pl Hf) as (st & E & _).
  assert (E' := E). apply main_default in E'; [|exact Sl]. destruct E' as (c & q & b' & Rd' & Sb & M & _). rewrite Rd' in Rd. injection Rd as -> ->.
  unfold settled in Sb. rewrite Eb in Sb. subst b'. apply run_frame_wrote in M. destruct M as [_ Fin].
  assert (Rg : in_range (set_beta (with_tau ERNum a conf) b)).
  { destruct (read_in_range ERNum _ _ _ Rd') as [Q _]. unfold with_tau. destruct (a_tau a); exact Q. }
  pose proof (finish_back2 ERNum _ _ _ _ _ Rg Fin) as Rd2. apply finish_ok in Fin. destruct Fin as (_ & Ec & _).
  destruct (num_runs_ok ERNum _ Rg) as [_ N2]; [destruct Pl as ((_ & _ & _ & _ & _ & H & _) & _); unfold with_tau; destruct (a_tau a); exact H|].
  rewrite N2 in Ec.
  assert (X : plain_conf (s_conf ERNum st) r dt tmax /\ offset (s_conf ERNum st) = (offset conf + runs conf)%Z /\ runs (s_conf ERNum st) = runs conf).
  { rewrite Ec. destruct (read_in_range ERNum _ _ _ Rd2) as [Q _]. rewrite Ec in Q. split; [|unfold with_tau; destruct (a_tau a); split; reflexivity].
    destruct Pl as ((U1 & U2 & U3 & U4 & U5 & U6 & U7) & L & St & Er & Ed & Et & Hd). unfold plain_conf, usable.
    split; [|unfold with_tau; destruct (a_tau a); auto 10]. split; [unfold with_tau; destruct (a_tau a); exact U1|]. split; [exact Q|].
    assert (2 * runs conf <= Z.of_nat (S (S K)) * runs conf)%Z by (apply Z.mul_le_mono_nonneg_r; lia). assert (Y : (offset conf + runs conf + runs conf < 2 ^ 32)%Z) by lia.
    unfold with_tau; destruct (a_tau a); cbn; repeat split; try assumption; try apply U4; try lia; exact Y. }
  destruct X as (X1 & X2 & X3).
  destruct (IH (s_fs ERNum st) _ _ Rd2 X1) as [g G]; [rewrite X2, X3; lia|].
  exists g. econstructor; [|exact E|exact G]. exact Sl.
Qed.

Lemma langevin_session fuel (w : world ERNum) (a : args (num ERNum)) b r dt tmax : selected a = [Mlangevin] -> a_langevin a = Some None -> a_beta a = Some (Some b) -> (0 < b)%R -> Z.to_nat (Zceil ((tmax + r) / dt)) <= fuel ->
  forall K f conf f0, read_config ERNum f = Ok (conf, f0) -> plain_conf conf r dt tmax -> (2 <= ssize conf)%Z -> (offset conf + Z.of_nat (S K) * runs conf < 2 ^ 32)%Z ->
  exists g, session ERNum langevin_args K f g.
Proof.
  intros Sl El Eb Hb Hf. induction K as [|K IH]; intros f conf f0 Rd Pl Hs Ho; [exists f; constructor|].
  assert (Pl' := Pl). destruct Pl' as ((U1 & U2 & U3 & U4 & U5 & U6 & U7) & L & St & Er & Ed & Et & Hd).
  set (conf1 := to_system ERNum (set_beta (with_tau ERNum a conf) (Some b))).
  assert (U : usable ERNum conf1).
  { unfold conf1, to_system, with_tau, usable, conf_ok, in_range in *. destruct (a_tau a); cbn in *; intuition lia. }
  destruct (lang_files fuel 1 (w_rng ERNum w Mlangevin) conf1 f0 r dt tmax b) as (conf' & f' & E & _ & _); try exact U; try exact Hd; try exact Hb; try exact Hf; try lra;
    try (unfold conf1, to_system, with_tau; destruct (a_tau a); assumption).
  { unfold conf1, to_system, with_tau; destruct (a_tau a); reflexivity. }
  assert (Em : main ERNum fuel w a f = Ok (mkSt ERNum conf' f' false [(Mlangevin, conf1)])).
  { rewrite (opt_lang ERNum fuel w a f None Sl El). apply (late_ok ERNum Mlangevin (run_langevin ERNum fuel (asked (nofZ ERNum 1) None) (w_rng ERNum w Mlangevin)) (to_system ERNum) fuel a f conf f0 (Some b)); [exact Rd|unfold settled; rewrite Eb; reflexivity|exact E]. }
  apply run_langevin_wrote in E. destruct E as [_ Fin].
  assert (Rg : in_range conf1) by apply U.
  pose proof (finish_back2 ERNum _ _ _ _ _ Rg Fin) as Rd2. apply finish_ok in Fin. destruct Fin as (_ & Ec & _).
  destruct (num_runs_ok ERNum _ Rg) as [_ N2]; [apply U|]. rewrite N2 in Ec.
  assert (X : plain_conf conf' r dt tmax /\ offset conf' = (offset conf + runs conf)%Z /\ runs conf' = runs conf /\ ssize conf' = ssize conf).
  { rewrite Ec. destruct (read_in_range ERNum _ _ _ Rd2) as [Q _]. rewrite Ec in Q. split; [|unfold conf1, to_system, with_tau; destruct (a_tau a); repeat split; reflexivity].
    unfold plain_conf, usable. split; [|unfold conf1, to_system, with_tau; destruct (a_tau a); auto 10]. split; [exact (proj1 U)|]. split; [exact Q|].
    destruct U as (V1 & V2 & V3 & V4 & V5 & V6 & V7). repeat (split; [assumption|]).
    assert (2 * runs conf <= Z.of_nat (S (S K)) * runs conf)%Z by (apply Z.mul_le_mono_nonneg_r; lia). assert (Y : (offset conf + runs conf + runs conf < 2 ^ 32)%Z) by lia. unfold conf1, to_system, with_tau; destruct (a_tau a); exact Y. }
  destruct X as (X1 & X2 & X3 & X4).
  destruct (IH f' _ _ Rd2 X1) as [g G]; [lia|rewrite X2, X3; lia|].
  exists g. econstructor; [|exact Em|exact G]. split; [exact Sl|]. split; [exists b; auto|left; exact El].
Qed.

(** two runs an invocation, 5050 steps from time -1 to time 100 *)
Definition with_av (av tp : bool) (lg : option (option (option R))) : args (num ERNum) :=
  mkArgs None av (Some (Some 2%R)) false false false false None None None lg None false None None None None false None None None None false tp None.
Lemma ses_plain r : plain_conf (ex_runs ERNum (Some r) (Some (1 / 50)%R) (Some 100%R) (Some 10%R) false) r (1 / 50) 100.
Proof. split; [exact (ex_runs_usable_ER _ _ _ _ _)|]. repeat (split; [reflexivity|]). lra. Qed.
Definition ses_c (r : R) : config (num ERNum) := ex_runs ERNum (Some r) (Some (1 / 50)%R) (Some 100%R) (Some 10%R) false.
Lemma ses_timed r : timed r (1 / 50) 100 (ses_c r).
Proof. destruct (ses_plain r) as ((U1 & U2 & U3 & U4 & U5 & U6 & U7) & L & St & Er & Ed & Et & Hd). repeat (split; [assumption|]). exact Et. Qed.
Lemma ses_ltimed r : ltimed r (1 / 50) 100 (ses_c r).
Proof. destruct (ses_plain r) as ((U1 & U2 & U3 & U4 & U5 & U6 & U7) & L & St & Er & Ed & Et & Hd). split; [exact U1|]. split; [cbn; lia|]. repeat (split; [assumption|]). exact Et. Qed.
Lemma ses_dir r : exists f, read_config ERNum f = Ok (ses_c r, f) /\ tidy f /\ forall nm, contents f nm = None.
Proof.
  destruct (reload ERNum (ses_c r) (mkFs Missing [])) as (f & _ & D & E); [apply (ses_plain r)|]. exists f. split; [exact E|].
  unfold tidy, contents. rewrite D. split; [constructor|reflexivity].
Qed.
Lemma ses_fits (a : args (num ERNum)) (b : num ERNum) conf : c_t conf = Some 100%R -> c_dt conf = Some (1 / 50)%R -> fits ERNum (set_beta (with_tau ERNum a conf) b).
Proof.
  intros Et Ed. unfold fits. assert (X : ntou64 ERNum (ndiv ERNum (c_t (set_beta (with_tau ERNum a conf) b)) (c_dt (set_beta (with_tau ERNum a conf) b))) = 5000%Z).
  { transitivity (ntou64 ERNum (ndiv ERNum (Some 100%R) (Some (1 / 50)%R))).
    - f_equal. unfold with_tau. destruct (a_tau a); apply f_equal2; assumption.
    - cbn [ndiv ERNum]. unfold er_div. destruct (Req_EM_T (1 / 50) 0); [lra|].
      replace (100 / (1 / 50))%R with (IZR 5000) by lra. change (u64 (Zfloor (IZR 5000)) = 5000%Z). rewrite Zfloor_IZR. reflexivity. }
  rewrite X. lia.
Qed.

Lemma case_average (w : world ERNum) : exists f g fuel st, read_config ERNum f = Ok (ses_c 1, f) /\ tidy f /\ (forall nm, contents f nm = None) /\
  session ERNum (fun a => selected a = []) 3 f g /\ main ERNum fuel w (with_av true false None) g = Ok st.
Proof.
  destruct (ses_dir 1) as (f & Rd & Ti & No). exists f.
  destruct (default_session _ w (with_av false false None) (Some 2%R) 1 (1 / 50) 100 eq_refl eq_refl (le_n _) 3 f (ses_c 1) f Rd (ses_plain 1)) as [g G]; [cbn; lia|].
  exists g, 0. assert (Hd : (0 < 1 / 50)%R) by lra.
  destruct (average_completes 1 (1 / 50) 12 _ 1 (fun rows => numbers (rows 0)) _ _ (adds_default' 1 (1 / 50) 100 Hd) 3 f g f (ses_c 1) G ltac:(lia) Ti Rd (ses_timed 1) ltac:(cbn; lia)
    0 w (with_av true false None) (Some 2%R)) as [st E]; try reflexivity; [|eauto 10].
  intros c Hc. apply ses_fits; apply Hc.
Qed.
Lemma case_langevin (w : world ERNum) : exists f g fuel st, read_config ERNum f = Ok (ses_c 1, f) /\ tidy f /\ (forall nm, contents f nm = None) /\
  session ERNum langevin_args 3 f g /\ main ERNum fuel w (with_av true false None) g = Ok st.
Proof.
  destruct (ses_dir 1) as (f & Rd & Ti & No). exists f.
  destruct (langevin_session _ w (with_av false false (Some None)) 2%R 1 (1 / 50) 100 eq_refl eq_refl eq_refl ltac:(lra) (le_n _) 3 f (ses_c 1) f Rd (ses_plain 1)) as [g G]; [cbn; lia|cbn; lia|].
  exists g, 0. assert (Hd : (0 < 1 / 50)%R) by lra.
  destruct (average_completes 1 (1 / 50) 7 _ 0 (fun _ => l_header ERNum) _ _ (adds_langevin 1 (1 / 50) 100 Hd) 3 f g f (ses_c 1) G ltac:(lia) Ti Rd (ses_ltimed 1) ltac:(cbn; lia)
    0 w (with_av true false None) (Some 2%R)) as [st E]; try reflexivity; [|eauto 10].
  intros c Hc. apply ses_fits; apply Hc.
Qed.
(** time 0 is step 50 *)
Lemma one_is : 1%R = (INR 50 * (1 / 50))%R.
Proof. rewrite INR_IZR_INZ. cbn. lra. Qed.
Lemma ses_steps : 50 <= Z.to_nat (Zceil ((100 + 1) / (1 / 50))).
Proof. replace ((100 + 1) / (1 / 50))%R with (IZR 5050) by lra. rewrite Zceil_IZR. lia. Qed.
Lemma case_two (w : world ERNum) : exists f g fuel st, read_config ERNum f = Ok (ses_c (INR 50 * (1 / 50)), f) /\ tidy f /\ (forall nm, contents f nm = None) /\
  session ERNum (fun a => selected a = []) 3 f g /\ main ERNum fuel w (with_av false true None) g = Ok st.
Proof.
  rewrite <- one_is. destruct (ses_dir 1) as (f & Rd & Ti & No). exists f.
  destruct (default_session _ w (with_av false false None) (Some 2%R) 1 (1 / 50) 100 eq_refl eq_refl (le_n _) 3 f (ses_c 1) f Rd (ses_plain 1)) as [g G]; [cbn; lia|].
  exists g, 0. assert (Hd : (0 < 1 / 50)%R) by lra.
  destruct (two_completes 1 (1 / 50) 12 _ 1 (fun rows => numbers (rows 0)) _ _ (adds_default' 1 (1 / 50) 100 Hd) 3 f g f (ses_c 1) G ltac:(lia) Ti Rd (ses_timed 1) ltac:(cbn; lia)
    (fun nm _ => No nm) 50 0 w (with_av false true None) (Some 2%R)) as [st E]; try reflexivity; [exact one_is|lra| |eauto 10].
  pose proof ses_steps. lia.
Qed.
Lemma case_ltwo (w : world ERNum) : exists f g fuel st, read_config ERNum f = Ok (ses_c (INR 50 * (1 / 50)), f) /\ tidy f /\ (forall nm, contents f nm = None) /\
  session ERNum langevin_args 3 f g /\ main ERNum fuel w (with_av false true None) g = Ok st.
Proof.
  rewrite <- one_is. destruct (ses_dir 1) as (f & Rd & Ti & No). exists f.
  destruct (langevin_session _ w (with_av false false (Some None)) 2%R 1 (1 / 50) 100 eq_refl eq_refl eq_refl ltac:(lra) (le_n _) 3 f (ses_c 1) f Rd (ses_plain 1)) as [g G]; [cbn; lia|cbn; lia|].
  exists g, 0. assert (Hd : (0 < 1 / 50)%R) by lra.
  destruct (two_completes 1 (1 / 50) 7 _ 0 (fun _ => l_header ERNum) _ _ (adds_langevin 1 (1 / 50) 100 Hd) 3 f g f (ses_c 1) G ltac:(lia) Ti Rd (ses_ltimed 1) ltac:(cbn; lia)
    (fun nm _ => No nm) 50 0 w (with_av false true None) (Some 2%R)) as [st E]; try reflexivity; [exact one_is|lra| |eauto 10].
  pose proof ses_steps. lia.
Qed.
Lemma case_panics (w : world ERNum) : exists f g, read_config ERNum f = Ok (ses_c 0, f) /\ tidy f /\ (forall nm, contents f nm = None) /\
  session ERNum (fun a => selected a = []) 3 f g.
Proof.
  destruct (ses_dir 0) as (f & Rd & Ti & No). exists f.
  destruct (default_session _ w (with_av false false None) (Some 2%R) 0 (1 / 50) 100 eq_refl eq_refl (le_n _) 3 f (ses_c 0) f Rd (ses_plain 0)) as [g G]; [cbn; lia|].
  exists g. auto.
Qed.

(** ** The prefix "a" *)
Definition a_conf : config (num ERNum) :=
  mkConfig 4 2 (Some 100%R) (Some (1 / 50)%R) 2 (Some 1%R) 2 (Some 10%R) (Some 1%R) [Some 0%R; Some 0%R; Some 1%R] [Some 0%R; Some 0%R; Some 0%R] (Some 1%R) (Some 0%R) 2
    (Some 1%R) "a"%string false 5 (Some 1%R) 1000 (Some 1%R) Dxyplane true.
Definition a_log : list (line ER) := [numbers [Some 0%R]; numbers [Some 1%R]; numbers [Some 2%R]].
Lemma refuted_again (w : world ERNum) : exists (f : fs (num ERNum)) st st', tidy f /\ contents f "a0.dat" = Some a_log /\ (forall nm, nm <> "a0.dat"%string -> contents f nm = None) /\
  main ERNum 0 w (with_av true false None) f = Ok st /\ main ERNum 0 w (with_av true false None) (s_fs ERNum st) = Ok st' /\
  contents (s_fs ERNum st) "avg.dat" = Some [numbers [Some 1%R]; numbers [Some 2%R]] /\
  contents (s_fs ERNum st') "avg.dat" = Some [numbers [Some (3 / 2)%R]; numbers [Some 2%R]].
Proof.
  destruct (reload ERNum a_conf (mkFs Missing [("a0.dat"%string, a_log)])) as (f & _ & D & Rd); [unfold in_range; cbn; lia|].
  assert (Sa : selected (with_av true false None) = [Mavg]) by reflexivity.
  assert (E1 : run_average ERNum (set_beta (with_tau ERNum (with_av true false None) a_conf) (Some 2%R)) f
    = Ok (set_beta (with_tau ERNum (with_av true false None) a_conf) (Some 2%R), append "avg.dat" [numbers [Some 1%R]; numbers [Some 2%R]] (create "avg.dat" f))).
  { unfold run_average. eapply bind_eq; [|reflexivity].
    etransitivity; [apply average_total, (ses_fits (with_av true false None) (Some 2%R) a_conf); reflexivity|]. f_equal.
    assert (Gl : map snd (glob "a" f) = [a_log]) by (unfold glob; rewrite D; reflexivity).
    change (c_file (set_beta (with_tau ERNum (with_av true false None) a_conf) (Some 2%R))) with "a"%string.
    etransitivity; [apply (f_equal (fun l => map (out_line ERNum) (merged ERNum (map (rows_of ERNum) l)))); exact Gl|]. cbn. unfold er_div.
    destruct (Req_EM_T 1 0); [lra|]. repeat f_equal; lra. }
  set (f1 := append "avg.dat" [numbers [Some 1%R]; numbers [Some 2%R]] (create "avg.dat" f)) in *.
  assert (Rd1 : read_config ERNum f1 = Ok (a_conf, f1)).
  { apply (read_conf_only ERNum f f1 a_conf f); [reflexivity| |exact Rd]. apply (read_again ERNum f a_conf f Rd). }
  assert (E2 : run_average ERNum (set_beta (with_tau ERNum (with_av true false None) a_conf) (Some 2%R)) f1
    = Ok (set_beta (with_tau ERNum (with_av true false None) a_conf) (Some 2%R), append "avg.dat" [numbers [Some (3 / 2)%R]; numbers [Some 2%R]] (create "avg.dat" f1))).
  { unfold run_average. eapply bind_eq; [|reflexivity].
    etransitivity; [apply average_total, (ses_fits (with_av true false None) (Some 2%R) a_conf); reflexivity|]. f_equal.
    assert (Gl : map snd (glob "a" f1) = [[numbers [Some 1%R]; numbers [Some 2%R]]; a_log]).
    { unfold glob, f1, append, create. cbn [f_dat]. rewrite D. reflexivity. }
    change (c_file (set_beta (with_tau ERNum (with_av true false None) a_conf) (Some 2%R))) with "a"%string.
    etransitivity; [apply (f_equal (fun l => map (out_line ERNum) (merged ERNum (map (rows_of ERNum) l)))); exact Gl|]. cbn. unfold er_div.
    destruct (Req_EM_T 1 0); [lra|]. destruct (Req_EM_T (1 + 1) 0); [lra|]. repeat f_equal; lra. }
  eexists f, _, _. split; [apply (eq_ind_r (fun l => NoDup (map fst l))) with (2 := D); apply NoDup_cons; [intros []|constructor]|]. split; [apply (eq_ind_r (fun l => lookup "a0.dat"%string l = Some a_log)) with (2 := D); reflexivity|].
  split; [intros nm Hn; apply String.eqb_neq in Hn; apply (eq_ind_r (fun l => lookup nm l = None)) with (2 := D); cbn; rewrite Hn; reflexivity|].
  split; [rewrite (opt_avg ERNum 0 w _ f Sa); apply (late_ok ERNum _ _ (fun c => c) 0 _ f a_conf f (Some 2%R)); [exact Rd|reflexivity|exact E1]|].
  cbn [s_fs]. split; [rewrite (opt_avg ERNum 0 w _ f1 Sa); apply (late_ok ERNum _ _ (fun c => c) 0 _ f1 a_conf f1 (Some 2%R)); [exact Rd1|reflexivity|exact E2]|].
  cbn [s_fs]. split; [unfold f1|]; rewrite contents_append, contents_create, String.eqb_refl; reflexivity.
Qed.
