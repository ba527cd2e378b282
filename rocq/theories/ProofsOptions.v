(** What one option on the command line does. *)
From Coq Require Import String Reals ZArith List Lia Lra Arith Bool.
From Verif Require Import Num Monad NumR Spin Config Chain Langevin Fit Files Toml Writers Average Runs Main
  SpecVec SpecChain SpecTotal SpecColumns SpecRuns SpecToml SpecMain SpecHist SpecPeriods SpecOptions
  ProofsDir ProofsNames ProofsToml ProofsFrame ProofsMain ProofsHistory ProofsHist ProofsHist3 ProofsLoop ProofsPeriods.
Import ListNotations.
Local Close Scope R_scope.
Local Open Scope nat_scope.

Section O.
Context (N : NumOps).
Notation T := (num N).
Implicit Types (a : args T) (f : fs T).

Ltac offs H :=
  unfold main, main_before, main_after;
  try rewrite (off_desc _ _ (fun h => ltac:(discriminate (H _ h)))); try rewrite (off_ext _ _ (fun h => ltac:(discriminate (H _ h))));
  try rewrite (off_tau _ _ (fun h => ltac:(discriminate (H _ h)))); try rewrite (off_adiab2 _ _ (fun h => ltac:(discriminate (H _ h))));
  try rewrite (off_rot _ _ (fun h => ltac:(discriminate (H _ h)))); try rewrite (off_maglab _ _ (fun h => ltac:(discriminate (H _ h))));
  try rewrite (off_fit _ _ (fun h => ltac:(discriminate (H _ h)))); try rewrite (off_fiteff _ _ (fun h => ltac:(discriminate (H _ h))));
  try rewrite (off_high _ _ (fun h => ltac:(discriminate (H _ h)))); try rewrite (off_adiabatic _ _ (fun h => ltac:(discriminate (H _ h))));
  try rewrite (off_hist _ _ (fun h => ltac:(discriminate (H _ h)))); try rewrite (off_dynhist _ _ (fun h => ltac:(discriminate (H _ h))));
  try rewrite (off_magnus _ _ (fun h => ltac:(discriminate (H _ h)))); try rewrite (off_traj _ _ (fun h => ltac:(discriminate (H _ h))));
  try rewrite (off_avg _ _ (fun h => ltac:(discriminate (H _ h)))); try rewrite (off_two _ _ (fun h => ltac:(discriminate (H _ h))));
  try rewrite (off_mc _ _ (fun h => ltac:(discriminate (H _ h)))); try rewrite (off_mcp _ _ (fun h => ltac:(discriminate (H _ h))));
  try rewrite (off_dynp _ _ (fun h => ltac:(discriminate (H _ h)))); try rewrite (off_mcf _ _ (fun h => ltac:(discriminate (H _ h))));
  try rewrite (off_lang _ _ (fun h => ltac:(discriminate (H _ h)))); try rewrite (off_resp _ _ (fun h => ltac:(discriminate (H _ h))));
  cbn [flag when bind].

Ltac after1 := unfold with_tau, asked; destruct (read_config N _) as [[conf f0]| |]; [|reflexivity|reflexivity]; cbn [bind];
  destruct (settle_beta N _ _ _) as [s| |]; [|reflexivity|reflexivity]; cbn [bind s_conf s_fs s_default s_trace];
  destruct s; unfold do_run; cbn [s_conf s_fs s_default s_trace];
  match goal with |- context [bind ?x _] => destruct x; reflexivity end.


(** the program with one late mode *)
Definition late_mode (md : mode) (mk : config T -> fs T -> res (config T * fs T)) (mid : config T -> config T) (fuel : nat) a f : res (state N) :=
  let* '(conf, f0) := read_config N f in
  let* s := settle_beta N fuel a (mkSt N (with_tau N a conf) f0 true []) in
  do_run N md mk (mkSt N (mid (s_conf N s)) (s_fs N s) (s_default N s) (s_trace N s)).
Lemma late_inv md mk mid fuel a f st : late_mode md mk mid fuel a f = Ok st ->
  exists conf f0 b, read_config N f = Ok (conf, f0) /\ settled N fuel a (with_tau N a conf) b /\
    mk (mid (set_beta (with_tau N a conf) b)) f0 = Ok (s_conf N st, s_fs N st) /\
    s_trace N st = [(md, mid (set_beta (with_tau N a conf) b))].
Proof.
  intros E. apply bind_ok in E. destruct E as ([conf f0] & E0 & E).
  apply bind_ok in E. destruct E as (s1 & E1 & E). apply settle_ok in E1. destruct E1 as (b & Hb & ->).
  cbn [s_conf s_fs s_default s_trace] in *. unfold do_run in E. apply bind_ok in E. destruct E as ([c' f'] & E2 & E). apply Ok_inj in E. subst st. cbn [s_conf s_fs s_default s_trace leave fst snd].
  exists conf, f0, b. auto.
Qed.
Lemma late_ok md mk mid fuel a f conf f0 b c' f' : read_config N f = Ok (conf, f0) -> settled N fuel a (with_tau N a conf) b ->
  mk (mid (set_beta (with_tau N a conf) b)) f0 = Ok (c', f') ->
  late_mode md mk mid fuel a f = Ok (mkSt N c' f' false [(md, mid (set_beta (with_tau N a conf) b))]).
Proof.
  intros E0 Hb E. unfold late_mode. rewrite E0. cbn [bind]. unfold settle_beta. cbn [s_conf s_fs s_default s_trace].
  assert (Eb : match a_beta a with Some b => Ok b | None => solve_beta N fuel (ednsty (with_tau N a conf)) end = Ok b).
  { unfold settled in Hb. destruct (a_beta a); [rewrite Hb; reflexivity|exact Hb]. }
  rewrite Eb. cbn [bind s_conf s_fs s_default s_trace]. unfold do_run. cbn [s_conf s_fs s_default s_trace]. rewrite E. reflexivity.
Qed.

Ltac late H Ho := offs H; rewrite Ho; cbn [flag when bind]; unfold points, late_mode; after1.
Ltac only_ S := let m := fresh in intros m; rewrite S; intros [<-|[]]; reflexivity.
Lemma opt_hist fuel w a f o : selected a = [Mhist] -> a_hist a = Some o ->
  main N fuel w a f = late_mode Mhist (gen_hist N fuel (Z.to_nat (asked 8000%Z o)) (w_rng N w Mhist)) (fun c => c) fuel a f.
Proof. intros S Ho. assert (H : only N Mhist a) by only_ S. late H Ho. Qed.
Lemma opt_dynhist fuel w a f o : selected a = [Mdynhist] -> a_dynhist a = Some o ->
  main N fuel w a f = late_mode Mdynhist (gen_hist_dynamics N (Z.to_nat (asked 1000%Z o)) (w_rng N w Mdynhist)) (fun c => c) fuel a f.
Proof. intros S Ho. assert (H : only N Mdynhist a) by only_ S. late H Ho. Qed.
Lemma opt_magnus fuel w a f o : selected a = [Mmagnus] -> a_magnus_hist a = Some o ->
  main N fuel w a f = late_mode Mmagnus (gen_hist_magnus N (Z.to_nat (asked 8000%Z o)) (w_rng N w Mmagnus)) (fun c => c) fuel a f.
Proof. intros S Ho. assert (H : only N Mmagnus a) by only_ S. late H Ho. Qed.
Lemma opt_traj fuel w a f o : selected a = [Mtraj] -> a_singletraj a = Some o ->
  main N fuel w a f = late_mode Mtraj (gen_single_traj N fuel (Z.to_nat (asked 1000%Z o)) (w_rng N w Mtraj)) (fun c => c) fuel a f.
Proof. intros S Ho. assert (H : only N Mtraj a) by only_ S. late H Ho. Qed.
Lemma opt_lang fuel w a f o : selected a = [Mlangevin] -> a_langevin a = Some o ->
  main N fuel w a f = late_mode Mlangevin (run_langevin N fuel (asked (nofZ N 1) o) (w_rng N w Mlangevin)) (to_system N) fuel a f.
Proof. intros S Ho. assert (H : only N Mlangevin a) by only_ S. unfold to_system. late H Ho. Qed.
(** --n-steps comes before the temperature *)
Lemma opt_tau fuel w a f xs : selected a = [Mtau] -> a_n_steps_taus a = Some xs ->
  main N fuel w a f =
    let* '(conf, f0) := read_config N f in
    let* s := do_run N Mtau (run_tau N fuel xs (asked 1000%Z (a_steps a)) (w_rng N w Mtau)) (mkSt N (with_tau N a conf) f0 true []) in
    settle_beta N fuel a s.
Proof.
  intros S Ho. assert (H : only N Mtau a) by only_ S.
  offs H. fold (with_tau N a). rewrite Ho. cbn [when]. unfold asked. destruct (read_config N f) as [[conf f0]| |]; [|reflexivity|reflexivity]. cbn [bind].
  unfold do_run. cbn [s_conf s_fs]. destruct (run_tau N fuel xs _ _ _ _) as [p| |]; [|reflexivity|reflexivity]. cbn [bind leave].
  unfold settle_beta. cbn [s_conf s_fs s_default s_trace leave]. destruct (match a_beta a with Some b => Ok b | None => _ end); reflexivity.
Qed.

Lemma held_read f conf f0 n : read_config N f = Ok (conf, f0) -> contents f0 n = contents f n /\ held f0 n = held f n.
Proof. intros E. destruct (read_in_range N f conf f0 E) as [_ D]. unfold held, contents. rewrite D. auto. Qed.

(** ** What is in the files *)
Theorem hist_option fuel w a f st o : selected a = [Mhist] -> a_hist a = Some o -> main N fuel w a f = Ok st ->
  exists ls1 ls2, length ls1 = Z.to_nat (asked 8000%Z o) /\ length ls2 = Z.to_nat (asked 8000%Z o) /\
    contents (s_fs N st) "hist_mc.dat" = Some (held f "hist_mc.dat" ++ ls1) /\
    contents (s_fs N st) "hist_dyn.dat" = Some (held f "hist_dyn.dat" ++ ls2).
Proof.
  intros S Ho E. rewrite (opt_hist fuel w a f o S Ho) in E. apply late_inv in E. destruct E as (conf & f0 & b & R & _ & G & _).
  destruct (hist_run _ _ _ _ _ _ _ _ G) as (sc0 & mc & dy & k & ls1 & ls2 & _ & _ & _ & _ & _ & L1 & _ & _ & _ & _ & _ & _ & L2 & _ & C1 & C2).
  exists ls1, ls2. destruct (held_read f conf f0 "hist_mc.dat" R) as [_ H1]. destruct (held_read f conf f0 "hist_dyn.dat" R) as [_ H2].
  rewrite H1 in C1. rewrite H2 in C2. auto.
Qed.
Theorem magnus_option fuel w a f st o : selected a = [Mmagnus] -> a_magnus_hist a = Some o -> main N fuel w a f = Ok st ->
  exists ls, length ls = Z.to_nat (asked 8000%Z o) /\ contents (s_fs N st) "hist_mc_magnus.dat" = Some (held f "hist_mc_magnus.dat" ++ ls).
Proof.
  intros S Ho E. rewrite (opt_magnus fuel w a f o S Ho) in E. apply late_inv in E. destruct E as (conf & f0 & b & R & _ & G & _).
  destruct (magnus_hist_run _ _ _ _ _ _ _ G) as (sc0 & mc & ls & _ & _ & _ & _ & _ & L1 & _ & C1).
  exists ls. destruct (held_read f conf f0 "hist_mc_magnus.dat" R) as [_ H1]. rewrite H1 in C1. auto.
Qed.

Lemma dynhist_frame samples rg (conf : config T) f conf' f' m : gen_hist_dynamics N samples rg conf f = Ok (conf', f') ->
  m <> ("dyn-hist-t-" ++ r_fmt N rg (c_t conf) ++ ".dat")%string -> m <> log_name (c_file conf) 0 -> contents f' m = contents f m.
Proof.
  intros E Hm Hl. unfold gen_hist_dynamics in E. cbv zeta in E. set (name := ("dyn-hist-t-" ++ r_fmt N rg (c_t conf) ++ ".dat")%string) in *.
  apply bind_ok in E. destruct E as (u & _ & E). apply bind_ok in E. destruct E as ([l g] & E1 & E). injection E as <- <-.
  match goal with H : foldM ?g _ _ = _ |- _ => set (G := g) in H end.
  assert (Q : forall n q l0 f0 l f1, foldM G (seq q n) (l0, f0) = Ok (l, f1) -> contents f1 m = contents f0 m).
  { induction n as [|n IH]; intros q l0 f0 l1 f1 H; [cbn in H; injection H as <- <-; reflexivity|].
    cbn [seq foldM] in H. apply bind_ok in H. destruct H as ([l2 f2] & H1 & H). unfold G in H1 at 1.
    apply bind_ok in H1. destruct H1 as ([sc f3] & H2 & H1). apply bind_ok in H1. destruct H1 as (c & H3 & H1).
    apply bind_ok in H1. destruct H1 as (h & H4 & H1). injection H1 as <- <-. apply new_logged_inv in H2. destruct H2 as (_ & F2).
    rewrite (IH _ _ _ _ _ H). apply F2. exact Hl. }
  unfold range in E1. rewrite contents_append. destruct (String.eqb_spec m name); [contradiction|].
  rewrite (Q _ _ _ _ _ _ E1), contents_append. destruct (String.eqb_spec m name); [contradiction|reflexivity].
Qed.
Theorem dynhist_option fuel w a f st o conf f0 : selected a = [Mdynhist] -> a_dynhist a = Some o -> read_config N f = Ok (conf, f0) -> main N fuel w a f = Ok st ->
  let name := ("dyn-hist-t-" ++ r_fmt N (w_rng N w Mdynhist) (c_t conf) ++ ".dat")%string in
  log_name (c_file conf) 0 <> name ->
  (exists rows, length rows = Z.to_nat (asked 1000%Z o) /\
    contents (s_fs N st) name = Some (held f name ++ r_file N (w_rng N w Mdynhist) (map (fun l => [l]) rows))) /\
  (log_name (c_file conf) 0 <> "hist_dyn.dat"%string -> contents (s_fs N st) "hist_dyn.dat" = contents f "hist_dyn.dat").
Proof.
  intros S Ho Rd E name Hn. rewrite (opt_dynhist fuel w a f o S Ho) in E. apply late_inv in E. destruct E as (conf' & f1 & b & R & _ & G & _).
  rewrite Rd in R. injection R as <- <-.
  assert (Ef : c_file (set_beta (with_tau N a conf) b) = c_file conf) by (unfold with_tau; destruct (a_tau a); reflexivity).
  assert (Et : c_t (set_beta (with_tau N a conf) b) = c_t conf) by (unfold with_tau; destruct (a_tau a); reflexivity).
  split.
  - destruct (dynhist_run _ _ _ _ _ _ _ G) as (rows & _ & L & _ & C); [rewrite Ef, Et; exact Hn|]. exists rows. split; [exact L|].
    rewrite Et in C. fold name in C. destruct (held_read f conf f0 name Rd) as [_ H1]. rewrite H1 in C. exact C.
  - intros Hd. rewrite (dynhist_frame _ _ _ _ _ _ "hist_dyn.dat"%string G); [apply (held_read f conf f0 _ Rd)|discriminate|rewrite Ef; congruence].
Qed.

(** -l: the damping *)
Theorem langevin_option fuel w a f st o : selected a = [Mlangevin] -> a_langevin a = Some o -> main N fuel w a f = Ok st ->
  exists conf f0 b, read_config N f = Ok (conf, f0) /\ temperature N fuel (a_beta a) (overridden (a_tau a) conf) b /\
    run_langevin N fuel (asked (nofZ N 1) o) (w_rng N w Mlangevin)
      (set_hsize (set_beta (overridden (a_tau a) conf) b) (ssize conf)) f0 = Ok (s_conf N st, s_fs N st).
Proof.
  intros S Ho E. rewrite (opt_lang fuel w a f o S Ho) in E. apply late_inv in E. destruct E as (conf & f0 & b & R & Hb & G & _).
  exists conf, f0, b. split; [exact R|]. split; [exact Hb|]. rewrite <- G. unfold to_system, with_tau, overridden. destruct (a_tau a); reflexivity.
Qed.
End O.

Lemma traj_frame N fuel samples rg (conf : config (num N)) f conf' f' m : gen_single_traj N fuel samples rg conf f = Ok (conf', f') ->
  m <> ("hist-st-t-" ++ r_fmt N rg (c_t conf) ++ ".dat")%string -> m <> log_name (c_file conf) 0 -> contents f' m = contents f m.
Proof.
  intros E Hm Hl. unfold gen_single_traj in E. cbv zeta in E. set (name := ("hist-st-t-" ++ r_fmt N rg (c_t conf) ++ ".dat")%string) in *.
  apply bind_ok in E. destruct E as ([sc f1] & E1 & E). apply bind_ok in E. destruct E as (sc2 & _ & E). apply bind_ok in E. destruct E as ([sc3 ls] & _ & E).
  injection E as <- <-. apply new_logged_inv in E1. destruct E1 as (_ & F). rewrite contents_append. destruct (String.eqb_spec m name); [contradiction|].
  rewrite (F m Hl), contents_append. destruct (String.eqb_spec m name); [contradiction|reflexivity].
Qed.

(** -s, if the period is a whole number of steps *)
Theorem traj_option fuel w (a : args (num ERNum)) f o conf f0 x dt c b : selected a = [Mtraj] -> a_singletraj a = Some o -> a_beta a = Some b ->
  read_config ERNum f = Ok (conf, f0) -> steppable ERNum conf -> trel conf = Some 0%R -> tau (overridden (a_tau a) conf) = Some x -> c_dt conf = Some dt ->
  (0 < dt)%R -> 1 <= c -> x = (INR c * dt)%R -> (30 * Z.of_nat c < 2 ^ 64)%Z ->
  let name := ("hist-st-t-" ++ r_fmt ERNum (w_rng ERNum w Mtraj) (c_t conf) ++ ".dat")%string in
  log_name (c_file conf) 0 <> name -> Z.to_nat (asked 1000%Z o) * c <= fuel ->
  exists st rows, main ERNum fuel w a f = Ok st /\ contents (s_fs ERNum st) name = Some (held f name ++ rows) /\ length rows = Z.to_nat (asked 1000%Z o) /\
    (forall j, j < Z.to_nat (asked 1000%Z o) -> exists rest, nth j rows [] = numbers (Some ((31 + INR j) * x)%R :: rest)) /\
    (log_name (c_file conf) 0 <> "hist_sj.dat"%string -> contents (s_fs ERNum st) "hist_sj.dat" = contents f "hist_sj.dat").
Proof.
  intros S Ho Hb Rd Hs Hr Hx Hdt Pd Hc Ex Hbig name Hn Hf. set (K := Z.to_nat (asked 1000%Z o)) in *.
  set (conf1 := set_beta (with_tau ERNum a conf) b).
  assert (Ef : c_file conf1 = c_file conf) by (unfold conf1, with_tau; destruct (a_tau a); reflexivity).
  assert (Et : c_t conf1 = c_t conf) by (unfold conf1, with_tau; destruct (a_tau a); reflexivity).
  assert (Hs1 : steppable ERNum conf1) by (unfold conf1, with_tau; destruct (a_tau a); exact Hs).
  assert (Hr1 : trel conf1 = Some 0%R) by (unfold conf1, with_tau; destruct (a_tau a); exact Hr).
  assert (Hd1 : c_dt conf1 = Some dt) by (unfold conf1, with_tau; destruct (a_tau a); exact Hdt).
  assert (Hx1 : tau conf1 = Some x) by exact Hx.
  destruct (single_even x dt c K Pd Hc Ex) as (Ec & Em & Ek). cbv zeta in *.
  set (m := nsteps (- 0 + INR (warmup x dt) * dt)%R ((INR K + 30) * x)%R dt) in *.
  assert (Hq : (x / dt = INR c)%R) by (rewrite Ex; field; lra).
  assert (C1 : (1 <= INR c)%R) by (apply (le_INR 1); exact Hc).
  destruct (single_run fuel K (w_rng ERNum w Mtraj) conf1 f0 0%R x dt Hs1 Hr1 Hx1 Hd1) as (sc & st & row & f' & _ & _ & _ & Hrow & G & C).
  - split; [exact Pd|]. rewrite Ex. nra.
  - replace (30 * x / dt)%R with (30 * (x / dt))%R by (field; lra). rewrite Hq, INR_IZR_INZ, <- mult_IZR. apply IZR_lt. exact Hbig.
  - rewrite Ef, Et. exact Hn.
  - fold m. rewrite Em. exact Hf.
  - assert (Hset : settled ERNum fuel a (with_tau ERNum a conf) b) by (unfold settled; rewrite Hb; reflexivity).
    pose proof (late_ok ERNum Mtraj (gen_single_traj ERNum fuel K (w_rng ERNum w Mtraj)) (fun q => q) fuel a f conf f0 b _ _ Rd Hset G) as Lo.
    assert (Lo' := eq_trans (opt_traj ERNum fuel w a f o S Ho) Lo). clear Lo.
    eexists. exists (map row (marks c (warmup x dt) m)). split; [exact Lo'|]. cbn [s_fs].
    assert (Ll : length (marks c (warmup x dt) m) = K) by (apply (f_equal (@length R)) in Ek; rewrite !map_length, seq_length in Ek; exact Ek).
    split; [|split; [rewrite map_length; exact Ll|split]].
    + rewrite Et, Ec in C. fold name m in C. destruct (held_read ERNum f conf f0 name Rd) as [_ H1]. rewrite H1 in C. exact C.
    + intros j Hj. rewrite (nth_indep _ [] (row 0)) by (rewrite map_length, Ll; exact Hj). rewrite map_nth.
      set (q := nth j (marks c (warmup x dt) m) 0). destruct (Hrow q) as (Tq & h & Eh & ->).
      assert (Eq : (- 0 + INR q * dt = (31 + INR j) * x)%R).
      { pose proof (f_equal (fun l => nth j l (- 0 + INR 0 * dt)%R) Ek) as Ej. cbv beta in Ej. rewrite (map_nth (fun k => - 0 + INR k * dt)%R) in Ej. fold q in Ej. rewrite Ej.
        rewrite (nth_indep _ _ ((31 + INR 0) * x)%R) by (rewrite map_length, seq_length; exact Hj). rewrite (map_nth (fun j => (31 + INR j) * x)%R), seq_nth by exact Hj. reflexivity. }
      unfold hist_head in Eh. apply bind_ok in Eh. destruct Eh as (mm & _ & Eh). cbv zeta in Eh. apply bind_ok in Eh. destruct Eh as (es & _ & Eh). injection Eh as <-.
      eexists. apply f_equal. apply (f_equal2 cons); [exact (eq_trans Tq (f_equal Some Eq))|reflexivity].
    + intros Hd. rewrite (traj_frame _ _ _ _ _ _ _ _ "hist_sj.dat"%string G); [apply (held_read ERNum f conf f0 _ Rd)|discriminate|rewrite Ef; congruence].
Qed.

(** -n *)
Theorem taus_option fuel w (a : args (num ERNum)) f conf f0 xs r b : selected a = [Mtau] -> a_n_steps_taus a = Some (map Some xs) -> a_beta a = Some b ->
  read_config ERNum f = Ok (conf, f0) -> steppable ERNum conf -> trel conf = Some r ->
  let k := asked 1000%Z (a_steps a) in
  (forall x, In x xs -> (0 < x)%R /\ period_steps r x k <= fuel) ->
  exists st old rows, main ERNum fuel w a f = Ok st /\
    contents (s_fs ERNum st) ("evt" ++ dec (Z.to_nat k) ++ ".dat")%string = Some (old ++ r_file ERNum (w_rng ERNum w Mtau) (map (fun l => [l]) rows)) /\
    Forall2 (fun x row => exists rest, length rest = 5 /\ row = numbers (Some x :: Some (period_end r x k) :: rest)) xs rows.
Proof.
  intros S Ho Hb Rd Hs Hr k Hx. set (conf1 := with_tau ERNum a conf).
  assert (Hs1 : steppable ERNum conf1) by (unfold conf1, with_tau; destruct (a_tau a); exact Hs).
  assert (Hr1 : trel conf1 = Some r) by (unfold conf1, with_tau; destruct (a_tau a); exact Hr).
  destruct (period_mode fuel xs k (w_rng ERNum w Mtau) conf1 f0 r Hs1 Hr1 Hx) as (rows & f1 & E & F).
  rewrite (opt_tau ERNum fuel w a f _ S Ho), Rd. cbn [bind]. unfold do_run. cbn [s_conf s_fs]. fold conf1. fold k. rewrite E. cbn [bind].
  unfold settle_beta. rewrite Hb. cbn [bind leave s_conf s_fs s_default s_trace fst snd].
  eexists. exists (held f1 ("evt" ++ dec (Z.to_nat k) ++ ".dat")%string), rows. split; [reflexivity|]. cbn [s_fs]. split; [|exact F].
  rewrite contents_append, String.eqb_refl. unfold held. destruct (contents f1 _); reflexivity.
Qed.
