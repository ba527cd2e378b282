(** What the Monte-Carlo modes record. *)
From Coq Require Import String Reals Lra Lia List ZArith Arith.
From Verif Require Import Num Monad NumR Spin Config Chain Fit Files Writers Runs SpecVec SpecChain SpecMC SpecMagnus SpecColumns SpecWriters SpecSampling SpecReport SpecLive Samples
  ProofsSpin ProofsChain ProofsDir ProofsNames ProofsFrame ProofsHistory ProofsEnergy ProofsNew ProofsMCR ProofsMCR2 ProofsMCR3 ProofsMCR4 ProofsMagnus ProofsMagnus2 ProofsColumns ProofsWriters ProofsProfile ProofsSampling.
Import ListNotations.
Local Open Scope R_scope.
Local Open Scope list_scope.

(** ** The path *)
Definition dstep (n : nat) (D : chain R -> nat -> vec -> R) (b : R) (w : move) (c : chain R) : chain R :=
  let i := (mv_site w mod n)%nat in let v := uniform_dir (mv_1 w) (mv_2 w) in
  if Rlt_dec (D c i v) 0 then moved c i v else if Rlt_dec (mv_u w) (exp (- (b * D c i v))) then moved c i v else c.
Fixpoint dpath n D b (w : nat -> move) c0 k : chain R :=
  match k with O => c0 | S k => dstep n D b (w k) (dpath n D b w c0 k) end.
Lemma dpath_path n D b w c0 : change_path n D b w (dpath n D b w c0).
Proof.
  intros k. cbv zeta. cbn [dpath]. unfold dstep. cbv zeta. set (x := D _ _ _). split; intros A.
  - destruct A as [A|A]; destruct (Rlt_dec x 0); try reflexivity; try contradiction. destruct (Rlt_dec _ _); [reflexivity|contradiction].
  - destruct (Rlt_dec x 0) as [B|B]; [exfalso; apply A; left; exact B|]. destruct (Rlt_dec _ _) as [C|C]; [exfalso; apply A; right; exact C|reflexivity].
Qed.
Lemma dpath_frame n s D b w c0 : wf n s c0 -> forall k, wf n s (dpath n D b w c0 k) /\ vars (dpath n D b w c0 k) = vars c0.
Proof.
  intros W. induction k as [|k (Wk & Vk)]; cbn [dpath]; [auto|].
  unfold dstep. cbv zeta. destruct (Rlt_dec _ 0); [|destruct (Rlt_dec _ _)]; try (split; [apply moved_wf; exact Wk|auto]); auto.
Qed.
Lemma dpath_steps n s D upd (c0 : chain R) (mv : nat -> move) : wf n s c0 -> (forall i, fair (mv i)) ->
  (forall c, wf n s c -> vars c = vars c0 -> uses_change n D upd c) ->
  let st := dpath n D (beta (vars c0)) mv c0 in
  forall i, upd (as_draw (mv i)) (fin (st i)) = Ok (fin (st (S i))).
Proof.
  intros W Hf Hu st i. destruct (dpath_frame n s D (beta (vars c0)) mv c0 W i) as (Wi & Vi). fold st in Wi, Vi.
  destruct (Hf i) as (F1 & F2 & F3). destruct (Hu (st i) Wi Vi (mv_site (mv i)) _ _ _ F1 F2 F3) as [A B]. rewrite Vi in A, B.
  destruct (dpath_path n D (beta (vars c0)) mv c0 i) as [A' B']. fold st in A', B'. cbv zeta in A', B', A, B.
  match type of A with ?P -> _ => destruct (accepts_dec (beta (vars c0)) (D (st i) (mv_site (mv i) mod n)%nat (uniform_dir (mv_1 (mv i)) (mv_2 (mv i)))) (mv_u (mv i))) as [X|X] end.
  - rewrite (A' X). exact (A X).
  - rewrite (B' X). exact (B X).
Qed.

(** ** The threads *)
Lemma frame_value N {A} (worker : draws N -> Z -> chain (num N) -> res A) rg conf f sc (a : nat -> A) parts :
  mc_split (threads conf) (mc_points conf) = Ok parts -> (forall i, chain_new N conf (dr_new (r_draws N rg i)) = Ok (sc i)) ->
  (forall i z, nth_error parts i = Some z -> worker (r_draws N rg i) z (sc i) = Ok (a i)) ->
  exists f', mc_frame N worker rg conf f = Ok (map a (seq 0 (length parts)), f') /\
    forall name, (forall k, name <> log_name (c_file conf) k) -> contents f' name = contents f name.
Proof.
  intros Hs Hn Hw. unfold mc_frame. rewrite Hs. cbn [bind].
  match goal with |- context [foldM ?g _ _] => set (step := g) end. rewrite range0.
  assert (H : forall k, (k <= length parts)%nat -> exists f', foldM step (seq 0 k) ([], f) = Ok (map a (seq 0 k), f') /\
    forall name, (forall k, name <> log_name (c_file conf) k) -> contents f' name = contents f name).
  { induction k as [|k IH]; intros Hk; [exists f; split; reflexivity|]. destruct (IH ltac:(lia)) as (f1 & E1 & K1).
    rewrite seq_S, foldM_app, E1. cbn [bind foldM]. unfold step at 1. unfold new_logged. rewrite Hn. cbn [bind].
    destruct (nth_error parts (0 + k)) as [z|] eqn:Ez; [|apply nth_error_None in Ez; cbn in Ez; lia]. unfold idx. rewrite Ez. cbn [bind].
    rewrite (Hw _ _ Ez). cbn [bind]. eexists. split; [rewrite map_app; reflexivity|].
    intros name Hx. destruct (c_log conf); [|exact (K1 name Hx)]. rewrite contents_create. 
    destruct (String.eqb_spec name (log_name (c_file conf) (0 + k))) as [X|_]; [destruct (Hx _ X)|exact (K1 name Hx)]. }
  destruct (H (length parts) (le_n _)) as (f' & E & K). exists f'. split; [exact E|exact K].
Qed.

Lemma split_shares th p : (1 <= th)%Z -> (1 <= p < 2 ^ 31)%Z -> exists parts, mc_split th p = Ok parts /\ shares th p (map Z.to_nat parts).
Proof.
  intros Ht Hp. destruct (mc_split_ok th p Ht Hp) as (l & E & L & F & Sm). exists l. split; [exact E|]. unfold shares. rewrite map_length. split; [exact L|]. split.
  - apply Forall_map. eapply Forall_impl; [|exact F]. cbn. intros z Hz. lia.
  - rewrite <- Sm. clear - F. induction F as [|z l Hz F IH]; [reflexivity|].
    change (list_sum (map Z.to_nat (z :: l))) with (Z.to_nat z + list_sum (map Z.to_nat l))%nat. change (zsum (z :: l)) with (z + zsum l)%Z.
    rewrite Nat2Z.inj_add, IH, Z2Nat.id by lia. reflexivity.
Qed.

Lemma records_length sh st : length (concat (records sh st)) = list_sum sh.
Proof.
  unfold records. assert (H : forall l g, length (concat (map (fun i => recorded (nth i l 0%nat) (g i)) (seq 0 (length l)))) = list_sum l).
  { induction l as [|a l IH]; intros g; [reflexivity|]. cbn [length seq map concat]. rewrite app_length. rewrite <- seq_shift, map_map.
    change (list_sum (a :: l)) with (a + list_sum l)%nat. pose proof (IH (fun i => g (S i))) as H. cbv beta in H. cbn [nth]. rewrite H. f_equal. unfold recorded. rewrite map_length, seq_length. reflexivity. }
  apply H.
Qed.

Section Modes.
Variables (rg : rng ERNum) (conf : config R) (f : fs (num ERNum)) (n s : nat) (c : nat -> chain R) (mv : nat -> nat -> move)
  (D : chain R -> nat -> vec -> R) (upd : mcdraw ERNum -> chain (num ERNum) -> res (chain (num ERNum))).
Hypothesis Hth : (1 <= threads conf)%Z.
Hypothesis Hpt : (1 <= mc_points conf < 2 ^ 31)%Z.
Hypothesis ST : started rg conf n s c mv.
Hypothesis Hu : forall x, wf n s x -> vars x = conf -> uses_change n D upd x.

Let st (i : nat) : nat -> chain R := dpath n D (beta conf) (mv i) (c i).
Lemma st_wf_all i k : wf n s (st i k) /\ vars (st i k) = conf.
Proof. destruct (dpath_frame n s D (beta conf) (mv i) (c i) (st_wf _ _ _ _ _ _ ST i) k) as [A B]. split; [exact A|]. etransitivity; [exact B|apply (st_vars _ _ _ _ _ _ ST)]. Qed.
Lemma st_steps i k : upd (dr_mc (r_draws ERNum rg i) k) (fin (st i k)) = Ok (fin (st i (S k))).
Proof.
  rewrite (st_moves _ _ _ _ _ _ ST). unfold st. pose proof (st_vars _ _ _ _ _ _ ST i) as V. rewrite <- V at 1 2.
  apply (dpath_steps n s D upd (c i) (mv i) (st_wf _ _ _ _ _ _ ST i)); [apply (st_fair _ _ _ _ _ _ ST)|]. intros x Wx Vx. apply Hu; [exact Wx|]. rewrite Vx. exact V.
Qed.
Lemma worker_value {A} (obs : chain (num ERNum) -> res A) (o : chain R -> A) i z :
  (forall x, wf n s x -> vars x = conf -> obs (fin x) = Ok (o x)) ->
  mc_worker ERNum upd 1000000 obs (r_draws ERNum rg i) z (fin (c i)) = Ok (map o (recorded (Z.to_nat z) (st i))).
Proof.
  intros Ho. unfold mc_worker.
  pose proof (loop_samples ERNum upd obs (Z.to_nat 1000000) (dr_mc (r_draws ERNum rg i)) (fun k => fin (st i k)) (fun q => o (st i (Z.to_nat 1000000 * S q)%nat))
    (st_steps i) (fun q => Ho _ (proj1 (st_wf_all i _)) (proj2 (st_wf_all i _))) (Z.to_nat z) 0%nat) as L.
  rewrite Nat.mul_0_r in L. change (st i 0%nat) with (c i) in L. etransitivity; [exact L|]. unfold recorded. rewrite map_map. reflexivity.
Qed.
Lemma paths_ok i : st i 0%nat = c i /\ change_path n D (beta conf) (mv i) (st i).
Proof. split; [reflexivity|apply dpath_path]. Qed.

Lemma nth_share parts i z : nth_error parts i = Some z -> Z.to_nat z = nth i (map Z.to_nat parts) 0%nat.
Proof. intros E. symmetry. apply nth_error_nth. rewrite nth_error_map, E. reflexivity. Qed.

Lemma live_value : (1 <= s)%nat -> drive_ok conf ->
  exists sh f', shares (threads conf) (mc_points conf) sh /\
    run_mc_with ERNum upd rg (config_map Some conf) f = Ok (config_map Some conf, f') /\
    lines_of f' "mc_live.dat" = lines_of f "mc_live.dat" ++ r_file ERNum rg (map (map (fun x => numbers (map Some (mc_row n s x)))) (records sh st)).
Proof.
  intros Hs Hd. destruct (split_shares _ _ Hth Hpt) as (parts & E & Sh). exists (map Z.to_nat parts).
  destruct (frame_value ERNum (mc_worker ERNum upd 1000000 (mc_line ERNum)) rg (config_map Some conf) (append "mc_live.dat" [] f) (fun i => fin (c i))
     (fun i => map (fun x => numbers (map Some (mc_row n s x))) (recorded (nth i (map Z.to_nat parts) 0%nat) (st i))) parts) as (f1 & E1 & K1).
  - exact E.
  - exact (st_new _ _ _ _ _ _ ST).
  - intros i z Ez. rewrite <- (nth_share parts i z Ez). apply worker_value. intros x Wx Vx. apply (mc_line_value n s x Wx Hs). rewrite Vx. exact Hd.
  - eexists. split; [exact Sh|]. unfold run_mc_with. cbv zeta. change (list (line (num ERNum))) with (list (line ER)) in E1. match type of E1 with ?a = _ => match goal with |- context [mc_frame ?b ?c ?d ?e ?g] => change (mc_frame b c d e g) with a end end. rewrite E1. cbn [bind]. split; [reflexivity|].
    unfold lines_of. rewrite contents_append, String.eqb_refl.
    rewrite (K1 "mc_live.dat"%string) by (intros k; apply not_eq_sym, (log_name_not _ k "mc_live"%string _ eq_refl eq_refl)).
    rewrite contents_append, String.eqb_refl. unfold records. rewrite map_length, map_map.
    destruct (contents f "mc_live.dat") as [l|]; [rewrite app_nil_r|]; reflexivity.
Qed.

End Modes.

Lemma profile_value rg conf f n s c mv :
  (1 <= threads conf)%Z -> (1 <= mc_points conf < 2 ^ 31)%Z -> started rg conf n s c mv -> (2 <= n)%nat ->
  (forall ws, interleaving ws (r_msgs ERNum rg ws)) ->
  exists sh st f', shares (threads conf) (mc_points conf) sh /\
    (forall i, st i 0%nat = c i /\ metropolis_path n (ens_energy Estatic n s 0) (beta conf) (mv i) (st i)) /\
    run_mc_profile ERNum rg (config_map Some conf) f = Ok (config_map Some conf, f') /\
    lines_of f' "mc_profile.dat" = map (profile_line (map (site_of n) (concat (records sh st)))) (seq 0 n).
Proof.
  intros Hth Hpt ST Hn Hi.
  set (D := fun x i v => ens_energy Estatic n s 0 (moved x i v) - ens_energy Estatic n s 0 x).
  assert (Hu : forall x, wf n s x -> vars x = conf -> uses_change n D (metropolis_update ERNum) x) by (intros x Wx _; exact (plain_step n s x Wx Hn)).
  set (st := fun i => dpath n D (beta conf) (mv i) (c i)).
  destruct (split_shares _ _ Hth Hpt) as (parts & E & Sh). exists (map Z.to_nat parts), st.
  set (sh := map Z.to_nat parts) in *.
  destruct (frame_value ERNum (fun d m sc => let* l := mc_worker ERNum (metropolis_update ERNum) 1000000 (snapshot ERNum) d m sc in Ok (concat l)) rg (config_map Some conf) (create "mc_profile.dat" f) (fun i => fin (c i))
     (fun i => flat_map (messages n) (map (site_of n) (recorded (nth i sh 0%nat) (st i)))) parts) as (f1 & E1 & K1).
  - exact E.
  - exact (st_new _ _ _ _ _ _ ST).
  - intros i z Ez. rewrite (worker_value rg conf n s c mv D _ ST Hu (snapshot ERNum) (fun x => messages n (site_of n x))).
    + cbn [bind]. f_equal. rewrite (nth_share parts i z Ez). rewrite flat_map_concat_map, map_map. reflexivity.
    + intros x Wx _. apply (snapshot_ok n s x Wx). lia.
  - assert (N1 : as_usize (hsize (T := num ERNum) (config_map Some conf)) = n).
    { pose proof (st_wf _ _ _ _ _ _ ST 0%nat) as W0. pose proof (st_vars _ _ _ _ _ _ ST 0%nat) as V0. destruct W0. change (hsize (T := num ERNum) (config_map Some conf)) with (hsize conf). rewrite <- V0. unfold as_usize. rewrite Z.mod_small by lia. lia. }
    assert (Ls : length (concat (records sh st)) = Z.to_nat (mc_points conf)).
    { rewrite records_length. destruct Sh as (_ & _ & Sm). lia. }
    eexists. split; [exact Sh|]. split; [intros i; split; [reflexivity|exact (dpath_path n D (beta conf) (mv i) (c i))]|].
    unfold run_mc_profile. cbv zeta. rewrite E1. cbn [bind]. rewrite N1.
    assert (P : profile_in_bg ERNum n (length (concat (map (map (site_of n)) (records sh st)))) true
        (r_msgs ERNum rg (map (fun i => flat_map (messages n) (map (site_of n) (recorded (nth i sh 0%nat) (st i)))) (seq 0 (length parts))))
      = Ok (map (profile_line (concat (map (map (site_of n)) (records sh st)))) (seq 0 n))).
    { assert (L2 : length (concat (map (map (site_of n)) (records sh st))) = Z.to_nat (mc_points conf)) by (rewrite <- concat_map, map_length; exact Ls).
      apply profile_schedule.
      - intros X. rewrite X in L2. cbn in L2. lia.
      - rewrite L2. pose proof (st_wf _ _ _ _ _ _ ST 0%nat) as W0. destruct W0. nia.
      - unfold records. rewrite !map_map. unfold sh. rewrite map_length. apply Hi. }
    rewrite <- concat_map, map_length, Ls in P. change (mc_points (config_map Some conf)) with (mc_points conf). rewrite P. cbn [bind]. split; [reflexivity|].
    unfold lines_of. rewrite contents_append, String.eqb_refl.
    rewrite (K1 "mc_profile.dat"%string) by (intros k; apply not_eq_sym, (log_name_not _ k "mc_profile"%string _ eq_refl eq_refl)).
    rewrite contents_create, String.eqb_refl. reflexivity.
Qed.

Lemma plain_live rg conf f n s c mv :
  (1 <= threads conf)%Z -> (1 <= mc_points conf < 2 ^ 31)%Z -> started rg conf n s c mv -> (2 <= n)%nat -> (1 <= s)%nat -> drive_ok conf ->
  exists sh st f', shares (threads conf) (mc_points conf) sh /\
    (forall i, st i 0%nat = c i /\ metropolis_path n (ens_energy Estatic n s 0) (beta conf) (mv i) (st i)) /\
    run_mc ERNum rg (config_map Some conf) f = Ok (config_map Some conf, f') /\
    lines_of f' "mc_live.dat" = lines_of f "mc_live.dat" ++ r_file ERNum rg (map (map (fun x => numbers (map Some (mc_row n s x)))) (records sh st)).
Proof.
  intros Hth Hpt ST Hn Hs Hd.
  set (D := fun x i v => ens_energy Estatic n s 0 (moved x i v) - ens_energy Estatic n s 0 x).
  assert (Hu : forall x, wf n s x -> vars x = conf -> uses_change n D (metropolis_update ERNum) x) by (intros x Wx _; exact (plain_step n s x Wx Hn)).
  destruct (live_value rg conf f n s c mv D _ Hth Hpt ST Hu Hs Hd) as (sh & f' & A & B & C).
  exists sh, (fun i => dpath n D (beta conf) (mv i) (c i)), f'. split; [exact A|]. split; [|split; [exact B|exact C]].
  intros i. split; [reflexivity|exact (dpath_path n D (beta conf) (mv i) (c i))].
Qed.
Lemma full_live rg conf f n s c mv :
  (1 <= threads conf)%Z -> (1 <= mc_points conf < 2 ^ 31)%Z -> started rg conf n s c mv -> (3 <= n)%nat -> (1 <= s)%nat -> drive_ok conf -> tau conf <> 0 ->
  exists sh st f', shares (threads conf) (mc_points conf) sh /\
    (forall i, st i 0%nat = c i /\ change_path n (second_order_change n s) (beta conf) (mv i) (st i)) /\
    run_mc_magnus ERNum rg (config_map Some conf) f = Ok (config_map Some conf, f') /\
    lines_of f' "mc_live.dat" = lines_of f "mc_live.dat" ++ r_file ERNum rg (map (map (fun x => numbers (map Some (mc_row n s x)))) (records sh st)).
Proof.
  intros Hth Hpt ST Hn Hs Hd Ht.
  assert (Hu : forall x, wf n s x -> vars x = conf -> uses_change n (second_order_change n s) (metropolis_update_mag_full ERNum) x).
  { intros x Wx Vx. apply (magfull_uses n s x Wx Hn). rewrite Vx. exact Ht. }
  destruct (live_value rg conf f n s c mv _ _ Hth Hpt ST Hu Hs Hd) as (sh & f' & A & B & C).
  exists sh, (fun i => dpath n (second_order_change n s) (beta conf) (mv i) (c i)), f'. split; [exact A|]. split; [|split; [exact B|exact C]].
  intros i. split; [reflexivity|apply dpath_path].
Qed.
