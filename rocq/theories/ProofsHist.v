(** Histogram modes. *)
From Coq Require Import String Reals List ZArith Arith Lra Lia Bool.
From Verif Require Import Num Monad NumR Config Chain Fit Files Runs SpecVec SpecChain SpecColumns SpecRuns SpecHist
  ProofsDir ProofsFrame ProofsHistory ProofsEnergy.
Import ListNotations.
Local Close Scope R_scope.
Local Open Scope nat_scope.

(** ** Iterations and paths *)
Section Iter.
Context {A : Type}.
Lemma iterMi_add (f : nat -> A -> res A) : forall a b k x,
  iterMi f k (a + b) x = bind (iterMi f k a x) (fun y => iterMi f (k + a) b y).
Proof.
  induction a as [|a IH]; intros b k x; [cbn [plus iterMi bind]; now rewrite Nat.add_0_r|].
  cbn [plus iterMi]. destruct (f k x) as [y| |]; cbn [bind]; [|reflexivity|reflexivity].
  rewrite IH. replace (S k + a) with (k + S a) by lia. reflexivity.
Qed.
Lemma iterM_iterMi (f : A -> res A) : forall n k x, iterM f n x = iterMi (fun _ => f) k n x.
Proof. induction n as [|n IH]; intros k x; [reflexivity|]. cbn [iterM iterMi]. destruct (f x); cbn [bind]; [apply IH| |]; reflexivity. Qed.
(** the states of a successful iteration *)
Definition trace (f : nat -> A -> res A) (x : A) (i : nat) : A := match iterMi f 0 i x with Ok y => y | _ => x end.
Lemma trace_ok f x m y : iterMi f 0 m x = Ok y -> forall i, i <= m -> iterMi f 0 i x = Ok (trace f x i).
Proof.
  intros E i Hi. unfold trace. replace m with (i + (m - i)) in E by lia. rewrite iterMi_add in E.
  destruct (iterMi f 0 i x) as [z| |]; [reflexivity|discriminate E|discriminate E].
Qed.
Lemma trace_at f x i y : iterMi f 0 i x = Ok y -> trace f x i = y.
Proof. intros E. unfold trace. now rewrite E. Qed.
Lemma trace_steps f x m y : iterMi f 0 m x = Ok y -> steps_of f (trace f x) m.
Proof.
  intros E i Hi. pose proof (trace_ok f x m y E (S i) ltac:(lia)) as H. pose proof (trace_ok f x m y E i ltac:(lia)) as H0.
  replace (S i) with (i + 1) in H at 1 by lia. rewrite iterMi_add, H0 in H. cbn [bind iterMi plus] in H.
  destruct (f i (trace f x i)); cbn [bind] in H; [|discriminate H|discriminate H]. rewrite <- H. reflexivity.
Qed.
End Iter.

Section Hist.
Variable N : NumOps.
Notation T := (num N).

(** lines [q], [q+1], ... of a histogram with [step i] = steps number [i*lap] to [(i+1)*lap] of [g] *)
Lemma hist_loop_lines (g : nat -> chain T -> res (chain T)) (step : nat -> chain T -> res (chain T)) x :
  (forall i c, step i c = iterMi g (i * lap) lap c) ->
  forall n q c c' ls, iterMi g 0 (q * lap) x = Ok c -> hist_loop N step q n c = Ok (c', ls) ->
  iterMi g 0 ((q + n) * lap) x = Ok c' /\ length ls = n /\
  (forall j, j < n -> hist_line N (q + j) (trace g x (S (q + j) * lap)) = Ok (nth j ls [])).
Proof.
  intros Hs. induction n as [|n IH]; intros q c c' ls E H.
  - cbn [hist_loop] in H. injection H as <- <-. rewrite Nat.add_0_r. repeat split; [exact E|]. intros j Hj. lia.
  - cbn [hist_loop] in H. apply bind_ok in H. destruct H as (c1 & H1 & H). apply bind_ok in H. destruct H as (l & H2 & H).
    apply bind_ok in H. destruct H as ([c2 r] & H3 & H). injection H as <- <-. rewrite Hs in H1.
    assert (E1 : iterMi g 0 (S q * lap) x = Ok c1).
    { replace (S q * lap) with (q * lap + lap) by lia. rewrite iterMi_add, E. exact H1. }
    destruct (IH (S q) c1 c2 r E1 H3) as (A & B & C). replace (S q + n) with (q + S n) in A by lia.
    split; [exact A|]. split; [cbn [length]; lia|]. intros [|j] Hj; cbn [nth].
    + rewrite Nat.add_0_r, (trace_at g x _ _ E1). exact H2.
    + replace (q + S j) with (S q + j) by lia. apply C. lia.
Qed.

Lemma mc_steps_iter upd d i c : mc_steps N upd d i c = iterMi (fun k => upd (d k)) (i * lap) lap c.
Proof. reflexivity. Qed.

Lemma wait_rounds d x : let g := fun k => metropolis_update N (d k) in
  forall fuel q c c', iterMi g 0 (q * lap) x = Ok c -> wait_typical N d fuel q c = Ok c' ->
  exists k, 1 <= k <= fuel /\ iterMi g 0 ((q + k) * lap) x = Ok c' /\ not_typical N c' = Ok false /\
    (forall r, 1 <= r < k -> not_typical N (trace g x ((q + r) * lap)) = Ok true).
Proof.
  intros g. induction fuel as [|fuel IH]; intros q c c' E H; [discriminate H|]. cbn [wait_typical] in H.
  apply bind_ok in H. destruct H as (c1 & H1 & H). apply bind_ok in H. destruct H as (b & H2 & H).
  assert (E1 : iterMi g 0 (S q * lap) x = Ok c1).
  { replace (S q * lap) with (q * lap + lap) by lia. rewrite iterMi_add, E. exact H1. }
  destruct b.
  - destruct (IH _ _ _ E1 H) as (k & Hk & A & B & C). exists (S k). split; [lia|]. replace (q + S k) with (S q + k) by lia.
    split; [exact A|]. split; [exact B|]. intros r Hr. destruct (Nat.eq_dec r 1) as [->|Hr1].
    + replace (q + 1) with (S q) by lia. rewrite (trace_at g x _ _ E1). exact H2.
    + replace (q + r) with (S q + (r - 1)) by lia. apply C. lia.
  - injection H as <-. exists 1. split; [lia|]. replace (q + 1) with (S q) by lia. split; [exact E1|]. split; [exact H2|]. intros r Hr. lia.
Qed.

Lemma new_logged_inv conf n d f sc f' : new_logged N conf n d f = Ok (sc, f') ->
  chain_new N conf d = Ok sc /\ forall m, m <> log_name (c_file conf) n -> contents f' m = contents f m.
Proof.
  unfold new_logged. intros E. apply bind_ok in E. destruct E as (c & E1 & E). injection E as <- <-. split; [exact E1|].
  intros m Hm. destruct (c_log conf); [|reflexivity]. rewrite contents_create. destruct (String.eqb_spec m (log_name (c_file conf) n)); [contradiction|reflexivity].
Qed.

Theorem hist_run fuel samples rg (conf : config T) f conf' f' : gen_hist N fuel samples rg conf f = Ok (conf', f') ->
  let mc_step := fun i => metropolis_update N (dr_mc (r_draws N rg 0) i) in
  exists sc0 mc dy k ls1 ls2,
   drive conf' = Dnone /\ c_file conf' = "x"%string /\ chain_new N conf' (dr_new (r_draws N rg 0)) = Ok sc0 /\
   mc 0 = sc0 /\ steps_of mc_step mc ((samples + k) * lap) /\
   length ls1 = samples /\ (forall j, j < samples -> hist_line N j (mc (S j * lap)) = Ok (nth j ls1 [])) /\
   1 <= k <= fuel /\ (forall r, 1 <= r < k -> not_typical N (mc ((samples + r) * lap)) = Ok true) /\
   not_typical N (mc ((samples + k) * lap)) = Ok false /\
   dy 0 = mc ((samples + k) * lap) /\ steps_of (fun _ => update N) dy (samples * lap) /\
   length ls2 = samples /\ (forall j, j < samples -> hist_line N j (dy (S j * lap)) = Ok (nth j ls2 [])) /\
   contents f' "hist_mc.dat" = Some (held f "hist_mc.dat" ++ ls1) /\
   contents f' "hist_dyn.dat" = Some (held f "hist_dyn.dat" ++ ls2).
Proof.
  intros E mc_step. unfold gen_hist in E. cbv zeta in E. apply bind_ok in E. destruct E as ([sc0 f0] & E0 & E).
  apply bind_ok in E. destruct E as ([c1 ls1] & E1 & E). apply bind_ok in E. destruct E as (c2 & E2 & E).
  apply bind_ok in E. destruct E as ([c3 ls2] & E3 & E). injection E as <- <-.
  apply new_logged_inv in E0. destruct E0 as (E0 & F0).
  destruct (hist_loop_lines mc_step _ sc0 (fun i c => eq_refl) samples 0 sc0 c1 ls1 eq_refl E1) as (A1 & A2 & A3). cbn [plus] in A1, A3.
  destruct (wait_rounds (dr_mc (r_draws N rg 0)) sc0 fuel samples c1 c2 A1 E2) as (k & Hk & B1 & B2 & B3).
  destruct (hist_loop_lines (fun _ => update N) (fun _ sc => iterM (update N) (Z.to_nat 10000) sc) c2 (fun i c => iterM_iterMi _ _ _ _) samples 0 c2 c3 ls2 eq_refl E3) as (D1 & D2 & D3).
  cbn [plus] in D1, D3.
  exists sc0, (trace mc_step sc0), (trace (fun _ => update N) c2), k, ls1, ls2.
  split; [reflexivity|]. split; [reflexivity|]. split; [exact E0|]. split; [reflexivity|]. split; [exact (trace_steps _ _ _ _ B1)|].
  split; [exact A2|]. split; [exact A3|]. split; [exact Hk|]. split; [exact B3|]. rewrite (trace_at mc_step sc0 _ _ B1).
  split; [exact B2|]. split; [reflexivity|]. split; [exact (trace_steps _ _ _ _ D1)|]. split; [exact D2|]. split; [exact D3|].
  assert (Fa : contents f0 "hist_mc.dat" = contents f "hist_mc.dat") by (apply F0; discriminate).
  assert (Fb : contents f0 "hist_dyn.dat" = contents f "hist_dyn.dat") by (apply F0; discriminate).
  unfold held. rewrite !contents_append. cbn [String.eqb Ascii.eqb Bool.eqb]. rewrite Fa, Fb. split.
  - destruct (contents f "hist_mc.dat"); [now rewrite app_nil_r|reflexivity].
  - destruct (contents f "hist_dyn.dat"); [now rewrite app_nil_r|reflexivity].
Qed.

Theorem magnus_hist_run samples rg (conf : config T) f conf' f' : gen_hist_magnus N samples rg conf f = Ok (conf', f') ->
  exists sc0 mc ls, drive conf' = Dnone /\ c_file conf' = "x"%string /\ chain_new N conf' (dr_new (r_draws N rg 0)) = Ok sc0 /\
   mc 0 = sc0 /\ steps_of (fun i => metropolis_update_magnus N (dr_mc (r_draws N rg 0) i)) mc (samples * lap) /\
   length ls = samples /\ (forall j, j < samples -> hist_line N j (mc (S j * lap)) = Ok (nth j ls [])) /\
   contents f' "hist_mc_magnus.dat" = Some (held f "hist_mc_magnus.dat" ++ ls).
Proof.
  intros E. unfold gen_hist_magnus in E. cbv zeta in E. apply bind_ok in E. destruct E as ([sc0 f0] & E0 & E).
  apply bind_ok in E. destruct E as ([c1 ls] & E1 & E). injection E as <- <-. apply new_logged_inv in E0. destruct E0 as (E0 & F0).
  set (g := fun i => metropolis_update_magnus N (dr_mc (r_draws N rg 0) i)).
  destruct (hist_loop_lines g _ sc0 (fun i c => eq_refl) samples 0 sc0 c1 ls eq_refl E1) as (A1 & A2 & A3). cbn [plus] in A1, A3.
  exists sc0, (trace g sc0), ls. split; [reflexivity|]. split; [reflexivity|]. split; [exact E0|]. split; [reflexivity|].
  split; [exact (trace_steps _ _ _ _ A1)|]. split; [exact A2|]. split; [exact A3|].
  rewrite contents_append, String.eqb_refl. unfold held. rewrite F0 by discriminate. destruct (contents f "hist_mc_magnus.dat"); reflexivity.
Qed.
End Hist.
