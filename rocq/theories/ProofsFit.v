(** Proofs about the temperature fits (Fit.v). *)
From Coq Require Import Reals ZArith List Lia Lra Bool Arith.
From Coq Require Import Floats.SpecFloat.
From Verif Require Import Num Monad NumR NumF64 Spin Config Chain Langevin Fit SpecVec SpecChain SpecTotal SpecFit
  ProofsChain ProofsNew ProofsTotal.
Import ListNotations.

Section Tree.
Context (N : NumOps).
Notation T := (num N).

(** all brackets reachable in [n] halvings *)
Fixpoint tree (low : T) (n : nat) (lo hi mid : T) : Prop :=
  match n with
  | O => nltb N (nlit N 1 3) (nsub N hi lo) = false /\ nltb N low mid = true /\ nltb N mid (nofZ N 5) = true
  | S n => nltb N (nlit N 1 3) (nsub N hi lo) = true /\
      tree low n mid hi (nmul N (nlit N 5 1) (nadd N mid hi)) /\
      tree low n lo mid (nmul N (nlit N 5 1) (nadd N lo mid))
  end.

Lemma loop_tree est tgt low n : (forall k b, est k b <> OutOfFuel) ->
  forall lo hi mid fuel k e, tree low n lo hi mid -> n <= fuel ->
  (exists b, bisect_loop N est tgt fuel k lo hi mid e = Ok b /\ nltb N low b = true /\ nltb N b (nofZ N 5) = true) \/
  (exists p k' b, bisect_loop N est tgt fuel k lo hi mid e = Panic p /\ est k' b = Panic p).
Proof.
  intro He. induction n as [|n IH]; intros lo hi mid fuel k e Ht Hf; cbn [tree] in Ht.
  - destruct Ht as (H1 & H2 & H3). left. exists mid. split; [|auto].
    destruct fuel; cbn [bisect_loop]; rewrite H1; reflexivity.
  - destruct Ht as (H1 & H2 & H3). destruct fuel as [|fuel]; [lia|]. cbn [bisect_loop]. rewrite H1.
    destruct (nltb N tgt e); cbv zeta.
    + destruct (est k _) as [e'|p|] eqn:E; cbn [bind]; [|right; eauto|now apply He in E]. apply IH; [exact H2|lia].
    + destruct (est k _) as [e'|p|] eqn:E; cbn [bind]; [|right; eauto|now apply He in E]. apply IH; [exact H3|lia].
Qed.

Lemma loop_short est tgt low n : (forall k b, returns (est k b)) ->
  forall lo hi mid fuel k e, tree low n lo hi mid -> fuel < n -> bisect_loop N est tgt fuel k lo hi mid e = OutOfFuel.
Proof.
  intro He. induction n as [|n IH]; intros lo hi mid fuel k e Ht Hf; [lia|]. cbn [tree] in Ht.
  destruct Ht as (H1 & H2 & H3). destruct fuel as [|fuel]; cbn [bisect_loop]; rewrite H1; [reflexivity|]. cbv zeta.
  destruct (nltb N tgt e).
  - destruct (He k (nmul N (nlit N 5 1) (nadd N mid hi))) as [e' ->]. cbn [bind]. apply IH; [exact H2|lia].
  - destruct (He k (nmul N (nlit N 5 1) (nadd N lo mid))) as [e' ->]. cbn [bind]. apply IH; [exact H3|lia].
Qed.

Definition tree0 (low : T) : Prop := tree low 13 low (nofZ N 5) (nmul N (nlit N 5 1) (nadd N low (nofZ N 5))).

Strategy expand [tree0].
Lemma bisect_tree est tgt low fuel : (forall k b, est k b <> OutOfFuel) -> tree0 low -> 13 <= fuel ->
  (exists b, bisect N est tgt low fuel = Ok b /\ nltb N low b = true /\ nltb N b (nofZ N 5) = true) \/
  (exists p k' b, bisect N est tgt low fuel = Panic p /\ est k' b = Panic p).
Proof.
  intros He Ht Hf. unfold bisect. cbv zeta.
  destruct (est 0 _) as [e0|p|] eqn:E0; cbn [bind]; [|right; eauto|now apply He in E0].
  destruct (est 1 _) as [e1|p|] eqn:E1; cbn [bind]; [|right; eauto|now apply He in E1].
  destruct (est 2 _) as [e2|p|] eqn:E2; cbn [bind]; [|right; eauto|now apply He in E2].
  exact (loop_tree est tgt low 13 He _ _ _ _ _ _ Ht Hf).
Qed.

Lemma bisect_short est tgt low fuel : (forall k b, returns (est k b)) -> tree0 low -> fuel < 13 ->
  bisect N est tgt low fuel = OutOfFuel.
Proof.
  intros He Ht Hf. unfold bisect. cbv zeta.
  destruct (He 0 low) as [e0 ->]. cbn [bind].
  destruct (He 1 (nmul N (nlit N 5 1) (nadd N low (nofZ N 5)))) as [e1 ->]. cbn [bind].
  destruct (He 2 (nofZ N 5)) as [e2 ->]. cbn [bind].
  exact (loop_short est tgt low 13 He _ _ _ _ _ _ Ht Hf).
Qed.

(** * The estimators are total *)
Lemma iterMi_wf (upd : mcdraw N -> chain T -> res (chain T)) n s (c : config T) (d : nat -> mcdraw N) :
  (forall d sc, wf n s sc -> vars sc = c -> exists sc', upd d sc = Ok sc' /\ wf n s sc' /\ vars sc' = c) ->
  forall j k sc, wf n s sc -> vars sc = c -> exists sc', iterMi (fun k sc => upd (d k) sc) k j sc = Ok sc' /\ wf n s sc' /\ vars sc' = c.
Proof.
  intros Hu. induction j as [|j IH]; intros k sc W V; cbn [iterMi]; [eauto|].
  destruct (Hu (d k) sc W V) as (sc1 & E & W1 & V1). rewrite E. cbn [bind]. apply IH; assumption.
Qed.

Lemma sample_loop_total {A} (upd : mcdraw N -> chain T -> res (chain T)) (obs : chain T -> res A) n s (c : config T) inner d :
  (forall d sc, wf n s sc -> vars sc = c -> exists sc', upd d sc = Ok sc' /\ wf n s sc' /\ vars sc' = c) ->
  (forall sc, wf n s sc -> vars sc = c -> returns (obs sc)) ->
  forall j k sc, wf n s sc -> vars sc = c -> exists l, sample_loop N upd obs inner d j k sc = Ok l /\ length l = j.
Proof.
  intros Hu Ho. induction j as [|j IH]; intros k sc W V; cbn [sample_loop]; [exists []; auto|].
  destruct (iterMi_wf upd n s c d Hu inner k sc W V) as (sc1 & E & W1 & V1). rewrite E. cbn [bind].
  destruct (Ho sc1 W1 V1) as [o Eo]. rewrite Eo. cbn [bind].
  destruct (IH (k + inner) sc1 W1 V1) as (l & El & Hl). rewrite El. cbn [bind]. exists (o :: l). cbn. auto.
Qed.

Definition sampler_ok (upd : mcdraw N -> chain T -> res (chain T)) (n : nat) : Prop :=
  forall s d sc, wf n s sc -> hs_ok (vars sc) -> exists sc', upd d sc = Ok sc' /\ wf n s sc' /\ vars sc' = vars sc.

Lemma sampler_of (a : mcdraw N -> action N) (upd : mcdraw N -> chain T -> res (chain T)) n :
  (forall d lc, act N (a d) lc = on_base lc (upd d (base lc))) -> (forall d, action_needs (a d) n) ->
  (forall d lc, action_noise (a d) lc) -> sampler_ok upd n.
Proof.
  intros Ha Hn Hz s d sc W Hh.
  destruct (act_returns N n s (mkL sc (nofZ N 0)) W Hh (a d) (Hn d) (Hz d _)) as (lc' & E & W' & V & _).
  rewrite Ha in E. cbn [base] in E. unfold on_base in E. destruct (upd d sc) as [sc'|p|]; cbn [bind] in E; try discriminate.
  injection E as <-. cbn [base gamma] in *. eauto.
Qed.
Lemma plain_sampler n : 1 <= n -> sampler_ok (metropolis_update N) n.
Proof. intro H. apply (sampler_of (@Aplain N)); cbn; auto. Qed.
Lemma maglab_sampler n : 1 <= n -> sampler_ok (metropolis_update_maglab N) n.
Proof. intro H. apply (sampler_of (@Amaglab N)); cbn; auto. Qed.
Lemma rot_sampler n : 2 <= n -> sampler_ok (metropolis_update_rot_magnus N) n.
Proof. intro H. apply (sampler_of (@Arot N)); cbn; auto. Qed.

Lemma forget_returns {A} (r : res A) : returns (forget r) -> returns r.
Proof. unfold forget. intros [u H]. destruct r; cbn in H; try discriminate. eexists; reflexivity. Qed.

Lemma estimate_total upd inner obs (conf : config T) n s : conf_ok N conf ->
  hsize conf = Z.of_nat n -> ssize conf = Z.of_nat s -> s <= n -> hs_ok conf ->
  sampler_ok upd n -> (forall sc, wf n s sc -> hs_ok (vars sc) -> returns (obs sc)) ->
  forall b d, returns (estimate N upd inner obs conf b d).
Proof.
  intros C Hn Hs Hsub Hh Hu Ho b d. unfold estimate.
  destruct (chain_new_ok N conf (dr_new d) C) as (sc & E & L1 & L2 & L3 & _ & V & _). rewrite E. cbn [bind]. cbv zeta.
  assert (W : wf n s (set_vars sc (set_beta (vars sc) b))).
  { destruct C as (H1 & _). constructor; cbn; rewrite ?V; cbn; auto; lia. }
  destruct (sample_loop_total upd obs n s (set_beta conf b) (Z.to_nat inner) (dr_mc d)) with (j := 1000) (k := 0)
    (sc := set_vars sc (set_beta (vars sc) b)) as (l & El & _).
  - intros d' sc' W' V'. destruct (Hu s d' sc' W') as (sc2 & E2 & W2 & V2); [rewrite V'; exact Hh|]. rewrite E2. exists sc2. rewrite V2. auto.
  - intros sc' W' V'. apply Ho; [exact W'|rewrite V'; exact Hh].
  - exact W.
  - cbn. now rewrite V.
  - rewrite El. cbn [bind]. eexists; reflexivity.
Qed.

Lemma query_ret (sc : chain T) n s q : quarter N -> wf n s sc -> hs_ok (vars sc) -> query_needs q n s ->
  returns (ask N q (mkL sc (nofZ N 0))).
Proof. intros Q W Hh Hq. now apply (proj1 (query_total N n s (mkL sc (nofZ N 0)) W Hh q Q)). Qed.

Lemma energy_at_total (s : search) (conf : config T) : quarter N -> fit_ok N s conf ->
  forall b d, returns (energy_at N s conf b d).
Proof.
  intros Q H b d. unfold fit_ok in H. cbv zeta in H. destruct H as (H1 & H2 & H3 & Hj & Hv & Hf & Hhs).
  set (c' := fit_conf s conf) in *.
  assert (C : conf_ok N c') by (repeat split; auto; lia).
  assert (Hn : hsize c' = Z.of_nat (Z.to_nat (hsize c'))) by lia.
  assert (Hs : ssize c' = Z.of_nat (Z.to_nat (ssize c'))) by lia.
  assert (Hh : hs_ok c') by (intros _; exact Hhs).
  set (n := Z.to_nat (hsize c')) in *. set (sz := Z.to_nat (ssize c')) in *.
  assert (Hsub : sz <= n) by lia.
  assert (M : forall sc n' s', wf n' s' sc -> hs_ok (vars sc) -> returns (m N sc)).
  { intros sc n' s' W' Hv'. apply forget_returns, (query_ret sc n' s' Qm Q W' Hv'). exact I. }
  destruct s; cbn [energy_at].
  - apply (estimate_total _ _ _ c' n sz C Hn Hs Hsub Hh); [apply plain_sampler; lia|].
    intros sc W Hv'. apply returns_bind; [|intros e _; apply returns_bind; [now apply (M sc n sz)|intros; apply returns_ok]].
    apply forget_returns, (query_ret sc n sz Qmc_system_energy Q W Hv'). cbn. cbn in H3. unfold sz, c'. cbn. lia.
  - apply (estimate_total _ _ _ c' n sz C Hn Hs Hsub Hh); [apply plain_sampler; lia|].
    intros sc W Hv'. apply forget_returns, (query_ret sc n sz Qmc_total_energy Q W Hv'). cbn. lia.
  - apply (estimate_total _ _ _ c' n sz C Hn Hs Hsub Hh); [apply plain_sampler; lia|].
    intros sc W Hv'. apply forget_returns, (query_ret sc n sz Qmc_total_energy Q W Hv'). cbn. lia.
  - apply (estimate_total _ _ _ c' n sz C Hn Hs Hsub Hh); [apply rot_sampler; lia|].
    intros sc W Hv'. apply forget_returns, (query_ret sc n sz Qmc_rot Q W Hv'). cbn. lia.
  - apply (estimate_total _ _ _ c' n sz C Hn Hs Hsub Hh); [apply maglab_sampler; lia|].
    intros sc W Hv'. apply forget_returns, (query_ret sc n sz Qmc_maglab Q W Hv'). cbn. lia.
Qed.

Lemma find_of_eq s fuel rng (conf : config T) :
  find_of N s fuel rng conf =
  (let* b := bisect N (fun k b => energy_at N s conf b (rng k)) (ednsty conf) (nlit N 1 (low_dec s)) fuel in
   Ok (b, fit_conf s conf)).
Proof. destruct s; reflexivity. Qed.

Lemma find_total s fuel rng (conf : config T) : quarter N -> tree0 (nlit N 1 (low_dec s)) -> fit_ok N s conf ->
  (13 <= fuel -> exists b, find_of N s fuel rng conf = Ok (b, fit_conf s conf) /\
     nltb N (nlit N 1 (low_dec s)) b = true /\ nltb N b (nofZ N 5) = true) /\
  (fuel < 13 -> find_of N s fuel rng conf = OutOfFuel).
Proof.
  intros Q Ht Hc. pose proof (energy_at_total s conf Q Hc) as He. rewrite find_of_eq. split; intro Hf.
  - destruct (bisect_tree (fun k b => energy_at N s conf b (rng k)) (ednsty conf) _ fuel
      (fun k b => match He b (rng k) with ex_intro _ a E => fun F => ltac:(congruence) end) Ht Hf) as [(b & E & B1 & B2)|(p & k & b & _ & E)].
    + rewrite E. cbn [bind]. eauto.
    + destruct (He b (rng k)). congruence.
  - rewrite bisect_short; auto.
Qed.

Lemma find_terminates s fuel rng (conf : config T) : tree0 (nlit N 1 (low_dec s)) ->
  (forall k b, energy_at N s conf b (rng k) <> OutOfFuel) -> 13 <= fuel -> 
  (exists b, find_of N s fuel rng conf = Ok (b, fit_conf s conf) /\
     nltb N (nlit N 1 (low_dec s)) b = true /\ nltb N b (nofZ N 5) = true) \/
  (exists p k b, find_of N s fuel rng conf = Panic p /\ energy_at N s conf b (rng k) = Panic p).
Proof.
  intros Ht He Hf. rewrite find_of_eq.
  destruct (bisect_tree (fun k b => energy_at N s conf b (rng k)) (ednsty conf) _ fuel He Ht Hf) as [(b & E & B1 & B2)|(p & k & b & E & E')].
  - left. rewrite E. cbn [bind]. eauto.
  - right. rewrite E. cbn [bind]. eauto.
Qed.
End Tree.

(** * binary64: all 2^13 brackets, by computation *)
Fixpoint treeb (low c d five : f64) (n : nat) (lo hi mid : f64) : bool :=
  match n with
  | O => negb (SFltb c (f_sub hi lo)) && SFltb low mid && SFltb mid five
  | S n => SFltb c (f_sub hi lo) &&
      (treeb low c d five n mid hi (f_mul d (f_add mid hi)) && treeb low c d five n lo mid (f_mul d (f_add lo mid)))
  end.
Lemma treeb_ok L low n : forall lo hi mid, treeb low (f_lit 1 3) (f_lit 5 1) (f_ofZ 5) n lo hi mid = true -> tree (F64 L) low n lo hi mid.
Proof.
  induction n as [|n IH]; intros lo hi mid H; cbn [treeb] in H; apply andb_prop in H; destruct H as [H1 H2].
  - apply andb_prop in H1. destruct H1 as [H1 H3]. apply negb_true_iff in H1. split; [exact H1|]. split; [exact H3|exact H2].
  - apply andb_prop in H2. destruct H2 as [H2 H3]. cbn [tree]. split; [exact H1|]. split; [now apply IH|now apply IH].
Qed.
Lemma tree2 : (let low := f_lit 1 2 in let c := f_lit 1 3 in let d := f_lit 5 1 in let five := f_ofZ 5 in
  treeb low c d five 13 low five (f_mul d (f_add low five))) = true.
Proof. vm_cast_no_check (eq_refl true). Qed.
Lemma tree4 : (let low := f_lit 1 4 in let c := f_lit 1 3 in let d := f_lit 5 1 in let five := f_ofZ 5 in
  treeb low c d five 13 low five (f_mul d (f_add low five))) = true.
Proof. vm_cast_no_check (eq_refl true). Qed.
Lemma tree_F64_2 L : tree0 (F64 L) (f_lit 1 2).
Proof. unfold tree0. apply treeb_ok. exact tree2. Qed.
Lemma tree_F64_4 L : tree0 (F64 L) (f_lit 1 4).
Proof. unfold tree0. apply treeb_ok. exact tree4. Qed.
Lemma tree_F64 L s : tree0 (F64 L) (f_lit 1 (low_dec s)).
Proof.
  destruct s; [exact (tree_F64_2 L)|exact (tree_F64_2 L)|exact (tree_F64_2 L)|exact (tree_F64_4 L)|exact (tree_F64_4 L)].
Qed.
