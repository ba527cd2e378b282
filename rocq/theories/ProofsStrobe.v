(** Strobing, and the time loop in binary64. *)
From Coq Require Import String SpecFloat Reals Lra Lia List ZArith Arith Bool.
From Flocq Require Import Core.
From Verif Require Import Num Monad NumR NumF64 Spin Config Chain Langevin Fit Files Toml Writers Runs SpecVec SpecChain SpecTotal SpecToml SpecRuns
  ProofsChain ProofsEnergy ProofsDyn ProofsMC ProofsNew ProofsTotal ProofsToml ProofsNames ProofsFrame ProofsLoop ProofsSim.
Import ListNotations.
Local Close Scope R_scope.
Local Open Scope nat_scope.

Lemma concat_filter {A} (b : nat -> bool) (g : nat -> list A) l :
  concat (map (fun k => if b k then g k else []) l) = concat (map g (filter b l)).
Proof. induction l as [|k l IH]; [reflexivity|]. cbn. destruct (b k); cbn; rewrite IH; reflexivity. Qed.

(** any arithmetic: a run whose steps are due according to [b] *)
Lemma sim_strobe N n s sc b m fuel : quarter N -> wf n s sc -> 2 <= n -> 1 <= s -> hs_ok (vars sc) ->
  (forall k, k < m -> nltb N (after_steps N k (c_dt (vars sc)) (t sc)) (c_t (vars sc)) = true) ->
  nltb N (after_steps N m (c_dt (vars sc)) (t sc)) (c_t (vars sc)) = false ->
  (forall k, 1 <= k <= m -> due N (vars sc) (ntou64 N (ndiv N (tau (vars sc)) (c_dt (vars sc)))) (after_steps N k (c_dt (vars sc)) (t sc)) = Ok (b k)) ->
  m <= fuel ->
  exists st lines, dynamics N sc st /\ (forall k, chain_log N (st k) = Ok (lines k)) /\
   (forall k, t (st k) = after_steps N k (c_dt (vars sc)) (t sc)) /\
   sim_run N (chain_log N) fuel sc = Ok (concat (map lines (0 :: filter b (seq 1 m)))).
Proof.
  intros Q W Hn Hs Hh B E D Hf.
  destruct (sim_states N (chain_log N) n s sc b m fuel W Hn Hh) as (st & lines & Dy & X & P & Fin & _).
  - intros c Wc Hc. exact (chain_log_ok N n s c Wc Hc Q Hs).
  - exact (chain_log_ok N n s sc W Hh Q Hs).
  - exact B.
  - exact D.
  - exists st, lines. split; [exact Dy|]. split; [exact X|]. split; [intros k; apply P|].
    destruct (Fin E Hf) as (l0 & E0 & ->). rewrite <- (proj1 Dy), X in E0. injection E0 as <-. rewrite concat_filter. reflexivity.
Qed.

(** ** Exact arithmetic *)
Section ER.
Local Open Scope R_scope.
Context (n s : nat) (sc : chain (num ERNum)) (x dt tmax tc : R) (fuel : nat).
Hypothesis (W : wf n s sc) (Hn : (2 <= n)%nat) (Hs : (1 <= s)%nat) (Hh : hs_ok (vars sc)) (St : strob (vars sc) = true).
Hypothesis (Ex : t sc = Some x) (Ed : c_dt (vars sc) = Some dt) (Et : c_t (vars sc) = Some tmax) (Ec : tau (vars sc) = Some tc) (Hd : 0 < dt).

Lemma aft k : after_steps ERNum k (c_dt (vars sc)) (t sc) = Some (x + INR k * dt).
Proof. transitivity (after_steps ERNum k (Some dt) (Some x)); [|apply after_ER]. f_equal; assumption. Qed.
Lemma div_ER a : ndiv ERNum (Some a) (Some dt) = Some (a / dt).
Proof. change (er_div (Some a) (Some dt) = Some (a / dt)). unfold er_div. destruct (Req_EM_T dt 0); [lra|reflexivity]. Qed.
Definition u64 (z : Z) : Z := Z.max 0 (Z.min (2 ^ 64 - 1) z).
Lemma tou_ER a : ntou64 ERNum (Some a) = u64 (Zfloor a).
Proof. reflexivity. Qed.
Lemma ts_ER : ntou64 ERNum (ndiv ERNum (tau (vars sc)) (c_dt (vars sc))) = u64 (Zfloor (tc / dt)).
Proof.
  transitivity (ntou64 ERNum (ndiv ERNum (Some tc) (Some dt))); [f_equal; apply f_equal2; [exact Ec|exact Ed]|]. rewrite div_ER. apply tou_ER.
Qed.
Lemma due_ER ts k : ts <> 0%Z -> due ERNum (vars sc) ts (after_steps ERNum k (c_dt (vars sc)) (t sc)) = Ok (u64 (Zfloor ((x + INR k * dt) / dt)) mod ts =? 0)%Z.
Proof.
  intros H. unfold due. rewrite St. destruct (Z.eqb_spec ts 0); [contradiction|].
  cbv zeta. do 2 f_equal. f_equal. transitivity (ntou64 ERNum (ndiv ERNum (Some (x + INR k * dt)) (Some dt))); [|rewrite div_ER; apply tou_ER].
  f_equal. apply f_equal2; [apply aft|exact Ed].
Qed.

Theorem strobe_run : dt <= tc -> (nsteps x tmax dt <= fuel)%nat ->
  let c := u64 (Zfloor (tc / dt)) in
  exists st lines, dynamics ERNum sc st /\ (forall k, chain_log ERNum (st k) = Ok (lines k)) /\ (forall k, t (st k) = Some (x + INR k * dt)) /\
   sim_run ERNum (chain_log ERNum) fuel sc =
     Ok (concat (map lines (0%nat :: filter (fun k => (u64 (Zfloor ((x + INR k * dt) / dt)) mod c =? 0)%Z) (seq 1 (nsteps x tmax dt))))).
Proof.
  intros Hc Hf c.
  assert (C1 : (1 <= Zfloor (tc / dt))%Z).
  { apply Zfloor_lub. apply Rmult_le_reg_r with dt; [exact Hd|]. unfold Rdiv. rewrite Rmult_assoc, Rinv_l by lra. cbn. lra. }
  destruct (sim_strobe ERNum n s sc (fun k => (u64 (Zfloor ((x + INR k * dt) / dt)) mod c =? 0)%Z) (nsteps x tmax dt) fuel quarter_ER W Hn Hs Hh)
    as (st & lines & D & X & Tk & E).
  - intros k Hk. etransitivity; [apply f_equal2; [apply aft|exact Et]|]. apply ltb_ER. apply nsteps_before; assumption.
  - etransitivity; [apply f_equal2; [apply aft|exact Et]|]. apply ltb_ER_false. apply nsteps_after; [assumption|reflexivity].
  - intros k Hk. rewrite ts_ER. fold c. apply due_ER. unfold c, u64. lia.
  - exact Hf.
  - exists st, lines. split; [exact D|]. split; [exact X|]. split; [|exact E]. intros k. etransitivity; [apply Tk|apply aft].
Qed.

Theorem strobe_zero : tc < dt -> x < tmax -> (1 <= fuel)%nat -> sim_run ERNum (chain_log ERNum) fuel sc = Panic DivByZero.
Proof.
  intros Hc Hx Hf. unfold sim_run. destruct (chain_log_ok ERNum n s sc W Hh quarter_ER Hs) as [l0 ->]. cbn [bind].
  rewrite ts_ER. assert (Z0 : u64 (Zfloor (tc / dt)) = 0%Z).
  { assert (Zfloor (tc / dt) <= 0)%Z; [|unfold u64; lia]. destruct (Z_lt_le_dec 0 (Zfloor (tc / dt))) as [H|H]; [|lia]. exfalso.
    assert (1 <= Zfloor (tc / dt))%Z by lia. apply IZR_le in H0. pose proof (Zfloor_lb (tc / dt)).
    assert (tc / dt < 1); [|lra]. apply Rmult_lt_reg_r with dt; [exact Hd|]. unfold Rdiv. rewrite Rmult_assoc, Rinv_l by lra. lra. }
  rewrite Z0. destruct fuel as [|g]; [lia|]. cbn [time_loop].
  assert (B : nltb ERNum (t sc) (c_t (vars sc)) = true).
  { etransitivity; [apply f_equal2; [exact Ex|exact Et]|]. apply ltb_ER. exact Hx. }
  rewrite B. unfold sim_body at 1. destruct (update_pure ERNum n s sc W Hn Hh) as (sp & -> & _). cbn [bind vars].
  unfold due. rewrite St. reflexivity.
Qed.
End ER.

Section Whole.
Local Open Scope R_scope.
(** whole numbers of steps *)
Lemma floor_steps k dt : 0 < dt -> (Z.of_nat k < 2 ^ 64)%Z -> u64 (Zfloor ((0 + INR k * dt) / dt)) = Z.of_nat k.
Proof.
  intros Hd Hk. replace ((0 + INR k * dt) / dt) with (IZR (Z.of_nat k)) by (rewrite <- INR_IZR_INZ; field; lra).
  rewrite Zfloor_IZR. unfold u64. lia.
Qed.
Lemma floor_neg y dt : 0 < dt -> y < 0 -> u64 (Zfloor (y / dt)) = 0%Z.
Proof.
  intros Hd Hy. assert (Zfloor (y / dt) < 0)%Z; [|unfold u64; lia]. apply lt_IZR. eapply Rle_lt_trans; [apply Zfloor_lb|].
  apply Rmult_lt_reg_r with dt; [exact Hd|]. unfold Rdiv. rewrite Rmult_assoc, Rinv_l by lra. lra.
Qed.

Theorem strobe_periods n s sc dt tmax c fuel : wf n s sc -> (2 <= n)%nat -> (1 <= s)%nat -> hs_ok (vars sc) -> strob (vars sc) = true ->
  t sc = Some 0 -> c_dt (vars sc) = Some dt -> c_t (vars sc) = Some tmax -> tau (vars sc) = Some (INR c * dt) -> 0 < dt ->
  (1 <= c)%nat -> (Z.of_nat c < 2 ^ 64)%Z -> (Z.of_nat (Z.to_nat (Zceil (tmax / dt))) < 2 ^ 64)%Z -> (Z.to_nat (Zceil (tmax / dt)) <= fuel)%nat ->
  exists st lines, dynamics ERNum sc st /\ (forall k, chain_log ERNum (st k) = Ok (lines k)) /\ (forall k, t (st k) = Some (INR k * dt)) /\
   sim_run ERNum (chain_log ERNum) fuel sc =
     Ok (concat (map lines (0%nat :: filter (fun k => (k mod c =? 0)%nat) (seq 1 (Z.to_nat (Zceil (tmax / dt))))))).
Proof.
  intros W Hn Hs Hh St Ex Ed Et Ec Hd C1 C2 M Hf.
  assert (NS : nsteps 0 tmax dt = Z.to_nat (Zceil (tmax / dt))) by (unfold nsteps; rewrite Rminus_0_r; reflexivity).
  assert (1 <= INR c) by (change 1 with (INR 1); apply le_INR; exact C1).
  destruct (strobe_run n s sc 0 dt tmax (INR c * dt) fuel W Hn Hs Hh St Ex Ed Et Ec Hd) as (st & lines & D & X & Tk & E); [nra|rewrite NS; exact Hf|].
  exists st, lines. split; [exact D|]. split; [exact X|]. split; [intros k; rewrite Tk; f_equal; ring|].
  etransitivity; [exact E|]. rewrite NS. do 3 f_equal. f_equal. apply filter_ext_in. intros k Hk. apply in_seq in Hk.
  rewrite floor_steps by (assumption || lia).
  assert (F : u64 (Zfloor (INR c * dt / dt)) = Z.of_nat c).
  { replace (INR c * dt) with (0 + INR c * dt) by ring. apply floor_steps; assumption. }
  rewrite F. rewrite <- Nat2Z.inj_mod. destruct (Nat.eqb_spec (k mod c) 0) as [->|Q]; [reflexivity|].
  destruct (Z.eqb_spec (Z.of_nat (k mod c)) 0); [lia|reflexivity].
Qed.

(** While the time is negative every step is logged. *)
Theorem strobe_negative n s sc x dt tmax tc fuel : wf n s sc -> (2 <= n)%nat -> (1 <= s)%nat -> hs_ok (vars sc) -> strob (vars sc) = true ->
  t sc = Some x -> c_dt (vars sc) = Some dt -> c_t (vars sc) = Some tmax -> tau (vars sc) = Some tc -> 0 < dt -> dt <= tc ->
  (Z.to_nat (Zceil ((tmax - x) / dt)) <= fuel)%nat ->
  exists st lines b, dynamics ERNum sc st /\ (forall k, chain_log ERNum (st k) = Ok (lines k)) /\ (forall k, t (st k) = Some (x + INR k * dt)) /\
   sim_run ERNum (chain_log ERNum) fuel sc = Ok (concat (map lines (0%nat :: filter b (seq 1 (Z.to_nat (Zceil ((tmax - x) / dt))))))) /\
   forall k, x + INR k * dt < 0 -> b k = true.
Proof.
  intros W Hn Hs Hh St Ex Ed Et Ec Hd Hc Hf.
  destruct (strobe_run n s sc x dt tmax tc fuel W Hn Hs Hh St Ex Ed Et Ec Hd Hc Hf) as (st & lines & D & X & Tk & E).
  exists st, lines. eexists. split; [exact D|]. split; [exact X|]. split; [exact Tk|]. split; [exact E|].
  intros k Hk. cbv beta. rewrite floor_neg by assumption. rewrite Zmod_0_l. reflexivity.
Qed.
End Whole.

(** ** Binary64 *)
Section F64.
Context (L : libm).
Lemma after_fixed dt x : f_add x dt = x -> forall k, after_steps (F64 L) k dt x = x.
Proof. intros H. induction k as [|k IH]; [reflexivity|]. rewrite after_steps_S. etransitivity; [apply f_equal2; [exact IH|reflexivity]|exact H]. Qed.

Theorem sim_hangs n s sc : wf n s sc -> 2 <= n -> 1 <= s -> hs_ok (vars sc) -> strob (vars sc) = false ->
  f_add (t sc) (c_dt (vars sc)) = t sc -> SFltb (t sc) (c_t (vars sc)) = true ->
  forall fuel, sim_run (F64 L) (chain_log (F64 L)) fuel sc = OutOfFuel.
Proof.
  intros W Hn Hs Hh St E B fuel. destruct (sim_plain (F64 L) n s sc (S fuel) fuel (quarter_F64 L) W Hn Hs Hh St) as [_ H]; [|apply H; lia].
  intros k _. etransitivity; [apply f_equal2; [apply (after_fixed _ _ E)|reflexivity]|exact B].
Qed.

Theorem run_sim_hangs rg (conf : config (num (F64 L))) f : usable (F64 L) conf -> (1 <= runs conf)%Z -> strob conf = false ->
  f_add (SFopp (trel conf)) (c_dt conf) = SFopp (trel conf) -> SFltb (SFopp (trel conf)) (c_t conf) = true ->
  forall fuel, run_sim (F64 L) fuel rg conf f = OutOfFuel.
Proof.
  intros U R1 St E B fuel. unfold run_sim. apply run_frame_hangs; [exact U|exact R1|]. intros sc Hsc.
  destruct U as (C & Rg & Hh & Hs & _).
  destruct (new_wf (F64 L) conf (dr_new (r_draws (F64 L) rg 0)) C ltac:(lia)) as (sc0 & E0 & W & V & Tt & F).
  rewrite E0 in Hsc. injection Hsc as <-. unfold sim_worker.
  destruct (thermalise_ok (F64 L) _ _ (dr_mc (r_draws (F64 L) rg 0)) 20000000 sc0 W ltac:(lia)) as (sc1 & E1 & W1 & V1 & T1 & F1); [rewrite V; exact (conf_hs (F64 L) conf C)|].
  rewrite E1. cbn [bind]. rewrite V in V1. assert (T2 : t sc1 = SFopp (trel conf)) by (etransitivity; [exact T1|exact Tt]).
  refine (sim_hangs _ _ sc1 W1 _ _ _ _ _ _ fuel); try lia.
  - exact (eq_ind_r (fun c => hs_ok c) (conf_hs (F64 L) conf C) V1).
  - exact (eq_ind_r (fun c => strob c = false) St V1).
  - refine (eq_ind_r (fun c => f_add (t sc1) (c_dt c) = t sc1) _ V1). rewrite T2. exact E.
  - refine (eq_ind_r (fun c => SFltb (t sc1) (c_t c) = true) _ V1). rewrite T2. exact B.
Qed.

(** counting steps by computation *)
Fixpoint all_before (n : nat) (x dt tmax : f64) : bool :=
  match n with
  | O => negb (SFltb x tmax)
  | S n => SFltb x tmax && all_before n (f_add x dt) dt tmax
  end.
Lemma after_shift k dt x : after_steps (F64 L) k dt (f_add x dt) = after_steps (F64 L) (S k) dt x.
Proof. induction k as [|k IH]; [reflexivity|]. rewrite after_steps_S, IH. reflexivity. Qed.
Lemma all_before_ok n dt tmax : forall x, all_before n x dt tmax = true ->
  (forall k, k < n -> SFltb (after_steps (F64 L) k dt x) tmax = true) /\ SFltb (after_steps (F64 L) n dt x) tmax = false.
Proof.
  induction n as [|n IH]; intros x H; cbn [all_before] in H.
  - split; [lia|]. apply negb_true_iff in H. exact H.
  - apply andb_prop in H. destruct H as [H1 H2]. destruct (IH _ H2) as [I1 I2]. split.
    + intros [|k] Hk; [exact H1|]. rewrite <- after_shift. apply I1. lia.
    + rewrite <- after_shift. exact I2.
Qed.
(** step numbers [k], [k+1], ... that are logged when strobing *)
Fixpoint logged (n k : nat) (ts : Z) (x dt : f64) : list nat :=
  match n with
  | O => []
  | S n => let y := f_add x dt in
           if (f_tou64 (f_div y dt) mod ts =? 0)%Z then k :: logged n (S k) ts y dt else logged n (S k) ts y dt
  end.
Lemma logged_ok ts dt n : forall k x,
  logged n (S k) ts (after_steps (F64 L) k dt x) dt = filter (fun k => (f_tou64 (f_div (after_steps (F64 L) k dt x) dt) mod ts =? 0)%Z) (seq (S k) n).
Proof.
  induction n as [|n IH]; intros k x; [reflexivity|]. cbn [logged seq filter]. cbv zeta.
  change (f_add (after_steps (F64 L) k dt x) dt) with (after_steps (F64 L) (S k) dt x). rewrite IH. reflexivity.
Qed.
End F64.

Section Concrete.
Context (L : libm).
(** 0.1 * 1000 = 100, but a thousand additions stop short of 100 *)
Definition minus0 : f64 := SFopp (f_ofZ 0).
Lemma count_1001 : all_before 1001 minus0 (f_lit 1 1) (f_ofZ 100) = true.
Proof. vm_cast_no_check (eq_refl true). Qed.
Theorem sim_1001 n s (sc : chain (num (F64 L))) fuel : wf n s sc -> 2 <= n -> 1 <= s -> hs_ok (vars sc) -> strob (vars sc) = false -> has_file sc = true ->
  t sc = minus0 -> c_dt (vars sc) = f_lit 1 1 -> c_t (vars sc) = f_ofZ 100 -> 1001 <= fuel ->
  exists ls, sim_run (F64 L) (chain_log (F64 L)) fuel sc = Ok ls /\ length ls = 1002.
Proof.
  intros W Hn Hs Hh St F Ex Ed Et Hf. destruct (all_before_ok L _ _ _ _ count_1001) as [B E].
  assert (A : forall k, after_steps (F64 L) k (c_dt (vars sc)) (t sc) = after_steps (F64 L) k (f_lit 1 1) minus0) by (intros k; f_equal; assumption).
  destruct (sim_plain (F64 L) n s sc 1001 fuel (quarter_F64 L) W Hn Hs Hh St) as [P _].
  - intros k Hk. etransitivity; [apply f_equal2; [apply A|exact Et]|]. exact (B k Hk).
  - destruct P as (st & lines & D & X & Y & R); [|exact Hf|].
    + etransitivity; [apply f_equal2; [apply A|exact Et]|]. exact E.
    + eexists. split; [exact R|]. rewrite concat_lines; [apply seq_length|]. intros k _. destruct (Y k) as (l & _ & El). rewrite El.
      assert (Q : has_file (T := num (F64 L)) sc = true) by exact F. rewrite Q. reflexivity.
Qed.

(** Default tau = 10 and dt = 0.02, default duration: the steps that are logged when strobing *)
Definition strobed : list Z :=
  [501; 1001; 1501; 2000; 2500; 3000; 3500; 4000; 4501; 5001; 5501; 6001; 6501; 7001; 7500; 8000; 8500; 9000; 9500;
   10000; 10500; 11000; 11500; 12000; 12500]%Z.
Lemma count_default : all_before (Z.to_nat 12800) minus0 (f_lit 2 2) (f_ofZ 256) = true.
Proof. vm_cast_no_check (eq_refl true). Qed.
Lemma strobed_default : map Z.of_nat (logged (Z.to_nat 12800) 1 500 minus0 (f_lit 2 2)) = strobed.
Proof. vm_cast_no_check (eq_refl strobed). Qed.
Lemma default_period : f_tou64 (f_div (f_ofZ 10) (f_lit 2 2)) = 500%Z.
Proof. vm_cast_no_check (eq_refl 500%Z). Qed.
Lemma strobe_f64_gen m q n s (sc : chain (num (F64 L))) fuel : all_before m minus0 (f_lit 2 2) (f_ofZ 256) = true ->
  map Z.of_nat (logged m 1 500 minus0 (f_lit 2 2)) = q ->
  wf n s sc -> 2 <= n -> 1 <= s -> hs_ok (vars sc) -> strob (vars sc) = true ->
  t sc = minus0 -> c_dt (vars sc) = f_lit 2 2 -> c_t (vars sc) = f_ofZ 256 -> tau (vars sc) = f_ofZ 10 -> m <= fuel ->
  exists st lines, dynamics (F64 L) sc st /\ (forall k, chain_log (F64 L) (st k) = Ok (lines k)) /\
   sim_run (F64 L) (chain_log (F64 L)) fuel sc = Ok (concat (map lines (0 :: map Z.to_nat q))).
Proof.
  intros C1 C2 W Hn Hs Hh St Ex Ed Et Ec Hf. destruct (all_before_ok L _ _ _ _ C1) as [B E].
  assert (A : forall k, after_steps (F64 L) k (c_dt (vars sc)) (t sc) = after_steps (F64 L) k (f_lit 2 2) minus0) by (intros k; f_equal; assumption).
  destruct (sim_strobe (F64 L) n s sc (fun k => (f_tou64 (f_div (after_steps (F64 L) k (f_lit 2 2) minus0) (f_lit 2 2)) mod 500 =? 0)%Z) m fuel (quarter_F64 L) W Hn Hs Hh)
    as (st & lines & D & X & Tk & R).
  - intros k Hk. etransitivity; [apply f_equal2; [apply A|exact Et]|]. exact (B k Hk).
  - etransitivity; [apply f_equal2; [apply A|exact Et]|]. exact E.
  - intros k Hk. rewrite A. assert (P : ntou64 (F64 L) (ndiv (F64 L) (tau (vars sc)) (c_dt (vars sc))) = 500%Z).
    { transitivity (f_tou64 (f_div (f_ofZ 10) (f_lit 2 2))); [|exact default_period]. apply (f_equal f_tou64). apply f_equal2; assumption. }
    rewrite P. unfold due. assert (Q : strob (T := num (F64 L)) (vars sc) = true) by exact St. rewrite Q.
    change (500 =? 0)%Z with false. cbv iota zeta.
    assert (G : ndiv (F64 L) (after_steps (F64 L) k (f_lit 2 2) minus0) (c_dt (vars sc)) = f_div (after_steps (F64 L) k (f_lit 2 2) minus0) (f_lit 2 2)).
    { apply (f_equal (f_div _)). exact Ed. }
    rewrite G. reflexivity.
  - exact Hf.
  - exists st, lines. split; [exact D|]. split; [exact X|]. rewrite R. apply (f_equal (fun q => Ok (concat (map lines (0 :: q))))).
    rewrite <- (logged_ok L 500 (f_lit 2 2) m 0 minus0). rewrite <- C2. rewrite map_map.
    symmetry. etransitivity; [|apply map_id]. apply map_ext. intros k. apply Nat2Z.id.
Qed.
Theorem strobe_f64 n s (sc : chain (num (F64 L))) fuel : wf n s sc -> 2 <= n -> 1 <= s -> hs_ok (vars sc) -> strob (vars sc) = true ->
  t sc = minus0 -> c_dt (vars sc) = f_lit 2 2 -> c_t (vars sc) = f_ofZ 256 -> tau (vars sc) = f_ofZ 10 -> Z.to_nat 12800 <= fuel ->
  exists st lines, dynamics (F64 L) sc st /\ (forall k, chain_log (F64 L) (st k) = Ok (lines k)) /\
   sim_run (F64 L) (chain_log (F64 L)) fuel sc = Ok (concat (map lines (0 :: map Z.to_nat strobed))).
Proof. exact (strobe_f64_gen (Z.to_nat 12800) strobed n s sc fuel count_default strobed_default). Qed.
End Concrete.
