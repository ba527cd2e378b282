(** The time loop of the run modes. *)
From Coq Require Import String SpecFloat Reals Lra Lia List ZArith Arith Bool.
From Flocq Require Import Core.
From Verif Require Import Num Monad NumR Spin Config Chain Langevin Fit Files Writers Runs SpecVec SpecChain SpecTotal SpecRuns
  ProofsChain ProofsEnergy ProofsDyn ProofsMC ProofsNew ProofsTotal ProofsFrame.
Import ListNotations.

Section Loop.
Context (N : NumOps) {A L : Type} (time : A -> num N) (tmax : num N) (body : nat -> A -> res (A * list L)).

Definition follows (st : nat -> A) (out : nat -> list L) (m : nat) : Prop :=
  forall k, k < m -> body k (st k) = Ok (st (S k), out (S k)).
Definition before (st : nat -> A) (m : nat) : Prop := forall k, k < m -> nltb N (time (st k)) tmax = true.

Lemma loop_from st out m : follows st out m -> before st m -> nltb N (time (st m)) tmax = false ->
  forall j k fuel, k + j = m -> j <= fuel ->
  time_loop N time tmax body fuel k (st k) = Ok (st m, concat (map out (seq (S k) j))).
Proof.
  intros F B E. induction j as [|j IH]; intros k fuel Hk Hf.
  - replace k with m by lia. destruct fuel; cbn [time_loop]; rewrite E; reflexivity.
  - destruct fuel as [|fuel]; [lia|]. cbn [time_loop]. rewrite B by lia. rewrite F by lia. cbn [bind].
    rewrite (IH (S k) fuel) by lia. reflexivity.
Qed.
Lemma loop_ok st out m fuel : follows st out m -> before st m -> nltb N (time (st m)) tmax = false -> m <= fuel ->
  time_loop N time tmax body fuel 0 (st 0) = Ok (st m, concat (map out (seq 1 m))).
Proof. intros F B E H. apply (loop_from st out m F B E m 0 fuel); lia. Qed.
Lemma loop_short st out m : follows st out m -> before st m -> forall fuel k, k + fuel < m ->
  time_loop N time tmax body fuel k (st k) = OutOfFuel.
Proof.
  intros F B. induction fuel as [|fuel IH]; intros k H; cbn [time_loop]; rewrite B by lia; [reflexivity|].
  rewrite F by lia. cbn [bind]. rewrite IH by lia. reflexivity.
Qed.
Lemma loop_panic st out m p : follows st out m -> before st (S m) -> body m (st m) = Panic p -> forall j k fuel, k + j = m -> j < fuel ->
  time_loop N time tmax body fuel k (st k) = Panic p.
Proof.
  intros F B E. induction j as [|j IH]; intros k fuel Hk Hf; (destruct fuel as [|fuel]; [lia|]); cbn [time_loop]; rewrite B by lia.
  - replace k with m by lia. rewrite E. reflexivity.
  - rewrite F by lia. cbn [bind]. rewrite (IH (S k) fuel) by lia. reflexivity.
Qed.
End Loop.

Section States.
Context (N : NumOps).
Notation T := (num N).

Definition after_steps (k : nat) (dt x : T) : T := Nat.iter k (fun x => nadd N x dt) x.
Lemma after_steps_S k dt x : after_steps (S k) dt x = nadd N (after_steps k dt x) dt.
Proof. reflexivity. Qed.

Definition upd1 (sc : chain T) : chain T := match update N sc with Ok c => c | _ => sc end.
Lemma states n s sc : wf n s sc -> 2 <= n -> hs_ok (vars sc) -> exists st, dynamics N sc st /\
  forall k, wf n s (st k) /\ vars (st k) = vars sc /\ has_file (st k) = has_file sc /\ t (st k) = after_steps k (c_dt (vars sc)) (t sc).
Proof.
  intros W Hn Hh.
  assert (Q : forall k, let c := Nat.iter k upd1 sc in update N c = Ok (Nat.iter (S k) upd1 sc) /\ wf n s c /\ vars c = vars sc /\ has_file c = has_file sc /\
     t c = after_steps k (c_dt (vars sc)) (t sc)).
  { assert (U : forall c, wf n s c -> vars c = vars sc -> exists c', update N c = Ok c' /\ wf n s c' /\ vars c' = vars sc /\ has_file c' = has_file c /\
       t c' = nadd N (t c) (c_dt (vars sc))).
    { intros c Wc V. destruct (update_pure N n s c Wc Hn) as (sp & E & Ls & _); [rewrite V; exact Hh|].
      eexists. split; [exact E|]. cbn. rewrite V. destruct Wc. repeat split; cbn; congruence || assumption. }
    induction k as [|k IH]; cbv zeta in *.
    - cbn [Nat.iter nat_rect]. destruct (U sc W eq_refl) as (c' & E & _). split; [unfold upd1; rewrite E; reflexivity|]. repeat split; auto; apply W.
    - destruct IH as (_ & Wk & V & F & Tk). set (c := Nat.iter k upd1 sc) in *.
      destruct (U c Wk V) as (c1 & E1 & W1 & V1 & F1 & T1).
      assert (C1 : Nat.iter (S k) upd1 sc = c1) by (change (upd1 c = c1); unfold upd1; rewrite E1; reflexivity).
      destruct (U c1 W1 V1) as (c2 & E2 & _).
      change (Nat.iter (S (S k)) upd1 sc) with (upd1 (Nat.iter (S k) upd1 sc)). rewrite C1.
      split; [unfold upd1; rewrite E2; reflexivity|]. repeat (split; [assumption || congruence|]). rewrite T1, Tk. reflexivity. }
  exists (fun k => Nat.iter k upd1 sc). split; [split; [reflexivity|]|]; intros k; apply (Q k).
Qed.

(** what the plain log prints: one line starting with the time *)
Lemma chain_log_line n s sc : quarter N -> wf n s sc -> hs_ok (vars sc) -> 1 <= s -> exists l, length l = 12 /\
  chain_log N sc = Ok (if has_file sc then [t sc :: l] else []).
Proof.
  intros Q W Hh Hs. destruct (chain_log_ok N n s sc W Hh Q Hs) as [ls E].
  assert (E' := E). unfold chain_log in E'.
  apply bind_ok in E'. destruct E' as (e & _ & E'). apply bind_ok in E'. destruct E' as (es & _ & E').
  apply bind_ok in E'. destruct E' as (m & _ & E'). apply bind_ok in E'. destruct E' as (mt & _ & E').
  apply bind_ok in E'. destruct E' as (sm & _ & E'). apply bind_ok in E'. destruct E' as (sp & _ & E').
  apply bind_ok in E'. destruct E' as (u & _ & E'). injection E' as E'. rewrite E. rewrite <- E'.
  destruct (has_file sc); [eexists; split; [|reflexivity]; reflexivity|]. exists (repeat (nofZ N 0) 12). split; reflexivity.
Qed.

(** Everything the run prints, if a step is due according to [b] *)
Lemma sim_states log n s sc b m fuel : wf n s sc -> 2 <= n -> hs_ok (vars sc) ->
  (forall c, wf n s c -> hs_ok (vars c) -> returns (log c)) -> returns (chain_log N sc) ->
  (forall k, k < m -> nltb N (after_steps k (c_dt (vars sc)) (t sc)) (c_t (vars sc)) = true) ->
  (forall k, 1 <= k <= m -> due N (vars sc) (ntou64 N (ndiv N (tau (vars sc)) (c_dt (vars sc)))) (after_steps k (c_dt (vars sc)) (t sc)) = Ok (b k)) ->
  exists st lines, dynamics N sc st /\ (forall k, log (st k) = Ok (lines k)) /\
   (forall k, wf n s (st k) /\ vars (st k) = vars sc /\ has_file (st k) = has_file sc /\ t (st k) = after_steps k (c_dt (vars sc)) (t sc)) /\
   (nltb N (after_steps m (c_dt (vars sc)) (t sc)) (c_t (vars sc)) = false -> m <= fuel ->
     exists l0, chain_log N sc = Ok l0 /\
     sim_run N log fuel sc = Ok (l0 ++ concat (map (fun k => if b k then lines k else []) (seq 1 m)))) /\
   (fuel < m -> sim_run N log fuel sc = OutOfFuel).
Proof.
  intros W Hn Hh Hlog [l0 E0] HB HD. destruct (states n s sc W Hn Hh) as (st & D & P).
  assert (X : exists lines, forall k, log (st k) = Ok (lines k)).
  { exists (fun k => match log (st k) with Ok l => l | _ => [] end). intros k. destruct (P k) as (Wk & V & _).
    destruct (Hlog (st k) Wk) as [l E]; [rewrite V; exact Hh|]. rewrite E. reflexivity. }
  destruct X as [lines X]. exists st, lines. split; [exact D|]. split; [exact X|]. split; [exact P|].
  set (ts := ntou64 N (ndiv N (tau (vars sc)) (c_dt (vars sc)))) in *.
  assert (F : follows (sim_body N log ts) st (fun k => if b k then lines k else []) m).
  { intros k Hk. unfold sim_body. rewrite (proj2 D k). cbn [bind]. destruct (P (S k)) as (_ & V & _ & Tk). rewrite V, Tk, HD by lia.
    cbn [bind]. destruct (b (S k)); [rewrite X|]; reflexivity. }
  assert (B : before N t (c_t (vars sc)) st m).
  { intros k Hk. destruct (P k) as (_ & _ & _ & ->). apply HB. exact Hk. }
  unfold sim_run. rewrite E0. cbn [bind]. fold ts. split.
  - intros E Hf. exists l0. split; [reflexivity|]. pose proof (loop_ok N t (c_t (vars sc)) _ st _ m fuel F B) as H. rewrite (proj1 D) in H. rewrite H; [reflexivity| |exact Hf].
    destruct (P m) as (_ & _ & _ & ->). exact E.
  - intros Hf. pose proof (loop_short N t (c_t (vars sc)) _ st _ m F B fuel 0) as H. rewrite (proj1 D) in H. rewrite H by lia. reflexivity.
Qed.

Lemma thermalise_ok n s d k sc : wf n s sc -> 1 <= n -> hs_ok (vars sc) ->
  exists sc', thermalise N d k sc = Ok sc' /\ wf n s sc' /\ vars sc' = vars sc /\ t sc' = t sc /\ has_file sc' = has_file sc.
Proof.
  intros W Hn Hh. unfold thermalise. generalize 0. generalize (Z.to_nat k). clear k. intros k. revert sc W Hh.
  induction k as [|k IH]; intros sc W Hh j; cbn [iterMi]; [exists sc; auto|].
  pose proof (plain_pure N n s sc W (d j) Hn) as E. rewrite E. cbn [bind].
  match goal with |- exists sc', iterMi _ _ _ ?c = _ /\ _ => set (c1 := c) in * end.
  assert (C : wf n s c1 /\ vars c1 = vars sc /\ t c1 = t sc /\ has_file c1 = has_file sc).
  { unfold c1, acceptP. destruct (_ || _); [|auto]. cbn. split; [|auto]. destruct W; constructor; cbn; auto. rewrite upd_length; auto. }
  destruct C as (W1 & V1 & T1 & F1). destruct (IH c1 W1 ltac:(rewrite V1; exact Hh) (S j)) as (sc' & E' & W' & V' & T' & F').
  exists sc'. rewrite E'. repeat split; try congruence; apply W'.
Qed.
End States.

(** ** Exact arithmetic *)
Local Open Scope R_scope.
Lemma after_ER k dt x : after_steps ERNum k (Some dt) (Some x) = Some (x + INR k * dt).
Proof.
  induction k as [|k IH]; [cbn; f_equal; ring|]. rewrite after_steps_S, IH, S_INR.
  change (Some (x + INR k * dt + dt) = Some (x + (INR k + 1) * dt)). f_equal. ring.
Qed.
Lemma ltb_ER a b : nltb ERNum (Some a) (Some b) = true <-> a < b.
Proof. change (Rltb a b = true <-> a < b). unfold Rltb. destruct (Rlt_dec a b); split; intros; auto; discriminate || contradiction. Qed.
Lemma ltb_ER_false a b : nltb ERNum (Some a) (Some b) = false <-> b <= a.
Proof. change (Rltb a b = false <-> b <= a). unfold Rltb. destruct (Rlt_dec a b); split; intros; auto; try discriminate; try lra. Qed.

Definition nsteps (x tmax dt : R) : nat := Z.to_nat (Zceil ((tmax - x) / dt)).
Lemma nsteps_before x tmax dt k : 0 < dt -> (k < nsteps x tmax dt)%nat -> x + INR k * dt < tmax.
Proof.
  intros Hd Hk. unfold nsteps in Hk. destruct (Rlt_le_dec (x + INR k * dt) tmax) as [H|H]; [exact H|]. exfalso.
  assert (Z.of_nat k < Zceil ((tmax - x) / dt))%Z by lia.
  assert (Zceil ((tmax - x) / dt) <= Z.of_nat k)%Z; [|lia]. apply Zceil_glb. rewrite <- INR_IZR_INZ.
  apply Rmult_le_reg_r with dt; [exact Hd|]. unfold Rdiv. rewrite Rmult_assoc, Rinv_l by lra. lra.
Qed.
Lemma nsteps_after x tmax dt k : 0 < dt -> (nsteps x tmax dt <= k)%nat -> tmax <= x + INR k * dt.
Proof.
  intros Hd Hk. unfold nsteps in Hk. assert (Zceil ((tmax - x) / dt) <= Z.of_nat k)%Z by lia.
  assert ((tmax - x) / dt <= INR k).
  { rewrite INR_IZR_INZ. eapply Rle_trans; [apply Zceil_ub|]. now apply IZR_le. }
  apply Rmult_le_compat_r with (r := dt) in H0; [|lra]. unfold Rdiv in H0. rewrite Rmult_assoc, Rinv_l in H0 by lra. lra.
Qed.
