(** The runs of --langevin: steps, lines and strobing. *)
From Coq Require Import String SpecFloat Reals Lra Lia List ZArith Arith Bool.
From Flocq Require Import Core.
From Verif Require Import Num Monad NumR NumF64 Spin Config Chain Langevin Fit Files Toml Writers Runs SpecVec SpecChain SpecTotal SpecToml SpecRuns SpecLangRun
  ProofsChain ProofsEnergy ProofsDyn ProofsMC ProofsNew ProofsTotal ProofsToml ProofsNames ProofsFrame ProofsLoop ProofsSim ProofsStrobe ProofsRunTotal ProofsSchedule ProofsTraj ProofsHistory ProofsFit ProofsFit.
Import ListNotations.
Local Close Scope R_scope.
Local Open Scope nat_scope.

Lemma path_of {A} (P : A -> Prop) (f : nat -> A -> res A) : (forall k a, P a -> exists a', f k a = Ok a' /\ P a') ->
  forall a, P a -> exists st, st 0 = a /\ (forall k, f k (st k) = Ok (st (S k))) /\ forall k, P (st k).
Proof.
  intros H a Pa.
  set (st := fix st k := match k with O => a | S k => match f k (st k) with Ok x => x | _ => st k end end).
  assert (Q : forall k, P (st k)).
  { induction k as [|k IH]; [exact Pa|]. cbn. destruct (H k _ IH) as (x & E & Px). rewrite E. exact Px. }
  exists st. split; [reflexivity|]. split; [|exact Q]. intros k. destruct (H k _ (Q k)) as (x & E & _). rewrite E. cbn. rewrite E. reflexivity.
Qed.
Lemma iter_path {A} (f : nat -> A -> res A) (st : nat -> A) : (forall k, f k (st k) = Ok (st (S k))) ->
  forall j k, iterMi f k j (st k) = Ok (st (k + j)).
Proof.
  intros H. induction j as [|j IH]; intros k; cbn [iterMi]; [rewrite Nat.add_0_r; reflexivity|]. rewrite H. cbn [bind]. rewrite IH.
  f_equal. f_equal. lia.
Qed.

Lemma iter_path0 {A} (f : nat -> A -> res A) (st : nat -> A) a j : (forall k, f k (st k) = Ok (st (S k))) -> st 0 = a -> iterMi f 0 j a = Ok (st j).
Proof. intros H <-. exact (iter_path f st H j 0). Qed.

Section Gen.
Context (N : NumOps).
Notation T := (num N).
Implicit Types (lc : lchain T).

Lemma lplain_good n s d lc : wf n s (base lc) -> 1 <= n -> hs_ok (vars (base lc)) ->
  exists lc', lmetropolis_update N d lc = Ok lc' /\ wf n s (base lc') /\ vars (base lc') = vars (base lc) /\ gamma lc' = gamma lc /\ t (base lc') = t (base lc).
Proof.
  intros W Hn Hh. destruct (act_returns N n s lc W Hh (Alplain d)) as (c' & E & W' & V' & G'); [cbn; lia|exact I|]. cbn [act] in E.
  exists c'. repeat (split; [assumption|]).
  unfold lmetropolis_update in E. cbv zeta in E. do 8 (apply bind_ok in E; destruct E as (? & _ & E)).
  apply bind_ok in E. destruct E as (b' & A & E). injection E as <-. cbn [base]. unfold accept in A. destruct (_ || _)%bool; [|injection A as <-; reflexivity].
  apply bind_ok in A. destruct A as (? & _ & A). injection A as <-. reflexivity.
Qed.

Lemma lchain_log_line n s lc : quarter N -> wf n s (base lc) -> hs_ok (vars (base lc)) -> 2 <= s ->
  exists l, length l = 7 /\ lchain_log N lc = Ok [t (base lc) :: l].
Proof.
  intros Q W Hh Hs.
  assert (R : returns (lchain_log N lc)).
  { apply forget_returns. apply (proj1 (query_total N n s lc W Hh Qllog Q)). cbn. lia. }
  destruct R as [x E]. rewrite E. unfold lchain_log in E. cbv zeta in E.
  apply bind_ok in E. destruct E as (e & _ & E). apply bind_ok in E. destruct E as (m & _ & E). apply bind_ok in E. destruct E as (bt & _ & E).
  injection E as <-. eexists. split; [|reflexivity]. reflexivity.
Qed.

Lemma lang_run n s lc b m fuel d noise : quarter N -> wf n s (base lc) -> 2 <= n -> 2 <= s -> hs_ok (vars (base lc)) -> noise_finite N lc ->
  let c := vars (base lc) in let x := t (base lc) in
  (forall k, k < m -> nltb N (after_steps N k (c_dt c) x) (c_t c) = true) ->
  (forall k, 1 <= k <= m -> due N c (ntou64 N (nround N (ndiv N (tau c) (c_dt c)))) (after_steps N k (c_dt c) x) = Ok (b k)) ->
  exists st lines, langevin_states N (dr_mc d) noise lc st /\
   (forall k, lchain_log N (st k) = Ok [lines k]) /\
   (forall k, vars (base (st k)) = c /\ t (base (st k)) = after_steps N k (c_dt c) x) /\
   (forall k, exists l, length l = 7 /\ lines k = after_steps N k (c_dt c) x :: l) /\
   (nltb N (after_steps N m (c_dt c) x) (c_t c) = false -> m <= fuel ->
      langevin_worker N fuel d noise lc = Ok (map lines (0 :: filter b (seq 1 m)))) /\
   (fuel < m -> langevin_worker N fuel d noise lc = OutOfFuel).
Proof.
  intros Q W Hn Hs Hh Z c x HB HD.
  destruct (path_of (fun l => wf n s (base l) /\ vars (base l) = c /\ gamma l = gamma lc /\ t (base l) = x) (fun k => lmetropolis_update N (dr_mc d k))) with (a := lc) as (warm & W0 & W1 & W2).
  { intros k a (Wa & Va & Ga & Ta). destruct (lplain_good n s (dr_mc d k) a Wa ltac:(lia)) as (a' & E & W' & V' & G' & T'); [rewrite Va; exact Hh|].
    exists a'. split; [exact E|]. repeat split; try congruence; apply W'. }
  { auto. }
  destruct (W2 (Z.to_nat 20000000)) as (Ww & Vw & Gw & Tw). set (lw := warm (Z.to_nat 20000000)) in *.
  destruct (path_of (fun l => wf n s (base l) /\ vars (base l) = c /\ gamma l = gamma lc) (fun k => lupdate N (fst (noise k)) (snd (noise k)))) with (a := lw) as (st & S0 & S1 & S2).
  { intros k a (Wa & Va & Ga). destruct (lupdate_good N n s (fst (noise k)) (snd (noise k)) a Wa Hn) as (a' & E & W' & V' & G' & T').
    { rewrite Va. exact Hh. } { unfold noise_finite. rewrite Va, Ga. exact Z. }
    exists a'. split; [exact E|]. repeat split; try congruence; apply W'. }
  { auto. }
  assert (TK : forall k, t (base (st k)) = after_steps N k (c_dt c) x).
  { induction k as [|k IH]; [rewrite S0; exact Tw|]. destruct (S2 k) as (Wk & Vk & Gk).
    destruct (lupdate_good N n s (fst (noise k)) (snd (noise k)) (st k) Wk Hn) as (a' & E & _ & _ & _ & T').
    { rewrite Vk. exact Hh. } { unfold noise_finite. rewrite Vk, Gk. exact Z. }
    rewrite S1 in E. injection E as <-. rewrite T', IH, Vk. reflexivity. }
  assert (LL : forall k, exists l, length l = 7 /\ lchain_log N (st k) = Ok [after_steps N k (c_dt c) x :: l]).
  { intros k. destruct (S2 k) as (Wk & Vk & _). rewrite <- TK. apply (lchain_log_line n s (st k) Q Wk); [rewrite Vk; exact Hh|exact Hs]. }
  set (lines := fun k => match lchain_log N (st k) with Ok (l :: _) => l | _ => [] end).
  assert (LK : forall k, lchain_log N (st k) = Ok [lines k]).
  { intros k. unfold lines. destruct (LL k) as (l & _ & E). rewrite E. reflexivity. }
  exists st, lines. split; [exists warm; split; split; assumption|]. split; [exact LK|].
  split; [intros k; split; [apply S2|apply TK]|]. split.
  { intros k. destruct (LL k) as (l & Ll & E). exists l. split; [exact Ll|]. unfold lines. rewrite E. reflexivity. }
  set (ts := ntou64 N (nround N (ndiv N (tau c) (c_dt c)))) in *.
  assert (F : follows (langevin_body N noise ts) st (fun k => if b k then [lines k] else []) m).
  { intros k Hk. unfold langevin_body. rewrite (S1 k). cbn [bind]. destruct (S2 (S k)) as (_ & V & _). rewrite V, TK, HD by lia.
    cbn [bind]. destruct (b (S k)); [rewrite LK|]; reflexivity. }
  assert (B : before N (fun lc : lchain T => t (base lc)) (c_t c) st m).
  { intros k Hk. rewrite TK. apply HB. exact Hk. }
  assert (IT : iterMi (fun k lc => lmetropolis_update N (dr_mc d k) lc) 0 (Z.to_nat 20000000) lc = Ok lw).
  { exact (iter_path0 (fun k lc => lmetropolis_update N (dr_mc d k) lc) warm lc _ W1 W0). }
  assert (ES : forall q, Ok (map lines (0 :: filter b q)) = Ok ([lines 0] ++ concat (map (fun k => if b k then [lines k] else []) q))).
  { intros q. rewrite concat_filter, concat_single. reflexivity. }
  unfold langevin_worker. rewrite IT. cbn [bind]. cbv zeta. rewrite Vw. fold ts.
  rewrite <- S0. rewrite (LK 0). cbn [bind]. split.
  - intros E Hf. rewrite (loop_ok N (fun lc : lchain T => t (base lc)) (c_t c) _ st _ m fuel F B); [|rewrite TK; exact E|exact Hf].
    cbn [bind]. rewrite ES. reflexivity.
  - intros Hf. rewrite (ProofsLoop.loop_short N (fun lc : lchain T => t (base lc)) (c_t c) _ st _ m F B fuel 0) by lia. reflexivity.
Qed.
End Gen.

(** ** Exact arithmetic *)
Section ER.
Local Open Scope R_scope.
Context (n s : nat) (lc : lchain (num ERNum)) (x dt tmax : R) (fuel : nat) (d : draws ERNum) (noise : nat -> v3 (num ERNum) * v3 (num ERNum)).
Hypothesis (W : wf n s (base lc)) (Hn : (2 <= n)%nat) (Hs : (2 <= s)%nat) (Hh : hs_ok (vars (base lc))) (Z : noise_finite ERNum lc).
Hypothesis (Ex : t (base lc) = Some x) (Ed : c_dt (vars (base lc)) = Some dt) (Et : c_t (vars (base lc)) = Some tmax) (Hd : 0 < dt).

Lemma laft k : after_steps ERNum k (c_dt (vars (base lc))) (t (base lc)) = Some (x + INR k * dt).
Proof. transitivity (after_steps ERNum k (Some dt) (Some x)); [|apply after_ER]. f_equal; assumption. Qed.
Lemma lang_gen b : let m := nsteps x tmax dt in
  (forall k, (1 <= k <= m)%nat -> due ERNum (vars (base lc)) (ntou64 ERNum (nround ERNum (ndiv ERNum (tau (vars (base lc))) (c_dt (vars (base lc)))))) (Some (x + INR k * dt)) = Ok (b k)) ->
  exists st lines, langevin_states ERNum (dr_mc d) noise lc st /\ (forall k, lchain_log ERNum (st k) = Ok [lines k]) /\
   (forall k, t (base (st k)) = Some (x + INR k * dt)) /\ (forall k, exists l, length l = 7%nat /\ lines k = Some (x + INR k * dt) :: l) /\
   ((m <= fuel)%nat -> langevin_worker ERNum fuel d noise lc = Ok (map lines (0%nat :: filter b (seq 1 m)))) /\
   ((fuel < m)%nat -> langevin_worker ERNum fuel d noise lc = OutOfFuel).
Proof.
  intros m HD. destruct (lang_run ERNum n s lc b m fuel d noise quarter_ER W Hn Hs Hh Z) as (st & lines & S & L & V & Q & E & F).
  - intros k Hk. etransitivity; [apply f_equal2; [apply laft|exact Et]|]. apply ltb_ER. apply nsteps_before; assumption.
  - intros k Hk. rewrite laft. apply HD. exact Hk.
  - exists st, lines. split; [exact S|]. split; [exact L|]. split; [intros k; etransitivity; [apply V|apply laft]|].
    split; [intros k; destruct (Q k) as (l & Ll & El); exists l; split; [exact Ll|]; rewrite El, laft; reflexivity|].
    split; [|exact F]. intros Hf. apply E; [|exact Hf].
    etransitivity; [apply f_equal2; [apply laft|exact Et]|]. apply ltb_ER_false. apply nsteps_after; [assumption|reflexivity].
Qed.
End ER.

Lemma filter_true {A} (l : list A) : filter (fun _ => true) l = l.
Proof. induction l as [|a l IH]; [reflexivity|]. cbn. rewrite IH. reflexivity. Qed.

Theorem lang_steps n s lc x dt tmax fuel d noise : wf n s (base lc) -> 2 <= n -> 2 <= s -> hs_ok (vars (base lc)) -> noise_finite ERNum lc -> strob (vars (base lc)) = false ->
  t (base lc) = Some x -> c_dt (vars (base lc)) = Some dt -> c_t (vars (base lc)) = Some tmax -> (0 < dt)%R ->
  let m := Z.to_nat (Zceil ((tmax - x) / dt)) in
  exists st lines, langevin_states ERNum (dr_mc d) noise lc st /\ (forall k, lchain_log ERNum (st k) = Ok [lines k]) /\
   (forall k, exists l, length l = 7 /\ lines k = Some (x + INR k * dt)%R :: l) /\
   (m <= fuel -> langevin_worker ERNum fuel d noise lc = Ok (map lines (seq 0 (S m)))) /\
   (fuel < m -> langevin_worker ERNum fuel d noise lc = OutOfFuel).
Proof.
  intros W Hn Hs Hh Z St Ex Ed Et Hd m. fold (nsteps x tmax dt) in m.
  destruct (lang_gen n s lc x dt tmax fuel d noise W Hn Hs Hh Z Ex Ed Et Hd (fun _ => true)) as (st & lines & S & L & _ & Q & E & F).
  { intros k _. apply no_strobe. exact St. }
  exists st, lines. split; [exact S|]. split; [exact L|]. split; [exact Q|]. split; [|exact F].
  intros Hf. rewrite E by exact Hf. rewrite filter_true. reflexivity.
Qed.

(** rounding to the nearest whole number *)
Lemma round_near y c : (1 <= c) -> (Rabs (y - INR c) < 1 / 2)%R -> Rround y = INR c.
Proof.
  intros Hc H. apply Rabs_def2 in H. assert (1 <= INR c)%R by (change 1%R with (INR 1); apply le_INR; exact Hc).
  unfold Rround. destruct (Rlt_dec y 0) as [Q|_]; [lra|]. change (Rfloor (y + 1 / 2)) with (Zfloor (y + 1 / 2)).
  rewrite (Zfloor_imp (Z.of_nat c)); [symmetry; apply INR_IZR_INZ|]. rewrite plus_IZR, <- INR_IZR_INZ. lra.
Qed.

Theorem lang_periods n s lc dt tmax tc c fuel d noise : wf n s (base lc) -> 2 <= n -> 2 <= s -> hs_ok (vars (base lc)) -> noise_finite ERNum lc -> strob (vars (base lc)) = true ->
  t (base lc) = Some 0%R -> c_dt (vars (base lc)) = Some dt -> c_t (vars (base lc)) = Some tmax -> tau (vars (base lc)) = Some tc -> (0 < dt)%R ->
  1 <= c -> (Rabs (tc / dt - INR c) < 1 / 2)%R -> (Z.of_nat c < 2 ^ 64)%Z ->
  let m := Z.to_nat (Zceil (tmax / dt)) in (Z.of_nat m < 2 ^ 64)%Z -> m <= fuel ->
  exists st lines, langevin_states ERNum (dr_mc d) noise lc st /\ (forall k, lchain_log ERNum (st k) = Ok [lines k]) /\
   (forall k, exists l, length l = 7 /\ lines k = Some (INR k * dt)%R :: l) /\
   langevin_worker ERNum fuel d noise lc = Ok (map lines (0 :: filter (fun k => k mod c =? 0) (seq 1 m))).
Proof.
  intros W Hn Hs Hh Z St Ex Ed Et Ec Hd C1 C2 C3 m M Hf.
  assert (NS : nsteps 0 tmax dt = m) by (unfold nsteps, m; rewrite Rminus_0_r; reflexivity).
  assert (TS : ntou64 ERNum (nround ERNum (ndiv ERNum (tau (vars (base lc))) (c_dt (vars (base lc))))) = Z.of_nat c).
  { transitivity (ntou64 ERNum (nround ERNum (ndiv ERNum (Some tc) (Some dt)))); [f_equal; f_equal; apply f_equal2; [exact Ec|exact Ed]|].
    rewrite (div_ER dt Hd). change (u64 (Zfloor (Rround (tc / dt))) = Z.of_nat c). rewrite (round_near _ c C1 C2), INR_IZR_INZ, Zfloor_IZR. unfold u64. lia. }
  destruct (lang_gen n s lc 0 dt tmax fuel d noise W Hn Hs Hh Z Ex Ed Et Hd (fun k => k mod c =? 0)) as (st & lines & S & L & _ & Q & E & F).
  { rewrite NS. intros k Hk. rewrite TS. unfold due. rewrite St. destruct (Z.eqb_spec (Z.of_nat c) 0); [lia|]. cbv zeta.
    assert (D : ntou64 ERNum (ndiv ERNum (Some (0 + INR k * dt)%R) (c_dt (vars (base lc)))) = Z.of_nat k).
    { transitivity (ntou64 ERNum (ndiv ERNum (Some (0 + INR k * dt)%R) (Some dt))); [f_equal; apply f_equal2; [reflexivity|exact Ed]|].
      rewrite (div_ER dt Hd). change (u64 (Zfloor ((0 + INR k * dt) / dt)) = Z.of_nat k). apply floor_steps; [exact Hd|lia]. }
    rewrite D, <- Nat2Z.inj_mod. f_equal. destruct (Nat.eqb_spec (k mod c) 0) as [->|Q]; [reflexivity|].
    destruct (Z.eqb_spec (Z.of_nat (k mod c)) 0); [lia|reflexivity]. }
  rewrite NS in E. exists st, lines. split; [exact S|]. split; [exact L|]. split; [|exact (E Hf)].
  intros k. destruct (Q k) as (l & Ll & El). exists l. split; [exact Ll|]. rewrite El, Rplus_0_l. reflexivity.
Qed.

Theorem lang_short n s lc x dt tmax tc fuel d noise : wf n s (base lc) -> 2 <= n -> 2 <= s -> hs_ok (vars (base lc)) -> noise_finite ERNum lc -> strob (vars (base lc)) = true ->
  t (base lc) = Some x -> c_dt (vars (base lc)) = Some dt -> c_t (vars (base lc)) = Some tmax -> tau (vars (base lc)) = Some tc -> (0 < dt)%R ->
  (tc < dt / 2)%R -> (x < tmax)%R -> 1 <= fuel -> langevin_worker ERNum fuel d noise lc = Panic DivByZero.
Proof.
  intros W Hn Hs Hh Z St Ex Ed Et Ec Hd Hc Hx Hf.
  assert (TS : ntou64 ERNum (nround ERNum (ndiv ERNum (tau (vars (base lc))) (c_dt (vars (base lc))))) = 0%Z).
  { transitivity (ntou64 ERNum (nround ERNum (ndiv ERNum (Some tc) (Some dt)))); [f_equal; f_equal; apply f_equal2; [exact Ec|exact Ed]|].
    rewrite (div_ER dt Hd). change (u64 (Zfloor (Rround (tc / dt))) = 0%Z).
    assert (Y : (tc / dt < 1 / 2)%R) by (apply Rmult_lt_reg_r with dt; [exact Hd|]; unfold Rdiv in *; rewrite Rmult_assoc, Rinv_l by lra; lra).
    set (y := (tc / dt)%R) in *. assert (R : (Rround y <= 0)%R).
    { unfold Rround. destruct (Rlt_dec y 0) as [Q|Q].
      - change (Rfloor (- y + 1 / 2)) with (Zfloor (- y + 1 / 2)). assert (0 <= Zfloor (- y + 1 / 2))%Z by (apply Zfloor_lub; lra). apply IZR_le in H. lra.
      - change (Rfloor (y + 1 / 2)) with (Zfloor (y + 1 / 2)). rewrite (Zfloor_imp 0); [lra|]. cbn. lra. }
    assert (Zfloor (Rround y) <= 0)%Z; [|unfold u64; lia]. apply le_IZR. eapply Rle_trans; [apply Zfloor_lb|exact R]. }
  unfold langevin_worker.
  destruct (path_of (fun l => wf n s (base l) /\ vars (base l) = vars (base lc) /\ gamma l = gamma lc /\ t (base l) = t (base lc)) (fun k => lmetropolis_update ERNum (dr_mc d k))) with (a := lc) as (warm & W0 & W1 & W2).
  { intros k a (Wa & Va & Ga & Ta). destruct (lplain_good ERNum n s (dr_mc d k) a Wa ltac:(lia)) as (a' & E & W' & V' & G' & T'); [rewrite Va; exact Hh|].
    exists a'. split; [exact E|]. repeat split; try congruence; apply W'. }
  { auto. }
  rewrite (iter_path0 _ warm lc _ W1 W0). cbn [bind]. cbv zeta.
  destruct (W2 (Z.to_nat 20000000)) as (Ww & Vw & Gw & Tw). set (lw := warm (Z.to_nat 20000000)) in *.
  destruct (lchain_log_line ERNum n s lw quarter_ER Ww ltac:(rewrite Vw; exact Hh) Hs) as (l & _ & ->). cbn [bind]. rewrite Vw, TS.
  destruct fuel as [|g]; [lia|]. cbn [time_loop].
  assert (B : nltb ERNum (t (base lw)) (c_t (vars (base lc))) = true).
  { rewrite Tw. etransitivity; [apply f_equal2; [exact Ex|exact Et]|]. apply ltb_ER. exact Hx. }
  rewrite B. unfold langevin_body at 1.
  destruct (lupdate_good ERNum n s (fst (noise 0)) (snd (noise 0)) lw Ww Hn) as (a' & E & _ & V' & _).
  { rewrite Vw. exact Hh. } { unfold noise_finite. rewrite Vw, Gw. exact Z. }
  rewrite E. cbn [bind]. rewrite V', Vw. unfold due. rewrite St. reflexivity.
Qed.

(** ** The whole mode *)
Lemma langevin_wrote N fuel g rg conf f conf' f' : run_langevin N fuel g rg conf f = Ok (conf', f') ->
  exists lss, Forall2 (fun i ls => exists lc out, lchain_new N conf g (dr_new (r_draws N rg i)) = Ok lc /\
    langevin_worker N fuel (r_draws N rg i) (r_noise N rg i) lc = Ok out /\ ls = l_header N :: map numbers out) (seq 0 (num_runs N conf)) lss /\
    wrote f f' (logs (c_file conf) (Z.to_nat (offset conf)) lss).
Proof.
  unfold run_langevin. intros E. apply bind_ok in E. destruct E as (u & E1 & E). apply bind_ok in E. destruct E as (f1 & E2 & E3).
  pose proof (finish_ok _ _ _ _ _ _ E3) as (_ & _ & D & _). unfold range in E2. rewrite Nat.sub_0_r in E2.
  apply (fold_wrote (fun f => f) _ (c_file conf) (fun i ls => exists lc out, lchain_new N conf g (dr_new (r_draws N rg i)) = Ok lc /\
    langevin_worker N fuel (r_draws N rg i) (r_noise N rg i) lc = Ok out /\ ls = l_header N :: map numbers out) 0 (num_runs N conf) (Z.to_nat (offset conf))) in E2.
  - destruct E2 as (lss & F & W). exists lss. split; [exact F|]. destruct W as [W1 W2].
    split; intros nm; [intros ls Hin|intros Hin]; unfold contents; rewrite D; [exact (W1 nm ls Hin)|exact (W2 nm Hin)].
  - intros i h h' Hi Eh. apply bind_ok in Eh. destruct Eh as (lc & Elc & Eh). apply bind_ok in Eh. destruct Eh as (out & Eo & Eh).
    apply Ok_inj in Eh. subst h'. exists (l_header N :: map numbers out). split; [eauto 6|]. rewrite Nat.sub_0_r.
    apply (wrote_append _ _ _ [l_header N] (map numbers out)). apply (wrote_append _ _ _ [] [l_header N]). apply wrote_create.
Qed.
Lemma F2_nth {A} (P : nat -> A -> Prop) n l : Forall2 P (seq 0 n) l -> forall i a, nth_error l i = Some a -> P i a.
Proof.
  assert (G : forall k n l, Forall2 P (seq k n) l -> forall i a, nth_error l i = Some a -> P (k + i) a); [|intros H i a Hi; exact (G 0 n l H i a Hi)].
  clear. intros k n l H. remember (seq k n) as q eqn:Eq. revert k n Eq. induction H as [|a b q l HR H IH]; intros k n Eq j x Hj; [destruct j; discriminate|].
  destruct n; [discriminate|]. injection Eq as -> Eq. destruct j; cbn in Hj; [injection Hj as <-; rewrite Nat.add_0_r; exact HR|].
  rewrite Nat.add_succ_r. apply (IH (S k) n Eq). exact Hj.
Qed.

Theorem lang_files fuel g rg (conf : config (num ERNum)) f r dt tmax b : usable ERNum conf -> (2 <= ssize conf)%Z -> strob conf = false ->
  trel conf = Some r -> c_dt conf = Some dt -> c_t conf = Some tmax -> beta conf = Some b -> (0 < dt)%R -> (0 < b)%R -> (0 <= g)%R ->
  let m := Z.to_nat (Zceil ((tmax + r) / dt)) in m <= fuel ->
  exists conf' f', run_langevin ERNum fuel (Some g) rg conf f = Ok (conf', f') /\
    (forall i, i < Z.to_nat (runs conf) -> exists ls,
       contents f' (log_name (c_file conf) (Z.to_nat (offset conf) + i)) =
         Some ([Tword "#t"; Tword "E_total"; Tword "E_sub"; Tword "M_x"; Tword "M_y"; Tword "M_z"]%string :: ls) /\
       length ls = S m /\ forall k, k <= m -> exists rest, length rest = 7 /\ nth_error ls k = Some (numbers (Some (- r + INR k * dt)%R :: rest))) /\
    (forall nm, (forall i, i < Z.to_nat (runs conf) -> nm <> log_name (c_file conf) (Z.to_nat (offset conf) + i)) -> contents f' nm = contents f nm).
Proof.
  intros U Hs2 St Er Ed Et Eb Hd Hb Hg m Hf. assert (U' := U). destruct U' as (C & Rg & Hh & Hs & Th & Rn & Off).
  assert (Z : nfinite ERNum (nsqrt ERNum (ndiv ERNum (nmul ERNum (nmul ERNum (nofZ ERNum 2) (Some g)) (c_dt conf)) (beta conf))) = true).
  { transitivity (nfinite ERNum (nsqrt ERNum (ndiv ERNum (nmul ERNum (nmul ERNum (nofZ ERNum 2) (Some g)) (Some dt)) (Some b)))); [f_equal; f_equal; apply f_equal2; [apply f_equal2; [reflexivity|exact Ed]|exact Eb]|].
    transitivity (nfinite ERNum (nsqrt ERNum (Some (2 * g * dt / b)%R))).
    { f_equal. f_equal. change (er_div (Some (2 * g * dt)%R) (Some b) = Some (2 * g * dt / b)%R). unfold er_div. destruct (Req_EM_T b 0); [lra|reflexivity]. }
    assert (0 <= 2 * g * dt / b)%R. { apply Rmult_le_pos; [|left; apply Rinv_0_lt_compat; exact Hb]. apply Rmult_le_pos; [|lra]. lra. }
    cbn. unfold er_sqrt. destruct (Rlt_dec (2 * g * dt / b) 0); [lra|reflexivity]. }
  assert (WK : forall i lc, lchain_new ERNum conf (Some g) (dr_new (r_draws ERNum rg i)) = Ok lc -> exists lines,
     langevin_worker ERNum fuel (r_draws ERNum rg i) (r_noise ERNum rg i) lc = Ok (map lines (seq 0 (S m))) /\
     forall k, exists l, length l = 7 /\ lines k = Some (- r + INR k * dt)%R :: l).
  { intros i lc E. destruct (new_wf ERNum conf (dr_new (r_draws ERNum rg i)) C ltac:(lia)) as (sc0 & E0 & W & V & Tt & F).
    destruct (lchain_new_shape ERNum conf (Some g) (dr_new (r_draws ERNum rg i)) sc0 E0) as (lc' & E' & L1 & L2 & L3 & L4 & L5 & _ & L7).
    rewrite E' in E. apply Ok_inj in E. subst lc'. assert (V' : vars (base lc) = conf) by congruence.
    destruct (lang_steps (Z.to_nat (hsize conf)) (Z.to_nat (ssize conf)) lc (- r) dt tmax fuel (r_draws ERNum rg i) (r_noise ERNum rg i)) as (st & lines & _ & _ & Q & R & _).
    - destruct W; constructor; rewrite ?L1, ?L2, ?L3, ?L5; assumption.
    - lia.
    - lia.
    - rewrite V'. exact (conf_hs ERNum conf C).
    - unfold noise_finite. rewrite V', L7. exact Z.
    - exact (eq_ind_r (fun c => strob c = false) St V').
    - rewrite L4. etransitivity; [exact Tt|]. etransitivity; [apply f_equal; exact Er|]. reflexivity.
    - exact (eq_ind_r (fun c => c_dt c = Some dt) Ed V').
    - exact (eq_ind_r (fun c => c_t c = Some tmax) Et V').
    - exact Hd.
    - replace (tmax - - r)%R with (tmax + r)%R in R by ring. exists lines. split; [exact (R Hf)|exact Q]. }
  destruct (run_langevin_total ERNum fuel (Some g) rg conf f quarter_ER U Hs2 Z) as [[conf' f'] E].
  { intros St'. exfalso. assert (true = false) by (etransitivity; [symmetry; exact St'|exact St]). discriminate. }
  { exists m. split; [exact Hf|]. etransitivity.
    - apply f_equal2; [|exact Et]. instantiate (1 := Some (- r + INR m * dt)%R). etransitivity; [|apply after_ER]. unfold after_steps.
      apply f_equal2; [|etransitivity; [apply f_equal; exact Er|reflexivity]]. rewrite <- Ed. reflexivity.
    - apply ltb_ER_false. apply nsteps_after; [assumption|]. unfold nsteps, m. replace (tmax - - r)%R with (tmax + r)%R by ring. reflexivity. }
  exists conf', f'. split; [exact E|]. apply langevin_wrote in E. destruct E as (lss & F & W1 & W2).
  destruct (num_runs_small ERNum conf Rg Rn) as [En _]. pose proof (F2_length _ _ _ F) as FL. rewrite seq_length in FL. split.
  - intros i Hi. destruct (nth_error lss i) as [ls|] eqn:El; [|apply nth_error_None in El; lia].
    destruct (F2_nth _ _ _ F i ls El) as (lc & out & E1 & E2 & E3). destruct (WK i lc E1) as (lines & E4 & Q).
    rewrite E4 in E2. apply Ok_inj in E2. subst out. exists (map numbers (map lines (seq 0 (S m)))).
    split; [rewrite (W1 _ ls); [rewrite E3; reflexivity|apply logs_in; exact El]|].
    split; [rewrite !map_length, seq_length; reflexivity|].
    intros k Hk. destruct (Q k) as (rest & Lr & Ek). exists rest. split; [exact Lr|]. rewrite nth_numbers by lia. rewrite Ek. reflexivity.
  - intros nm Hnm. apply W2. intros Hin. apply logs_names in Hin. destruct Hin as (i & Hi & ->). apply (Hnm i); [lia|reflexivity].
Qed.

(** ** The --ext mode, without strobing: the plain line of the initial state, then the block of each step *)
Theorem ext_steps n s (sc : chain (num ERNum)) x dt tmax fuel : wf n s sc -> 2 <= n -> 1 <= s -> hs_ok (vars sc) -> strob (vars sc) = false ->
  t sc = Some x -> c_dt (vars sc) = Some dt -> c_t (vars sc) = Some tmax -> (0 < dt)%R ->
  let m := Z.to_nat (Zceil ((tmax - x) / dt)) in
  exists st blocks first, dynamics ERNum sc st /\ chain_log ERNum sc = Ok first /\ (forall k, log_ext ERNum (st k) = Ok (blocks k)) /\ (forall k, t (st k) = Some (x + INR k * dt)%R) /\
   (m <= fuel -> sim_run ERNum (log_ext ERNum) fuel sc = Ok (first ++ concat (map blocks (seq 1 m)))) /\
   (fuel < m -> sim_run ERNum (log_ext ERNum) fuel sc = OutOfFuel).
Proof.
  intros W Hn Hs Hh St Ex Ed Et Hd m. fold (nsteps x tmax dt) in m.
  assert (A : forall k, after_steps ERNum k (c_dt (vars sc)) (t sc) = Some (x + INR k * dt)%R).
  { intros k. transitivity (after_steps ERNum k (Some dt) (Some x)); [|apply after_ER]. f_equal; assumption. }
  destruct (chain_log_ok ERNum n s sc W Hh quarter_ER Hs) as [first E0].
  destruct (sim_states ERNum (log_ext ERNum) n s sc (fun _ => true) m fuel W Hn Hh) as (st & lines & D & X & P & Fin & Sh).
  - intros c Wc Hc. apply forget_returns. apply (query_ret ERNum c n s Qlog_ext quarter_ER Wc Hc). exact I.
  - eexists; exact E0.
  - intros k Hk. etransitivity; [apply f_equal2; [apply A|exact Et]|]. apply ltb_ER. apply nsteps_before; assumption.
  - intros k _. apply no_strobe. exact St.
  - exists st, lines, first. split; [exact D|]. split; [exact E0|]. split; [exact X|]. split; [intros k; etransitivity; [apply P|apply A]|].
    split; [|exact Sh]. intros Hf. destruct Fin as (l0 & E1 & E2); [|exact Hf|].
    + etransitivity; [apply f_equal2; [apply A|exact Et]|]. apply ltb_ER_false. apply nsteps_after; [assumption|reflexivity].
    + rewrite E0 in E1. apply Ok_inj in E1. subst l0. exact E2.
Qed.

(** ** Binary64 *)
Section F64.
Context (L : libm).
Lemma strobe_gen m ts q n s (sc : chain (num (F64 L))) dt tmax tc fuel : all_before m minus0 dt tmax = true ->
  f_tou64 (f_div tc dt) = ts -> ts <> 0%Z -> map Z.of_nat (logged m 1 ts minus0 dt) = q ->
  wf n s sc -> 2 <= n -> 1 <= s -> hs_ok (vars sc) -> strob (vars sc) = true ->
  t sc = minus0 -> c_dt (vars sc) = dt -> c_t (vars sc) = tmax -> tau (vars sc) = tc -> m <= fuel ->
  exists st lines, dynamics (F64 L) sc st /\ (forall k, chain_log (F64 L) (st k) = Ok (lines k)) /\
   sim_run (F64 L) (chain_log (F64 L)) fuel sc = Ok (concat (map lines (0 :: map Z.to_nat q))).
Proof.
  intros C1 C3 C4 C2 W Hn Hs Hh St Ex Ed Et Ec Hf. destruct (all_before_ok L _ _ _ _ C1) as [B E].
  assert (A : forall k, after_steps (F64 L) k (c_dt (vars sc)) (t sc) = after_steps (F64 L) k dt minus0) by (intros k; f_equal; assumption).
  destruct (sim_strobe (F64 L) n s sc (fun k => (f_tou64 (f_div (after_steps (F64 L) k dt minus0) dt) mod ts =? 0)%Z) m fuel (quarter_F64 L) W Hn Hs Hh)
    as (st & lines & D & X & Tk & R).
  - intros k Hk. etransitivity; [apply f_equal2; [apply A|exact Et]|]. exact (B k Hk).
  - etransitivity; [apply f_equal2; [apply A|exact Et]|]. exact E.
  - intros k Hk. rewrite A. assert (P : ntou64 (F64 L) (ndiv (F64 L) (tau (vars sc)) (c_dt (vars sc))) = ts).
    { transitivity (f_tou64 (f_div tc dt)); [|exact C3]. apply (f_equal f_tou64). apply f_equal2; assumption. }
    rewrite P. unfold due. assert (Q : strob (T := num (F64 L)) (vars sc) = true) by exact St. rewrite Q.
    destruct (Z.eqb_spec ts 0) as [H|_]; [contradiction|]. cbv zeta.
    assert (G : ndiv (F64 L) (after_steps (F64 L) k dt minus0) (c_dt (vars sc)) = f_div (after_steps (F64 L) k dt minus0) dt).
    { apply (f_equal (f_div _)). exact Ed. }
    rewrite G. reflexivity.
  - exact Hf.
  - exists st, lines. split; [exact D|]. split; [exact X|]. rewrite R. apply (f_equal (fun q => Ok (concat (map lines (0 :: q))))).
    rewrite <- (logged_ok L ts dt m 0 minus0). rewrite <- C2. rewrite map_map.
    symmetry. etransitivity; [|apply map_id]. apply map_ext. intros k. apply Nat2Z.id.
Qed.
Lemma lang_strobe_gen m ts q n s (lc : lchain (num (F64 L))) dt tmax tc fuel d noise : all_before m minus0 dt tmax = true ->
  f_tou64 (f_round (f_div tc dt)) = ts -> ts <> 0%Z -> map Z.of_nat (logged m 1 ts minus0 dt) = q ->
  wf n s (base lc) -> 2 <= n -> 2 <= s -> hs_ok (vars (base lc)) -> noise_finite (F64 L) lc -> strob (vars (base lc)) = true ->
  t (base lc) = minus0 -> c_dt (vars (base lc)) = dt -> c_t (vars (base lc)) = tmax -> tau (vars (base lc)) = tc -> m <= fuel ->
  exists st lines, langevin_states (F64 L) (dr_mc d) noise lc st /\ (forall k, lchain_log (F64 L) (st k) = Ok [lines k]) /\
   langevin_worker (F64 L) fuel d noise lc = Ok (map lines (0 :: map Z.to_nat q)).
Proof.
  intros C1 C3 C4 C2 W Hn Hs Hh Z St Ex Ed Et Ec Hf. destruct (all_before_ok L _ _ _ _ C1) as [B E].
  assert (A : forall k, after_steps (F64 L) k (c_dt (vars (base lc))) (t (base lc)) = after_steps (F64 L) k dt minus0) by (intros k; f_equal; assumption).
  destruct (lang_run (F64 L) n s lc (fun k => (f_tou64 (f_div (after_steps (F64 L) k dt minus0) dt) mod ts =? 0)%Z) m fuel d noise (quarter_F64 L) W Hn Hs Hh Z)
    as (st & lines & S & X & _ & _ & R & _).
  - intros k Hk. etransitivity; [apply f_equal2; [apply A|exact Et]|]. exact (B k Hk).
  - intros k Hk. rewrite A. assert (P : ntou64 (F64 L) (nround (F64 L) (ndiv (F64 L) (tau (vars (base lc))) (c_dt (vars (base lc))))) = ts).
    { transitivity (f_tou64 (f_round (f_div tc dt))); [|exact C3]. apply (f_equal (fun x => f_tou64 (f_round x))). apply f_equal2; assumption. }
    rewrite P. unfold due. assert (Q : strob (T := num (F64 L)) (vars (base lc)) = true) by exact St. rewrite Q.
    destruct (Z.eqb_spec ts 0) as [H|_]; [contradiction|]. cbv zeta.
    assert (G : ndiv (F64 L) (after_steps (F64 L) k dt minus0) (c_dt (vars (base lc))) = f_div (after_steps (F64 L) k dt minus0) dt).
    { apply (f_equal (f_div _)). exact Ed. }
    rewrite G. reflexivity.
  - exists st, lines. split; [exact S|]. split; [exact X|]. rewrite R; [|etransitivity; [apply f_equal2; [apply A|exact Et]|]; exact E|exact Hf].
    apply (f_equal (fun q => Ok (map lines (0 :: q)))).
    rewrite <- (logged_ok L ts dt m 0 minus0). rewrite <- C2. rewrite map_map.
    symmetry. etransitivity; [|apply map_id]. apply map_ext. intros k. apply Nat2Z.id.
Qed.

Definition strobed2 : list Z := [2; 4; 7; 9; 11; 14; 16; 18; 20; 22; 24; 26; 28; 30]%Z.
Definition strobed3 : list Z := [3; 7; 10; 15; 18; 21; 24; 27; 30]%Z.
Theorem two_steps n s (sc : chain (num (F64 L))) fuel :
  wf n s sc -> 2 <= n -> 1 <= s -> hs_ok (vars sc) -> strob (vars sc) = true ->
  t sc = SFopp (f_ofZ 0) -> c_dt (vars sc) = f_lit 1 1 -> c_t (vars sc) = f_ofZ 3 -> tau (vars sc) = f_lit 3 1 -> 30 <= fuel ->
  exists st lines, dynamics (F64 L) sc st /\ (forall k, chain_log (F64 L) (st k) = Ok (lines k)) /\
   sim_run (F64 L) (chain_log (F64 L)) fuel sc = Ok (concat (map lines (0 :: map Z.to_nat [2; 4; 7; 9; 11; 14; 16; 18; 20; 22; 24; 26; 28; 30]%Z))).
Proof. apply (strobe_gen 30 2 strobed2); vm_compute; congruence. Qed.
Theorem three_steps n s (lc : lchain (num (F64 L))) fuel d noise :
  wf n s (base lc) -> 2 <= n -> 2 <= s -> hs_ok (vars (base lc)) -> noise_finite (F64 L) lc -> strob (vars (base lc)) = true ->
  t (base lc) = SFopp (f_ofZ 0) -> c_dt (vars (base lc)) = f_lit 1 1 -> c_t (vars (base lc)) = f_ofZ 3 -> tau (vars (base lc)) = f_lit 3 1 -> 30 <= fuel ->
  exists st lines, langevin_states (F64 L) (dr_mc d) noise lc st /\ (forall k, lchain_log (F64 L) (st k) = Ok [lines k]) /\
   langevin_worker (F64 L) fuel d noise lc = Ok (map lines (0 :: map Z.to_nat [3; 7; 10; 15; 18; 21; 24; 27; 30]%Z)).
Proof. apply (lang_strobe_gen 30 3 strobed3); vm_compute; congruence. Qed.
End F64.

(** ** The cases shown beside the theorems *)
From Verif Require Import Samples.
Lemma ex_noise_ER x dt tmax tc st : (0 < dt)%R -> noise_finite ERNum (mkL (ex_at ERNum x (Some dt) tmax tc st) (Some (1 / 10)%R)).
Proof.
  intros H. unfold noise_finite. cbn. unfold er_div, er_sqrt. cbn.
  destruct (Req_EM_T _ 0) as [E|E]; [exfalso; cbn in E; lra|]. cbn.
  destruct (Rlt_dec _ 0) as [Q|Q]; [exfalso|reflexivity]. revert Q. apply Rle_not_lt.
  apply Rmult_le_pos; [|left; apply Rinv_0_lt_compat; cbn; lra]. apply Rmult_le_pos; [lra|lra].
Qed.
Lemma ex_noise_F64 L : noise_finite (F64 L) (mkL (ex_at (F64 L) (SFopp (f_ofZ 0)) (f_lit 1 1) (f_ofZ 3) (f_lit 3 1) true) (f_lit 1 1)).
Proof. vm_compute. reflexivity. Qed.
Lemma ex_beta_ER : exists b, beta (ex_runs ERNum (Some 1%R) (Some (1 / 50)%R) (Some 100%R) (Some 10%R) false) = Some b /\ (0 < b)%R.
Proof. eexists. split; [reflexivity|]. cbn. lra. Qed.
Lemma near_50 : (Rabs ((497 / 500) / (1 / 50) - INR 50) < 1 / 2)%R.
Proof. rewrite INR_IZR_INZ. cbn [Z.of_nat Pos.of_succ_nat Pos.succ]. apply Rabs_def1; lra. Qed.
