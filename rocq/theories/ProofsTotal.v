(** Panic freedom of the chain operations. *)
From Coq Require Import ZArith Reals List Arith Bool Lia Lra.
From Flocq Require Import Core.Core.
From Verif Require Import Num Monad Spin Config Chain Langevin NumR NumF64 SpecChain SpecTotal ProofsChain ProofsDyn ProofsDynR
  ProofsMC ProofsLang ProofsLangE ProofsFFT ProofsFlocq.
Import ListNotations.

Lemma returns_forget {A} (r : res A) : returns r -> returns (forget r).
Proof. intros [a ->]. eexists; reflexivity. Qed.
Lemma panics_forget {A} (r : res A) : panics r -> panics (forget r).
Proof. intros [a ->]. eexists; reflexivity. Qed.
Lemma returns_bind {A B} (x : res A) (f : A -> res B) : returns x -> (forall a, x = Ok a -> returns (f a)) -> returns (bind x f).
Proof. intros [a E] H. rewrite E. apply H. exact E. Qed.
Lemma panics_bind {A B} (x : res A) (f : A -> res B) : panics x -> panics (bind x f).
Proof. intros [a ->]. eexists; reflexivity. Qed.
Lemma panics_bind2 {A B} (x : res A) (f : A -> res B) : returns x -> (forall a, panics (f a)) -> panics (bind x f).
Proof. intros [a ->] H. apply H. Qed.
Lemma returns_idx {A} (l : list A) i : i < length l -> returns (idx l i).
Proof. intro H. unfold idx. destruct (nth_error l i) eqn:E; [eexists; reflexivity|]. apply nth_error_None in E. lia. Qed.
Lemma returns_usub a b : b <= a -> returns (usub a b).
Proof. intro H. rewrite usub_ok by lia. eexists; reflexivity. Qed.
Lemma returns_foldM {A B} (f : B -> A -> res A) l : (forall b a, In b l -> returns (f b a)) -> forall a, returns (foldM f l a).
Proof.
  induction l as [|b l IH]; intros H a; [eexists; reflexivity|]. cbn [foldM].
  apply returns_bind; [apply H; now left|]. intros a' _. apply IH. intros; apply H; now right.
Qed.
Lemma returns_mapM {A B} (f : A -> res B) l : (forall b, In b l -> returns (f b)) -> returns (mapM f l).
Proof.
  induction l as [|b l IH]; intros H; [eexists; reflexivity|]. cbn [mapM].
  apply returns_bind; [apply H; now left|]. intros a' _. apply returns_bind; [apply IH; intros; apply H; now right|].
  intros; eexists; reflexivity.
Qed.
Lemma mapM_length {A B} (f : A -> res B) l : forall r, mapM f l = Ok r -> length r = length l.
Proof.
  induction l as [|a l IH]; cbn; intros r H; [injection H as <-; reflexivity|].
  destruct (f a); cbn in H; try discriminate. destruct (mapM f l) eqn:E; cbn in H; try discriminate.
  injection H as <-. cbn. f_equal. now apply IH.
Qed.
Lemma returns_ok {A} (a : A) : returns (Ok a). Proof. eexists; reflexivity. Qed.
Lemma returns_eq {A} (r : res A) a : r = Ok a -> returns r. Proof. intros ->. apply returns_ok. Qed.
Lemma returns_not_panics {A} (r : res A) : returns r -> ~ panics r.
Proof. intros [a ->] [p H]. discriminate. Qed.
Lemma usub_under a b : a < b -> usub a b = Panic Overflow.
Proof. intro H. unfold usub. destruct (Nat.ltb_spec a b); [reflexivity|lia]. Qed.
Lemma usub_inv a b c : usub a b = Ok c -> c = a - b /\ b <= a.
Proof. unfold usub. destruct (Nat.ltb_spec a b); [discriminate|]. intros [=]. lia. Qed.

(** the two indices that are computed in floating point by [log] *)
Definition quarter (N : NumOps) : Prop := forall s : Z, (0 <= s < 2 ^ 31)%Z ->
  ntou64 N (ndiv N (nofZ N s) (nofZ N 4)) = (s / 4)%Z /\
  ntou64 N (ndiv N (nmul N (nofZ N 3) (nofZ N s)) (nofZ N 4)) = (3 * s / 4)%Z.


Section RQ.
Local Open Scope R_scope.
Lemma Rfloor_IZR_div z d : (0 < d)%Z -> Rfloor (IZR z / IZR d) = (z / d)%Z.
Proof.
  intro Hd. change (Rfloor (IZR z / IZR d)) with (Zfloor (IZR z / IZR d)). apply Zfloor_div. lia.
Qed.
Lemma Rto_u64_div z d : (0 <= z < 2 ^ 40)%Z -> (0 < d)%Z -> Rto_u64 (IZR z / IZR d) = (z / d)%Z.
Proof.
  intros Hz Hd. unfold Rto_u64. rewrite Rfloor_IZR_div by assumption.
  assert (0 <= z / d <= z)%Z by (split; [apply Z.div_pos; lia|apply Z.div_le_upper_bound; nia]). lia.
Qed.
Lemma quarter_ER : quarter ERNum.
Proof.
  intros s Hs. cbn [nofZ ERNum]. split.
  - change (ndiv ERNum (Some (IZR s)) (Some (IZR 4))) with (er_div (Some (IZR s)) (Some (IZR 4))).
    unfold er_div. destruct (Req_EM_T 4 0); [lra|]. apply Rto_u64_div; lia.
  - change (ndiv ERNum (nmul ERNum (Some (IZR 3)) (Some (IZR s))) (Some (IZR 4)))
      with (er_div (Some (IZR 3 * IZR s)) (Some (IZR 4))).
    unfold er_div. destruct (Req_EM_T 4 0); [lra|]. rewrite <- mult_IZR. apply Rto_u64_div; lia.
Qed.
Lemma small_abs_fmax r : Rabs r < IZR (2 ^ 53) -> Rabs r < fmax.
Proof.
  intro H. eapply Rlt_trans; [exact H|]. unfold fmax. rewrite IZR_Zpower with (r := radix2) by lia. apply bpow_lt. reflexivity.
Qed.
Lemma quarter_val z : (0 <= z < 2 ^ 40)%Z -> forall x, vfin x -> fval x = IZR z ->
  f_tou64 (f_div x (f_ofZ 4)) = (z / 4)%Z.
Proof.
  intros Hz x Vx Ex. destruct (ofZ_val 4 ltac:(lia)) as [V4 E4].
  assert (E : IZR z / 4 = F2R (Float radix2 z (-2))) by (unfold F2R; cbn; lra).
  assert (R : rnd (IZR z / 4) = IZR z / 4) by (rewrite E; apply rnd_exact; lia).
  assert (B : 0 <= IZR z / 4 < IZR (2 ^ 40)).
  { assert (0 <= IZR z) by (apply IZR_le; lia). assert (IZR z < IZR (2 ^ 40)) by (apply IZR_lt; lia). lra. }
  assert (B2 : IZR (2 ^ 40) < IZR (2 ^ 53)) by (apply IZR_lt; lia).
  destruct (div_val x (f_ofZ 4) Vx V4) as [V D].
  - rewrite E4. lra.
  - rewrite Ex, E4, R. apply small_abs_fmax. rewrite Rabs_pos_eq; lra.
  - rewrite Ex, E4, R in D. rewrite tou64_val; [rewrite D; apply Zfloor_div; lia|exact V|rewrite D; lra|].
    rewrite D. assert (IZR (2 ^ 53) < IZR (2 ^ 64)) by (apply IZR_lt; lia). lra.
Qed.
Lemma quarter_F64 L : quarter (F64 L).
Proof.
  intros s Hs. cbn [nofZ F64 ndiv nmul ntou64]. split.
  - apply quarter_val; [lia|apply ofZ_val; lia|apply ofZ_val; lia].
  - destruct (ofZ_val 3 ltac:(lia)) as [V3 E3]. destruct (ofZ_val s ltac:(lia)) as [Vs Es].
    assert (R : rnd (3 * IZR s) = 3 * IZR s).
    { change 3 with (IZR 3). rewrite <- mult_IZR. apply rnd_IZR. lia. }
    destruct (mul_val _ _ V3 Vs) as [V M].
    + rewrite E3, Es, R. change 3 with (IZR 3). rewrite <- mult_IZR. apply IZR_lt_fmax. lia.
    + rewrite E3, Es, R in M. apply quarter_val; [lia|exact V|]. rewrite M. change 3 with (IZR 3). now rewrite <- mult_IZR.
Qed.
End RQ.

Ltac sizes := rewrite ?seq_length, ?map_length, ?mapi_length; auto; try lia.
Ltac go1 :=
  match goal with
  | |- returns (Ok _) => apply returns_ok
  | |- returns (bind _ _) => apply returns_bind; [|intros ? ?]
  | |- returns (idx _ _) => apply returns_idx
  | |- returns (usub _ _) => apply returns_usub
  | |- returns (foldM _ _ _) => apply returns_foldM; intros ? ? ?
  | |- returns (mapM _ _) => apply returns_mapM; intros ? ?
  end.
Ltac norm := repeat match goal with
  | H : usub _ _ = Ok _ |- _ => apply usub_inv in H; destruct H
  | H : In _ (range _ _) |- _ => unfold range in H; apply in_seq in H
  end.

Section T.
Context (N : NumOps) (n s : nat) (sc : chain (num N)) (W : wf n s sc) (Hh : hs_ok (vars sc)).
Let Wspins := wf_spins _ _ _ W.
Let Wjs := wf_js _ _ _ W.
Let Whs := wf_hs _ _ _ W.
Let Wsub := wf_sub _ _ _ W.

Lemma boundary_ok : 2 <= s -> returns (boundary_term N sc).
Proof.
  intro H. unfold boundary_term. rewrite (wf_s W). rewrite m_pure with (n := n) (s := s) by exact W.
  repeat (go1; norm; try lia).
Qed.
Lemma boundary_panics : s < 2 -> panics (boundary_term N sc).
Proof.
  intro H. unfold boundary_term. rewrite (wf_s W).
  destruct (idx (spins sc) 0) eqn:E0; cbn [bind]; [| eexists; reflexivity|unfold idx in E0; destruct (nth_error _ _); discriminate].
  destruct s as [|[|]]; [eexists; reflexivity| |lia].
  rewrite usub_ok by lia. cbn [bind Nat.sub].
  assert (X : forall A (l : list A) i, idx l i <> OutOfFuel) by (intros A l i; unfold idx; destruct (nth_error l i); discriminate).
  repeat match goal with
  | |- panics (bind (idx ?l ?i) _) => destruct (idx l i) eqn:?; cbn [bind]; [|eexists; reflexivity|exfalso; eapply X; eassumption]
  end.
  eexists; reflexivity.
Qed.

Lemma lft_lt i : i < n -> lft n i < n.
Proof. unfold lft. destruct (Nat.eqb_spec i 0); lia. Qed.
Lemma rgt_lt i : i < n -> rgt n i < n.
Proof. unfold rgt. destruct (Nat.eqb_spec (i + 1) n); lia. Qed.
Lemma mg_loop_ok i e : 2 <= n -> i < n -> returns (mg_loop N sc n i e).
Proof.
  intros Hn Hi. unfold mg_loop.
  rewrite (i_l_ok n _ Hi), (i_r_ok n _ Hi), (i_ll_ok n _ Hi Hn), (i_rr_ok n _ Hi Hn). cbn [bind].
  pose proof (lft_lt _ Hi) as L1. pose proof (lft_lt _ L1) as L2.
  pose proof (rgt_lt _ Hi) as R1. pose proof (rgt_lt _ R1) as R2.
  repeat (go1; norm; try lia).
Qed.
Lemma maglab_energy_ok : 2 <= n -> returns (mc_system_energy_maglab N sc).
Proof.
  intro H. unfold mc_system_energy_maglab. rewrite (wf_n W).
  repeat (first [apply mg_loop_ok; norm; lia | go1]; norm; try lia).
Qed.
Lemma rot_energy_ok : 2 <= n -> returns (mc_system_energy_rot N sc).
Proof.
  intro H. unfold mc_system_energy_rot. rewrite (wf_n W), (wf_s W).
  repeat (first [apply mg_loop_ok; norm; lia | go1]; norm; try lia).
Qed.
Lemma no_fuel_idx {A} (l : list A) i : idx l i <> OutOfFuel.
Proof. unfold idx. destruct (nth_error l i); discriminate. Qed.
Lemma no_fuel_mapM {A B} (f : A -> res B) l : (forall a, f a <> OutOfFuel) -> mapM f l <> OutOfFuel.
Proof.
  intro H. induction l as [|a l IH]; cbn; [discriminate|]. destruct (f a) eqn:E; cbn; [|discriminate|now apply H in E].
  destruct (mapM f l); cbn; try discriminate. congruence.
Qed.
Lemma no_fuel_foldM {A B} (f : B -> A -> res A) l : (forall b a, f b a <> OutOfFuel) -> forall a, foldM f l a <> OutOfFuel.
Proof.
  intro H. induction l as [|b l IH]; intros a; cbn; [discriminate|]. destruct (f b a) eqn:E; cbn; [apply IH|discriminate|now apply H in E].
Qed.
Lemma no_fuel_bind {A B} (x : res A) (f : A -> res B) : x <> OutOfFuel -> (forall a, f a <> OutOfFuel) -> bind x f <> OutOfFuel.
Proof. intros H1 H2. destruct x; cbn; [apply H2|discriminate|congruence]. Qed.
Lemma no_fuel_usub a b : usub a b <> OutOfFuel.
Proof. unfold usub. destruct (a <? b); discriminate. Qed.
Lemma panics_bind_nf {A B} (x : res A) (f : A -> res B) : x <> OutOfFuel -> (forall a, panics (f a)) -> panics (bind x f).
Proof. intros H1 H2. destruct x; cbn; [apply H2|eexists; reflexivity|congruence]. Qed.
Lemma mg_loop_one e : panics (mg_loop N sc 1 0 e).
Proof.
  unfold mg_loop. apply panics_bind_nf; [apply no_fuel_idx|intro].
  apply panics_bind_nf; [discriminate|intro]. apply panics_bind_nf; [apply no_fuel_idx|intro].
  eexists; reflexivity.
Qed.
Ltac nf := repeat first
  [ discriminate | apply no_fuel_idx | apply no_fuel_usub | apply no_fuel_foldM; intros | apply no_fuel_mapM; intros
  | apply no_fuel_bind; [|intros] ].
Lemma maglab_energy_panics : n < 2 -> panics (mc_system_energy_maglab N sc).
Proof.
  intro H. unfold mc_system_energy_maglab. rewrite (wf_n W). destruct n as [|[|]] eqn:En; [eexists; reflexivity| |lia].
  rewrite usub_ok by lia. cbn [bind].
  do 5 (apply panics_bind_nf; [nf|intro]).
  apply panics_bind. cbn [range Nat.sub seq foldM]. apply panics_bind. apply mg_loop_one.
Qed.
Lemma rot_energy_panics : n < 2 -> panics (mc_system_energy_rot N sc).
Proof.
  intro H. unfold mc_system_energy_rot. rewrite (wf_n W). destruct n as [|[|]] eqn:En; [eexists; reflexivity| |lia].
  rewrite usub_ok by lia. cbn [bind].
  do 6 (apply panics_bind_nf; [nf|intro]).
  apply panics_bind. cbn [range Nat.sub seq foldM]. apply panics_bind. apply mg_loop_one.
Qed.
Lemma returns_eq' {A} (r : res A) : returns r -> exists a, r = Ok a. Proof. auto. Qed.
Lemma spectrum_ok : returns (energy_spectrum N sc).
Proof.
  destruct (Nat.eq_dec n 1) as [E|E].
  - eapply returns_eq. assert (W1 : wf 1 s sc) by (rewrite <- E; exact W). apply (energy_spectrum_one N s sc W1).
  - eapply returns_eq. apply (energy_spectrum_pure N n s sc W E).
Qed.
Lemma log_ext_ok : returns (log_ext N sc).
Proof.
  unfold log_ext. rewrite (wf_s W). rewrite h_ext_ok by assumption. cbn [bind].
  apply returns_bind; [repeat (go1; norm; try lia)|]. intros h Eh. apply mapM_length in Eh.
  unfold range in Eh. rewrite seq_length in Eh.
  apply returns_bind; [|intros; apply returns_ok].
  apply returns_mapM. intros j Hj.
  assert (Hj' : 1 <= j < s /\ j + 1 < n).
  { assert (A : In j (range 1 (Nat.min (length h) (as_usize (hsize (vars sc) - 1))))).
    { unfold range in *. destruct (Nat.min _ _ - 0) as [|k] eqn:E; [destruct Hj|].
      cbn in Hj. replace (Nat.min _ _ - 1) with k by lia. exact Hj. }
    unfold range in A. apply in_seq in A. rewrite Eh in A.
    assert (B : (n <> 0 -> as_usize (hsize (vars sc) - 1) = n - 1)%nat).
    { intro. rewrite (wf_hsize _ _ _ W). replace (Z.of_nat n - 1)%Z with (Z.of_nat (n - 1)) by lia.
      apply as_usize_i32. pose proof (wf_i32 _ _ _ W). lia. }
    lia. }
  repeat (go1; norm; try lia).
Qed.
Lemma chain_log_ok : quarter N -> 1 <= s -> returns (chain_log N sc).
Proof.
  intros Q H. unfold chain_log. assert (1 <= n) by lia.
  rewrite system_energy_pure with (n := n) (s := s) by assumption.
  rewrite total_energy2_pure with (n := n) (s := s) by assumption.
  rewrite m_pure with (n := n) (s := s) by assumption. rewrite m_tot_pure with (n := n) (s := s) by assumption.
  cbn [bind]. pose proof (wf_i32 _ _ _ W).
  destruct (Q (ssize (vars sc))) as [Q1 Q2]; [rewrite (wf_ssize _ _ _ W); lia|].
  rewrite Q1, Q2. rewrite (wf_ssize _ _ _ W).
  assert (A1 : (0 <= Z.of_nat s / 4 < Z.of_nat s)%Z) by (split; [apply Z.div_pos; lia|apply Z.div_lt; lia]).
  assert (A2 : (0 <= 3 * Z.of_nat s / 4 < Z.of_nat s)%Z).
  { split; [apply Z.div_pos; lia|apply Z.div_lt_upper_bound; lia]. }
  do 2 (apply returns_bind; [apply returns_idx; lia|intros]).
  destruct (nltb N _ _); [|apply returns_ok]. unfold log_fft. destruct spectrum_ok as [x ->]. apply returns_ok.
Qed.
Lemma system_energy_panics : s < 1 -> panics (system_energy N sc).
Proof.
  intro H. unfold system_energy. rewrite (wf_s W). rewrite h_ext_ok by assumption. cbn [bind].
  apply panics_bind_nf; [nf|intro]. replace s with 0 by lia. eexists; reflexivity.
Qed.
Lemma update_panics : n < 2 -> panics (update N sc) /\ panics (update_no_field N sc).
Proof.
  intro H. unfold update, update_no_field. rewrite h_ext_ok by assumption. cbn [bind].
  unfold trotter, even_omega. rewrite Wspins. replace (n / 2) with 0 by (symmetry; apply Nat.div_small; lia).
  split; eexists; reflexivity.
Qed.
End T.

Section L.
Context (N : NumOps) (n s : nat) (lc : lchain (num N)) (W : wf n s (base lc)) (Hh : hs_ok (vars (base lc))).

Lemma lboundary_ok : 2 <= s -> returns (lboundary_term N lc).
Proof.
  pose proof (wf_spins _ _ _ W). pose proof (wf_js _ _ _ W). pose proof (wf_hs _ _ _ W). pose proof (wf_sub _ _ _ W).
  intro Hs. unfold lboundary_term. rewrite (wf_s W). rewrite m_pure with (n := n) (s := s) by exact W.
  rewrite h_ext_ok by assumption.
  repeat (go1; norm; try lia).
Qed.
Lemma lboundary_panics : s < 2 -> panics (lboundary_term N lc).
Proof.
  intro Hs. unfold lboundary_term. rewrite (wf_s W). rewrite h_ext_ok by assumption.
  apply panics_bind_nf; [apply no_fuel_idx|intro].
  destruct s as [|[|]]; [eexists; reflexivity| |lia].
  rewrite usub_ok by lia. cbn [bind Nat.sub].
  do 3 (apply panics_bind_nf; [apply no_fuel_idx|intro]). eexists; reflexivity.
Qed.
Lemma llog_ok : 2 <= s -> returns (lchain_log N lc).
Proof.
  intro Hs. unfold lchain_log. rewrite system_energy_pure with (n := n) (s := s) by (assumption || lia).
  rewrite m_pure with (n := n) (s := s) by assumption. cbn [bind].
  destruct (lboundary_ok Hs) as [x ->]. apply returns_ok.
Qed.
Lemma llog_panics : s < 2 -> panics (lchain_log N lc).
Proof.
  intro Hs. unfold lchain_log. destruct (Nat.eq_dec s 0) as [E|E].
  - apply panics_bind. apply (system_energy_panics N n s _ W Hh). lia.
  - rewrite system_energy_pure with (n := n) (s := s) by (assumption || lia).
    rewrite m_pure with (n := n) (s := s) by assumption. cbn [bind].
    apply panics_bind. apply lboundary_panics; assumption.
Qed.

Lemma returns_or_panics {A} (r : res A) (P : Prop) : {P} + {~ P} -> (P -> returns r) -> (~ P -> panics r) ->
  (returns r <-> P) /\ (panics r <-> ~ P).
Proof.
  intros D H1 H2. split; split; intro H.
  - destruct D as [D|D]; [exact D|]. destruct (H2 D) as [p E]. destruct H as [a E']. congruence.
  - auto.
  - intro D'. destruct (H1 D') as [p E]. destruct H as [a E']. congruence.
  - auto.
Qed.

Lemma query_dec q : {query_needs q n s} + {~ query_needs q n s}.
Proof. destruct q; cbn; try apply le_dec; left; exact I. Qed.

Lemma query_total q : quarter N -> (returns (ask N q lc) <-> query_needs q n s) /\ (panics (ask N q lc) <-> ~ query_needs q n s).
Proof.
  intro Q. pose proof (wf_sub _ _ _ W) as Hsub.
  apply returns_or_panics; [apply query_dec| |]; destruct q; cbn [ask query_needs]; intro H;
    try apply returns_forget; try apply panics_forget; try (exfalso; tauto).
  - eapply returns_eq. eapply total_energy_pure; eassumption.
  - eapply returns_eq. eapply total_energy2_pure; eassumption.
  - eapply returns_eq. eapply system_energy_pure; eassumption.
  - unfold mc_total_energy. rewrite (wf_n W). eapply returns_eq. eapply mc_ring_pure; [eassumption|lia].
  - unfold mc_system_energy. rewrite (wf_s W). eapply returns_eq. eapply mc_ring_pure; [eassumption|lia].
  - eapply maglab_energy_ok; eassumption.
  - eapply rot_energy_ok; eassumption.
  - eapply boundary_ok; eassumption.
  - eapply returns_eq. eapply m_pure; eassumption.
  - eapply returns_eq. eapply m_tot_pure; eassumption.
  - eapply spectrum_ok; eassumption.
  - eapply chain_log_ok; eassumption.
  - eapply log_ext_ok; eassumption.
  - now apply lboundary_ok.
  - now apply llog_ok.
  - unfold total_energy. rewrite (wf_n W). replace n with 0 by lia. eexists; reflexivity.
  - unfold total_energy2. rewrite (wf_n W). rewrite h_ext_ok by assumption. replace n with 0 by lia. eexists; reflexivity.
  - eapply system_energy_panics; try eassumption. lia.
  - unfold mc_total_energy. rewrite (wf_n W). replace n with 0 by lia. eexists; reflexivity.
  - unfold mc_system_energy. rewrite (wf_s W). replace s with 0 by lia. eexists; reflexivity.
  - eapply maglab_energy_panics; try eassumption. lia.
  - eapply rot_energy_panics; try eassumption. lia.
  - eapply boundary_panics; try eassumption. lia.
  - unfold chain_log. apply panics_bind. eapply system_energy_panics; try eassumption. lia.
  - apply lboundary_panics. lia.
  - apply llog_panics. lia.
Qed.


Lemma acceptP_wf i v de u : wf n s (acceptP N (base lc) i v de u) /\ hs_ok (vars (acceptP N (base lc) i v de u)) /\
  vars (acceptP N (base lc) i v de u) = vars (base lc).
Proof.
  unfold acceptP. destruct (_ || _); [|auto]. destruct W. split; [|auto].
  constructor; cbn; auto. rewrite upd_length; auto.
Qed.

Lemma act_returns a : action_needs a n -> action_noise a lc ->
  exists lc', act N a lc = Ok lc' /\ wf n s (base lc') /\ vars (base lc') = vars (base lc) /\ gamma lc' = gamma lc.
Proof.
  intros H1 H2. destruct a as [| |d|d|d|d|d|zl zr|d|d]; cbn [act action_needs action_noise] in *.
  - destruct (update_pure N n s _ W H1 Hh) as (sp & E & L & _). rewrite E. eexists; split; [reflexivity|]. cbn.
    destruct W; repeat split; auto.
  - destruct (update_no_field_pure N n s _ W H1 Hh) as (sp & E & L & _). rewrite E. eexists; split; [reflexivity|]. cbn.
    destruct W; repeat split; auto.
  - rewrite (plain_pure N n s _ W d H1). eexists; split; [reflexivity|]. cbn. split; [apply acceptP_wf|]. split; [apply acceptP_wf|reflexivity].
  - rewrite (maglab_pure N n s _ W d H1). eexists; split; [reflexivity|]. cbn. split; [apply acceptP_wf|]. split; [apply acceptP_wf|reflexivity].
  - rewrite (rot_pure N n s _ W d H1). eexists; split; [reflexivity|]. cbn. split; [apply acceptP_wf|]. split; [apply acceptP_wf|reflexivity].
  - rewrite (magfull_pure N n s _ W d H1). eexists; split; [reflexivity|]. cbn. split; [apply acceptP_wf|]. split; [apply acceptP_wf|reflexivity].
  - rewrite (magnus_pure N n s _ W d H1). eexists; split; [reflexivity|]. cbn. split; [apply acceptP_wf|]. split; [apply acceptP_wf|reflexivity].
  - destruct (lupdate_pure N n s zl zr lc W H1 Hh H2) as (sp & E & L & _). rewrite E. eexists; split; [reflexivity|]. cbn.
    destruct W; repeat split; auto.
  - rewrite (lplain_pure N n s lc d W H1). eexists; split; [reflexivity|]. cbn. split; [apply acceptP_wf|]. split; [apply acceptP_wf|reflexivity].
  - rewrite (lmagnus_pure N n s lc d W H1). eexists; split; [reflexivity|]. cbn. split; [apply acceptP_wf|]. split; [apply acceptP_wf|reflexivity].
Qed.

Lemma gen_range_0 d : gen_range 0 d = Panic EmptyRange. Proof. reflexivity. Qed.
Lemma no_fuel_i_l k i : i_l k i <> OutOfFuel.
Proof. unfold i_l. destruct (i =? 0); [apply no_fuel_usub|discriminate]. Qed.
Lemma no_fuel_i_r k i : i_r k i <> OutOfFuel.
Proof. unfold i_r. apply no_fuel_bind; [apply no_fuel_usub|intro]. destruct (_ =? _); discriminate. Qed.
Lemma no_fuel_i_ll k i : i_ll k i <> OutOfFuel.
Proof. unfold i_ll. destruct (i =? 0); [apply no_fuel_usub|]. destruct (_ =? _); [apply no_fuel_usub|discriminate]. Qed.
Lemma i_rr_1 i : i_rr 1 i = Panic Overflow. Proof. reflexivity. Qed.
Ltac nfs := first [apply no_fuel_idx|apply no_fuel_i_l|apply no_fuel_i_r|apply no_fuel_i_ll].

Lemma sampler_panics d : n < 2 ->
  panics (metropolis_update_rot_magnus N d (base lc)) /\ panics (metropolis_update_mag_full N d (base lc)) /\
  panics (metropolis_update_magnus N d (base lc)).
Proof.
  intro H. unfold metropolis_update_rot_magnus, metropolis_update_mag_full, metropolis_update_magnus. rewrite (wf_n W).
  destruct n as [|[|]]; [repeat split; eexists; reflexivity| |lia].
  rewrite gen_range_ok by lia. cbn [bind].
  repeat split; repeat first [rewrite i_rr_1; eexists; reflexivity | apply panics_bind_nf; [nfs|intro]].
Qed.

Lemma act_panics a : ~ action_needs a n -> panics (act N a lc).
Proof.
  intro H. destruct a as [| |d|d|d|d|d|zl zr|d|d]; cbn [act action_needs] in *; unfold on_base;
    try match goal with |- panics (bind _ _) => apply panics_bind end.
  - apply (update_panics N n s _ W Hh). lia.
  - apply (update_panics N n s _ W Hh). lia.
  - unfold metropolis_update. rewrite (wf_n W). replace n with 0 by lia. eexists; reflexivity.
  - unfold metropolis_update_maglab. rewrite (wf_n W). replace n with 0 by lia. eexists; reflexivity.
  - apply sampler_panics. lia.
  - apply sampler_panics. lia.
  - apply sampler_panics. lia.
  - apply (lupdate_short N n s); [assumption|lia|assumption].
  - unfold lmetropolis_update. rewrite (wf_n W). replace n with 0 by lia. eexists; reflexivity.
  - unfold lmetropolis_update_magnus. apply panics_bind. apply sampler_panics. lia.
Qed.

Lemma act_total a : (returns (act N a lc) <-> action_needs a n /\ action_noise a lc) /\
  (panics (act N a lc) <-> ~ (action_needs a n /\ action_noise a lc)).
Proof.
  apply returns_or_panics.
  - assert (D1 : {action_needs a n} + {~ action_needs a n}) by (destruct a; cbn; apply le_dec).
    assert (D2 : {action_noise a lc} + {~ action_noise a lc}).
    { destruct a; cbn; try (left; exact I). unfold noise_finite. apply bool_dec. }
    destruct D1, D2; [left; tauto|right; tauto|right; tauto|right; tauto].
  - intros [H1 H2]. destruct (act_returns a H1 H2) as (lc' & E & _). now exists lc'.
  - intro H. assert (D1 : {action_needs a n} + {~ action_needs a n}) by (destruct a; cbn; apply le_dec).
    destruct D1 as [D1|D1]; [|now apply act_panics].
    destruct a; cbn [action_noise] in H; try tauto.
    exists Unwrap. apply (lupdate_nofinite N n s); auto. unfold lsigma.
    destruct (nfinite N _) eqn:E; [|reflexivity]. exfalso. apply H. split; [assumption|]. exact E.
Qed.
End L.

(** programs *)
Lemma run_total N n s : quarter N -> forall l (lc : lchain (num N)), wf n s (base lc) -> hs_ok (vars (base lc)) ->
  2 <= s -> noise_finite N lc ->
  exists lc', run N l lc = Ok lc' /\ wf n s (base lc') /\ vars (base lc') = vars (base lc) /\ gamma lc' = gamma lc.
Proof.
  intros Q l. induction l as [|o l IH]; intros lc W Hh Hs Hz.
  - exists lc. auto.
  - pose proof (wf_sub _ _ _ W). unfold run. cbn [foldM]. destruct o as [q|a].
    + destruct (query_total N n s lc W Hh q Q) as [[_ H2] _]. destruct H2 as [u ->].
      { destruct q; cbn; lia. }
      cbn [bind]. apply IH; assumption.
    + destruct (act_returns N n s lc W Hh a) as (lc1 & E & W1 & V1 & G1).
      { destruct a; cbn; lia. } { destruct a; cbn; auto. }
      rewrite E. cbn [bind]. destruct (IH lc1) as (lc2 & E2 & W2 & V2 & G2); auto.
      * rewrite V1; assumption.
      * unfold noise_finite in *. rewrite V1, G1. assumption.
      * exists lc2. split; [exact E2|]. split; [assumption|]. split; congruence.
Qed.
