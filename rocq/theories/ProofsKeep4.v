(** Chains whose energy is kept for ever, and a chain that loses a spin. *)
From Coq Require Import ZArith Reals List Lia Lra Psatz Bool Arith String.
From Coq Require Import Floats.SpecFloat.
From Flocq Require Import Core.
From Verif Require Import Num Monad NumR NumF64 Spin Config Chain SpecVec SpecChain SpecRound SpecClose SpecKeep
  ProofsFlocq ProofsRound ProofsRound2 ProofsF64 ProofsChain ProofsSpin ProofsDyn ProofsClose ProofsCloseSamples ProofsClose6 ProofsKeep ProofsKeep2 ProofsKeep3.
Import ListNotations.
Local Open Scope R_scope.

Lemma accurate_sane L : accurate L -> sane L.
Proof.
  intros H x Vx. destruct (H x Vx) as (A1 & A2 & A3 & A4 & A5 & A6). split; [exact A1|]. split; [exact A2|]. split; [exact A3|]. split; [exact A4|].
  rewrite u50, u_val in A5, A6. pose proof (sin2_cos2 (value x)) as SC. unfold Rsqr in SC. apply Rabs_le_inv in A3, A4, A5, A6.
  pose proof (COS_bound (value x)). pose proof (SIN_bound (value x)). set (a := value (l_cos L x)) in *. set (b := value (l_sin L x)) in *.
  set (p := cos (value x)) in *. set (q := sin (value x)) in *. 
  assert (Q : forall y z, -1 <= z <= 1 -> - (8 * / 9007199254740992) <= y - z <= 8 * / 9007199254740992 -> z * z - / 100 <= y * y).
  { intros y z Hz Hy. replace (y * y) with (z * z + 2 * (z * (y - z)) + (y - z) * (y - z)) by ring.
    assert (- / 200 <= z * (y - z)) by nra. pose proof (Rle_0_sqr (y - z)) as Sq. unfold Rsqr in Sq. lra. }
  pose proof (Q a p H0 A5). pose proof (Q b q H1 A6). lra.
Qed.

Lemma strong_sites_of c : mild_sites c -> strong_z c -> strong_sites c.
Proof.
  intros [A B] [_ Z]. split; [exact A|]. rewrite Forall_forall in *. intros h Hh. destruct (B h Hh) as (V & C1 & C2 & C3).
  split; [exact V|]. split; [split; [|split]; lra|]. exact (Z h Hh).
Qed.

Lemma near_none_lost e c : Forall (near_unit e) (spins c) -> none_lost c.
Proof. apply Forall_impl. intros v A B. exact (near_lost _ _ A B). Qed.
Lemma near_unit_or_lost c : Forall (near_unit (powerRZ 2 (-50))) (spins c) -> unit_or_lost c.
Proof. apply Forall_impl. intros v A. left. exact A. Qed.

(** in a strong field without a drive no spin is ever lost *)
Lemma strong_kept L n s (cF : chain f64) k : accurate L -> wf n s cF -> (2 <= n)%nat -> (n mod 2 = 0)%nat -> mild_sites cF -> strong_z cF -> drive (vars cF) = Dnone ->
  plain_dt (c_dt (vars cF)) -> Forall (near_unit (powerRZ 2 (-50))) (spins cF) ->
  exists F e0 e, iterM (update (F64 L)) k cF = Ok F /\ total_energy2 (F64 L) cF = Ok e0 /\ total_energy2 (F64 L) F = Ok e /\ Forall (near_unit (powerRZ 2 (-50))) (spins F) /\ is_number e0 /\ is_number e /\ Rabs (value e - value e0) <= INR k * (powerRZ 2 (-34) * (4 + 48 * value (c_dt (vars cF)))) + INR n * powerRZ 2 (-42).
Proof.
  intros HL WF Hn Hev Hm Hz Hdr Hdt HN.
  assert (St : steady cF) by (left; exact Hdr).
  assert (Hd : mild_drive cF) by (unfold mild_drive; rewrite Hdr; exact I).
  assert (HG := near_unit_or_lost cF HN).
  assert (Hdt' := Hdt). destruct Hdt' as (Vd & Ld & Ud). rewrite pow_bpow in Ld. pose proof (bpow_gt_0 radix2 (-1000)) as P0.
  assert (Bd : Rabs (value (c_dt (vars cF))) <= powerRZ 2 500).
  { rewrite Rabs_pos_eq by lra. rewrite pow_bpow. eapply Rle_trans; [exact Ud|]. apply (bpow_le radix2 0 500). lia. }
  assert (HN8 : Forall (near_unit (1 / 8)) (spins cF)) by (revert HN; apply Forall_impl; intros v A; exact (near_weak _ _ _ A eps_small)).
  destruct (updates_near L n s k cF (accurate_sane L HL) WF Hn Hdr (strong_sites_of cF Hm Hz) Vd Bd HN8) as (F & E & N8 & _).
  destruct (unit_or_lost_run L HL n s cF WF Hn Hm Hd Hdt HG k (or_introl St)) as (F2 & E2 & G2 & _). rewrite E in E2. injection E2 as <-.
  destruct (run_printed L n s cF k HL WF Hn Hev Hm Hd St Hdt HG) as (F3 & e0 & e & E3 & T0 & T1 & P). rewrite E in E3. injection E3 as <-.
  assert (NF : Forall (near_unit (powerRZ 2 (-50))) (spins F)).
  { unfold unit_or_lost in G2. rewrite Forall_forall in *. intros v Hv. destruct (G2 v Hv) as [A|A]; [exact A|destruct (near_lost _ _ (N8 v Hv) A)]. }
  exists F, e0, e. split; [exact E|]. split; [exact T0|]. split; [exact T1|]. split; [exact NF|].
  destruct P as [->|P]; [|exact P]. exfalso.
  destruct (wf_run L n s cF k F WF E Hn (mild_hs_ok cF Hd)) as (W' & EJ & EH & EV).
  assert (Hm' : mild_sites F).
  { split; [exact (eq_ind_r (fun l => Forall (fun J => is_vector J /\ comp_le 1 J) l) (proj1 Hm) EJ)|exact (eq_ind_r (fun l => Forall (fun h => is_vector h /\ comp_le 6 h) l) (proj2 Hm) EH)]. }
  assert (Hdr' : drive (vars F) = Dnone) by exact (eq_ind_r (fun v => drive v = Dnone) Hdr EV).
  destruct (printed_close L HL n s F (exact_of F) W' Hn Hm') as (e & T2 & K).
  - unfold mild_drive. rewrite Hdr'. exact I.
  - exact (eq_ind_r (fun v => plain_dt (c_dt v)) Hdt EV).
  - left. exact Hdr'.
  - exact G2.
  - apply exact_same.
  - rewrite T1 in T2. injection T2 as <-. destruct K as [(_ & [_ K] & _)|[K _]]; [discriminate K|]. apply K. apply (near_none_lost (powerRZ 2 (-50))). exact NF.
Qed.

(** a strong undriven pair *)
Definition stillF (x : f64) : chain f64 :=
  mkChain [mk3 (f_ofZ 1) (f_ofZ (-1)) (f_lit 5 1); mk3 (f_ofZ 1) (f_ofZ 1) (f_ofZ 0)]
    [mk3 (f_ofZ 1) (f_ofZ 0) (f_ofZ 4); mk3 (f_ofZ 0) (f_ofZ 6) (f_ofZ (-5))]
    [mk3 (f_ofZ 1) (f_ofZ 0) (f_ofZ 0); mk3 (f_ofZ 0) (f_ofZ (-1)) (f_ofZ 0)]
    (f_ofZ 0) (mkConfig 2 1 (f_ofZ 256) x 2 (f_ofZ 0) 2 (f_ofZ 10) (f_ofZ 1) [] [f_ofZ 1; f_ofZ 0; f_ofZ 0]
    (f_ofZ 0) (f_ofZ 0) 2 (f_ofZ 0) "log"%string false 0 (f_ofZ 2) 1000 (f_ofZ 1) Dnone true) true.
Lemma stillF_ok x : plain_dt x -> wf 2 1 (stillF x) /\ mild_sites (stillF x) /\ strong_z (stillF x) /\ drive (vars (stillF x)) = Dnone /\
  plain_dt (c_dt (vars (stillF x))) /\ Forall (near_unit (powerRZ 2 (-50))) (spins (stillF x)).
Proof.
  intro Hx. split; [constructor; cbn; auto; lia|]. split; [|split; [|split; [reflexivity|split; [exact Hx|]]]].
  - split; cbn [stillF j_couple static_h]; repeat first [apply Forall_nil | apply Forall_cons | split]; cbn [vx vy vz]; try (vm_compute; reflexivity); cbn [vx vy vz]; fval_tac.
  - split; [discriminate|]. cbn [stillF static_h]. repeat first [apply Forall_nil | apply Forall_cons]; cbn [vz]; fval_tac.
  - rewrite pow_bpow. cbn [stillF spins]. pose proof (bpow_gt_0 radix2 (-50)) as P.
    repeat first [apply Forall_nil | apply Forall_cons]; (split; [repeat split; vm_compute; reflexivity|]).
    all: replace (len2 _) with 1; [rewrite Rminus_diag_eq, Rabs_R0 by reflexivity; lra|unfold len2, dot, vvalue; cbn [vx vy vz]; fval_tac].
Qed.

(** a pair whose first spin feels nothing: the field cancels the coupling *)
Definition blankF (x : f64) : chain f64 :=
  mkChain [mk3 (f_ofZ 1) (f_ofZ 1) (f_ofZ 1); mk3 (f_ofZ 1) (f_ofZ 1) (f_ofZ 1)]
    [mk3 (f_ofZ 0) (f_ofZ 0) (f_ofZ 2); mk3 (f_ofZ 0) (f_ofZ 0) (f_ofZ 0)]
    [mk3 (f_ofZ 1) (f_ofZ 0) (f_ofZ 0); mk3 (f_ofZ 0) (f_ofZ 0) (f_ofZ 1)]
    (f_ofZ 0) (mkConfig 2 0 (f_ofZ 256) x 2 (f_ofZ 0) 2 (f_ofZ 10) (f_ofZ 1) [] [f_ofZ 1; f_ofZ 0; f_ofZ 0]
    (f_ofZ 0) (f_ofZ 0) 2 (f_ofZ 0) "log"%string false 0 (f_ofZ 2) 1000 (f_ofZ 1) Dnone true) true.
Lemma blankF_ok x : plain_dt x -> wf 2 0 (blankF x) /\ mild_sites (blankF x) /\ mild_drive (blankF x) /\ steady (blankF x) /\ plain_dt (c_dt (vars (blankF x))) /\
  Forall (near_unit (powerRZ 2 (-50))) (spins (blankF x)).
Proof.
  intro Hx. split; [constructor; cbn; auto; lia|]. split; [|split; [exact I|split; [left; reflexivity|split; [exact Hx|]]]].
  - split; cbn [blankF j_couple static_h]; repeat first [apply Forall_nil | apply Forall_cons | split]; cbn [vx vy vz]; try (vm_compute; reflexivity); cbn [vx vy vz]; fval_tac.
  - rewrite pow_bpow. cbn [blankF spins]. pose proof (bpow_gt_0 radix2 (-50)) as P.
    repeat first [apply Forall_nil | apply Forall_cons]; (split; [repeat split; vm_compute; reflexivity|]).
    all: replace (len2 _) with 1; [rewrite Rminus_diag_eq, Rabs_R0 by reflexivity; lra|unfold len2, dot, vvalue; cbn [vx vy vz]; fval_tac].
Qed.
Lemma blankF_lost L x : exists F, update (F64 L) (blankF x) = Ok F /\ lost (fspin F 0) /\ ~ none_lost F.
Proof.
  assert (W : wf 2 0 (blankF x)) by (constructor; cbn; auto; lia).
  destruct (update_pure (F64 L) 2 0 (blankF x) W (Nat.le_refl 2)) as (sp & E & Len & A); [discriminate|].
  eexists. split; [exact E|]. specialize (A 0%nat).
  assert (Z : lost (at3 (F64 L) sp 0)).
  { rewrite A. change (2 * (2 / 2))%nat with 2%nat. unfold trotF, stageF at 1. cbn [onsub Nat.ltb Nat.leb Nat.modulo Nat.divmod fst snd Nat.sub Nat.eqb andb].
    rewrite (rotate_F64_nan_spin L); [exact lost_3f|]. unfold stageF at 1. cbn [onsub Nat.ltb Nat.leb Nat.modulo Nat.divmod fst snd Nat.sub Nat.eqb andb].
    unfold stageF at 1. cbn [onsub Nat.ltb Nat.leb Nat.modulo Nat.divmod fst snd Nat.sub Nat.eqb andb].
    rewrite (rotate_F64_zero_field L); [exact lost_3f|]. unfold zero3. do 3 eexists. vm_compute. reflexivity. }
  assert (Q : lost (nth 0 sp (mk3 S754_nan S754_nan S754_nan))).
  { rewrite (nth_indep sp _ (z3 (F64 L))); [exact Z|]. rewrite Len. lia. }
  split; [exact Q|]. intro K. unfold none_lost in K. cbn [spins] in K. rewrite Forall_nth in K. apply (K 0%nat (mk3 S754_nan S754_nan S754_nan)); [apply (Nat.lt_le_trans _ 2); [lia|apply Nat.eq_le_incl; symmetry; exact Len]|exact Q].
Qed.
