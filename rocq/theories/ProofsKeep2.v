(** Runs in binary64 keep the energy, or lose a spin. *)
From Coq Require Import ZArith Reals List Lia Lra Psatz Bool Arith.
From Coq Require Import Floats.SpecFloat.
From Flocq Require Import Core.
From Verif Require Import Num Monad NumR NumF64 Spin Config Chain SpecVec SpecChain SpecRound SpecClose SpecKeep
  ProofsFlocq ProofsRound ProofsRound2 ProofsF64 ProofsChain ProofsSpin ProofsEnergy ProofsDrive ProofsOrder ProofsOrder2 ProofsOrder3 ProofsDyn ProofsDynR ProofsDyn2
  ProofsTurn ProofsClose ProofsClose2 ProofsClose3 ProofsClose4 ProofsClose5 ProofsClose6 ProofsTiny ProofsKeep.
Import ListNotations.
Local Open Scope R_scope.

Lemma drive_steady cF x y L : steady cF -> h_extP (F64 L) (vars cF) x = h_extP (F64 L) (vars cF) y.
Proof. rewrite !h_ext_F64. intros [E|E]; rewrite E; reflexivity. Qed.
Lemma field_steady cF c s x y : steady cF -> same_model cF c -> B_ c s x = B_ c s y.
Proof. intros H (_ & _ & _ & E & _). unfold B_, drive_field. rewrite <- E. destruct H as [H|H]; rewrite H; reflexivity. Qed.

Section Run.
Context (L : libm) (HL : accurate L) (n s : nat) (cF : chain f64) (c : chain R) (k : nat).
Context (WF : wf n s cF) (Hn : (2 <= n)%nat) (HS : same_model cF c) (Hm : mild_sites cF) (Hd : mild_drive cF).
Context (Hdt : plain_dt (c_dt (vars cF))) (Hk : steady cF \/ INR k <= powerRZ 2 50).
Let g := g_bound cF k.
Let dt := value (c_dt (vars cF)).

Lemma fields_any i p : (S i <= k)%nat -> (p < n)%nat ->
  is_vector (fieldsF L s cF i p) /\ comp_le 9 (fieldsF L s cF i p) /\ off (fieldsF L s cF i p) (fieldsR s c i p) <= g.
Proof.
  intros Hi Hp. destruct Hk as [St|Hk']; [|apply (fields_close L HL n s cF c k); auto].
  assert (H1 : INR 1 <= powerRZ 2 50) by (rewrite pow_bpow; cbn; lra).
  destruct (fields_close L HL n s cF c 1 WF Hdt H1 HS Hm Hd 0 p ltac:(lia) Hp) as (A & B & C).
  assert (EF : fieldsF L s cF i = fieldsF L s cF 0) by (unfold fieldsF; f_equal; apply drive_steady; exact St).
  assert (ER : fieldsR s c i = fieldsR s c 0) by (unfold fieldsR; apply (field_steady cF); auto).
  assert (EG : g = g_bound cF 1) by (unfold g, g_bound, drift; destruct St as [E|E]; rewrite E; reflexivity).
  rewrite EF, ER, EG. auto.
Qed.

Notation at3F sp p := (at3 (F64 L) sp p).
Definition goodL (sp : list (v3 f64)) : Prop := forall p, (p < n)%nat -> near_unit (powerRZ 2 (-50)) (at3F sp p) \/ lost (at3F sp p).
Definition cleanL (sp : list (v3 f64)) : Prop := forall p, (p < n)%nat -> ~ lost (at3F sp p).
Definition enL (B : nat -> vec) (sp : list (v3 f64)) : R := ring_energy n (fun i => vvalue (at3F sp i)) (J_ c) B.
Definition lossy : R := INR n * (powerRZ 2 (-34) * (3 + 48 * dt) + 9 * g).

Lemma update_any i sp : (S i <= k)%nat -> length sp = n -> goodL sp ->
  exists sp', update (F64 L) (at_step cF i sp) = Ok (at_step cF (S i) sp') /\ length sp' = n /\ goodL sp' /\
    (cleanL sp' -> cleanL sp /\ ((n mod 2 = 0)%nat -> Rabs (enL (fieldsR s c i) sp' - enL (fieldsR s c i) sp) <= lossy)).
Proof.
  intros Hi Ls HG.
  assert (W1 : wf n s (at_step cF i sp)) by (destruct WF; constructor; cbn; auto).
  destruct (update_pure (F64 L) n s (at_step cF i sp) W1 Hn (mild_hs_ok cF Hd)) as (sp' & Eu & Len & A). exists sp'.
  split; [exact Eu|]. split; [exact Len|].
  set (M := (2 * (n / 2))%nat) in *. assert (ML : (M <= n)%nat) by (unfold M; pose proof (Nat.div_mod n 2 ltac:(lia)); lia).
  assert (ME : (M mod 2 = 0)%nat) by (unfold M; rewrite Nat.mul_comm; apply Nat.mod_mul; lia).
  assert (M1 : (1 <= M)%nat) by (unfold M; pose proof (Nat.div_le_mono 2 n 2 ltac:(lia) Hn); cbn in *; lia).
  destruct (half_exact _ Hdt) as [V2 E2]. destruct (Hdt) as (Vd & _). pose proof (dt01 cF Hdt) as R1.
  destruct (trot_any L HL M (at3 (F64 L) (j_couple cF)) (fieldsF L s cF i) (J_ c) (fieldsR s c i) g (g_pos cF k Hdt Hd)) with
    (x2 := f_div (c_dt (vars cF)) (f_ofZ 2)) (x := c_dt (vars cF)) (S := at3 (F64 L) sp) as [G K]; auto; try lra.
  - intros p Hp. apply (J_vals L n s cF c WF HS Hm p). lia.
  - intros p Hp. destruct (fields_any i p Hi ltac:(lia)) as (B1 & B2 & _). auto.
  - intros p Hp. apply (J_vals L n s cF c WF HS Hm p). lia.
  - intros p Hp. apply (fields_any i p Hi). lia.
  - intros p Hp. apply HG. lia.
  - change (fieldF (F64 L) (at_step cF i sp) s (h_extP (F64 L) (vars (at_step cF i sp)) (nadd (F64 L) (t (at_step cF i sp)) (ndiv (F64 L) (c_dt (vars (at_step cF i sp))) (nofZ (F64 L) 2)))))
      with (fieldsF L s cF i) in A.
    change (forall p, at3F sp' p = trotF (F64 L) M (at3 (F64 L) (j_couple cF)) (fieldsF L s cF i) (f_div (c_dt (vars cF)) (f_ofZ 2)) (c_dt (vars cF)) (at3 (F64 L) sp) p) in A.
    set (tr := trotF (F64 L) M (at3 (F64 L) (j_couple cF)) (fieldsF L s cF i) (f_div (c_dt (vars cF)) (f_ofZ 2)) (c_dt (vars cF)) (at3 (F64 L) sp)) in *.
    assert (OUT : forall p, (M <= p)%nat -> tr p = at3F sp p) by (intros p Hp; apply (trotF_out (F64 L)); exact Hp).
    split.
    { intros p Hp. rewrite A. destruct (Nat.lt_ge_cases p M) as [Hlt|Hge]; [apply G; exact Hlt|]. rewrite OUT by exact Hge. apply HG, Hp. }
    intro HC. assert (HC' : forall p, (p < M)%nat -> ~ lost (tr p)) by (intros p Hp; rewrite <- A; apply HC; lia).
    destruct (K HC') as [C0 D]. split.
    { intros p Hp. destruct (Nat.lt_ge_cases p M) as [Hlt|Hge]; [apply C0; exact Hlt|]. rewrite <- OUT by exact Hge. rewrite <- A. apply HC, Hp. }
    intro Hev. assert (MN : M = n) by (apply even_half; exact Hev). unfold enL, lossy. rewrite MN in D.
    replace (ring_energy n (fun i => vvalue (at3F sp' i)) (J_ c) (fieldsR s c i)) with (ring_energy n (fun q => vvalue (tr q)) (J_ c) (fieldsR s c i)); [exact D|].
    apply Rsum_ext. intros q Hq. unfold bond. rewrite !A. reflexivity.
Qed.

Lemma updates_any sp : length sp = n -> goodL sp -> forall i, (i <= k)%nat ->
  exists sp', iterM (update (F64 L)) i (at_step cF 0 sp) = Ok (at_step cF i sp') /\ length sp' = n /\ goodL sp' /\
    (cleanL sp' -> cleanL sp /\ (steady cF -> (n mod 2 = 0)%nat -> forall x, Rabs (enL (B_ c s x) sp' - enL (B_ c s x) sp) <= INR i * lossy)).
Proof.
  intros Ls HG. induction i as [|i IH]; intro Hi.
  - exists sp. split; [reflexivity|]. split; [exact Ls|]. split; [exact HG|]. intro HC. split; [exact HC|]. intros _ _ x.
    rewrite Rminus_diag_eq, Rabs_R0 by reflexivity. cbn [INR]. lra.
  - destruct (IH ltac:(lia)) as (sp1 & E1 & L1 & G1 & K1).
    destruct (update_any i sp1 Hi L1 G1) as (sp2 & E2 & L2 & G2 & K2).
    exists sp2. split; [rewrite iterM_snoc, E1; cbn [bind]; exact E2|]. split; [exact L2|]. split; [exact G2|].
    intro HC. destruct (K2 HC) as [C1 D1]. destruct (K1 C1) as [C0 D0]. split; [exact C0|]. intros St Hev x.
    specialize (D0 St Hev x). specialize (D1 Hev). unfold fieldsR in D1. rewrite (field_steady cF c s _ x St HS) in D1.
    replace (enL (B_ c s x) sp2 - enL (B_ c s x) sp) with ((enL (B_ c s x) sp2 - enL (B_ c s x) sp1) + (enL (B_ c s x) sp1 - enL (B_ c s x) sp)) by ring.
    eapply Rle_trans; [apply rabs_add; [exact D1|exact D0]|]. rewrite S_INR. lra.
Qed.
End Run.

Lemma nth_default {A} (l : list A) i a b : (i < length l)%nat -> nth i l a = nth i l b.
Proof. apply nth_indep. Qed.
Lemma fspin_at L n (c : chain f64) i : length (spins c) = n -> (i < n)%nat -> fspin c i = at3 (F64 L) (spins c) i.
Proof. intros E H. unfold fspin, at3. apply (nth_indep (spins c)). rewrite E. exact H. Qed.
Lemma forall_at L n (l : list (v3 f64)) (P : v3 f64 -> Prop) : length l = n -> (Forall P l <-> forall p, (p < n)%nat -> P (at3 (F64 L) l p)).
Proof.
  intro E. rewrite Forall_nth. split.
  - intros H p Hp. apply H. rewrite E. exact Hp.
  - intros H i d Hi. rewrite (nth_indep l d (z3 (F64 L)) Hi). apply H. rewrite <- E. exact Hi.
Qed.
Lemma at_step0 cF : at_step cF 0 (spins cF) = cF.
Proof. destruct cF; reflexivity. Qed.
Lemma energy_at_enL L n s c x (F : chain f64) : length (spins F) = n -> (1 <= n)%nat -> energy_at n s c x F = enL L n c (B_ c s x) (spins F).
Proof.
  intros E Hn. unfold energy_at, enL, ring_energy. apply Rsum_ext. intros i Hi. unfold bond.
  rewrite !(fspin_at L n F) by (assumption || apply Nat.mod_upper_bound; lia). reflexivity.
Qed.

(** an exact chain with the same model *)
Definition exact_of (c : chain f64) : chain R :=
  let v := vars c in
  mkChain (map vvalue (j_couple c)) (map vvalue (static_h c)) (map vvalue (spins c)) (value (t c))
    (mkConfig (hsize v) (ssize v) (value (c_t v)) (value (c_dt v)) (runs v) (value (trel v)) (threads v) (value (tau v)) (value (lambda v))
      (map value (hfield v)) (map value (hs v)) (value (jvar v)) (value (hvar v)) (method v) (value (ednsty v)) (c_file v) (strob v) (offset v)
      (value (beta v)) (mc_points v) (value (c_e v)) (drive v) (c_log v)) (has_file c).
Lemma exact_same c : same_model c (exact_of c).
Proof. unfold same_model, exact_of; cbn. destruct (drive (vars c)); repeat split. Qed.

Section Public.
Context (L : libm) (HL : accurate L) (n s : nat) (cF : chain f64).
Context (WF : wf n s cF) (Hn : (2 <= n)%nat) (Hm : mild_sites cF) (Hd : mild_drive cF) (Hdt : plain_dt (c_dt (vars cF))).
Context (HG : unit_or_lost cF).
Let LS : length (spins cF) = n := wf_spins _ _ _ WF.
Lemma start_good : goodL L n (spins cF).
Proof. exact (proj1 (forall_at L n _ _ LS) HG). Qed.

Lemma unit_or_lost_run k : steady cF \/ INR k <= powerRZ 2 50 ->
  exists F, iterM (update (F64 L)) k cF = Ok F /\ unit_or_lost F /\ (none_lost F -> none_lost cF).
Proof.
  intro Hk. destruct (updates_any L HL n s cF (exact_of cF) k WF Hn (exact_same cF) Hm Hd Hdt Hk (spins cF) LS start_good k (Nat.le_refl k)) as (sp & E & Ls & G & K).
  rewrite at_step0 in E. exists (at_step cF k sp). split; [exact E|]. split.
  - apply (forall_at L n sp _ Ls). exact G.
  - intro C. apply (forall_at L n _ _ LS). apply K. exact (proj1 (forall_at L n sp _ Ls) C).
Qed.

Context (c : chain R) (HS : same_model cF c) (Hev : (n mod 2 = 0)%nat).
Let dt := value (c_dt (vars cF)).

Lemma step_energy : exists F, update (F64 L) cF = Ok F /\ unit_or_lost F /\
  (none_lost F -> Rabs (energy_at n s c (t c + dt / 2) F - energy_at n s c (t c + dt / 2) cF) <=
     INR n * (powerRZ 2 (-34) * (4 + 48 * dt) + powerRZ 2 (-41) * drift cF 1)).
Proof.
  assert (H1 : INR 1 <= powerRZ 2 50) by (rewrite pow_bpow; cbn; lra).
  destruct (update_any L HL n s cF c 1 WF Hn HS Hm Hd Hdt (or_intror H1) 0 (spins cF) ltac:(lia) LS start_good) as (sp & E & Ls & G & K).
  rewrite at_step0 in E. exists (at_step cF 1 sp). split; [exact E|]. split; [apply (forall_at L n sp _ Ls); exact G|].
  intro C. destruct (K (proj1 (forall_at L n sp _ Ls) C)) as [_ D]. specialize (D Hev).
  rewrite !(energy_at_enL L n) by (assumption || lia). unfold fieldsR in D. cbn [INR] in D.
  assert (ET : t c + 0 * c_dt (vars c) + c_dt (vars c) / 2 = t c + dt / 2).
  { unfold dt. rewrite (proj1 (proj2 (proj2 HS))). ring. }
  rewrite ET in D. cbn [spins at_step]. eapply Rle_trans; [exact D|]. unfold lossy. fold dt. unfold g_bound.
  pose proof (drift_pos cF 1 Hdt Hd) as D1. set (e := powerRZ 2 (-45)). assert (E0 : 0 < e) by (unfold e; rewrite pow_bpow; apply bpow_gt_0).
  assert (E34 : powerRZ 2 (-34) = 2048 * e) by (unfold e; rewrite !pow_bpow; cbn; lra).
  assert (E41 : powerRZ 2 (-41) = 16 * e) by (unfold e; rewrite !pow_bpow; cbn; lra).
  apply Rmult_le_compat_l; [apply pos_INR|]. rewrite E34, E41. assert (0 <= e * drift cF 1) by (apply Rmult_le_pos; lra). lra.
Qed.

Lemma run_energy k : steady cF -> exists F, iterM (update (F64 L)) k cF = Ok F /\ unit_or_lost F /\
  (none_lost F -> forall x, Rabs (energy_at n s c x F - energy_at n s c x cF) <= INR n * (INR k * (powerRZ 2 (-34) * (4 + 48 * dt)))).
Proof.
  intro St.
  destruct (updates_any L HL n s cF c k WF Hn HS Hm Hd Hdt (or_introl St) (spins cF) LS start_good k (Nat.le_refl k)) as (sp & E & Ls & G & K).
  rewrite at_step0 in E. exists (at_step cF k sp). split; [exact E|]. split; [apply (forall_at L n sp _ Ls); exact G|].
  intros C x. destruct (K (proj1 (forall_at L n sp _ Ls) C)) as [_ D]. specialize (D St Hev x).
  rewrite !(energy_at_enL L n) by (assumption || lia). cbn [spins at_step]. eapply Rle_trans; [exact D|]. unfold lossy. fold dt. unfold g_bound.
  assert (drift cF k = 0) as -> by (unfold drift; destruct St as [Z|Z]; rewrite Z; reflexivity).
  set (e := powerRZ 2 (-45)). assert (E0 : 0 < e) by (unfold e; rewrite pow_bpow; apply bpow_gt_0).
  assert (E34 : powerRZ 2 (-34) = 2048 * e) by (unfold e; rewrite !pow_bpow; cbn; lra).
  rewrite E34. pose proof (pos_INR n). pose proof (pos_INR k).
  assert (0 <= INR n * (INR k * e)) by (repeat apply Rmult_le_pos; lra).
  replace (INR n * (INR k * (2048 * e * (4 + 48 * dt)))) with (INR k * (INR n * (2048 * e * (3 + 48 * dt) + 9 * (e * (1 + 0)))) + 2039 * (INR n * (INR k * e))) by ring. lra.
Qed.
End Public.
