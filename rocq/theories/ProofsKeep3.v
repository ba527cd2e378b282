(** The printed energy of a binary64 chain. *)
From Coq Require Import ZArith Reals List Lia Lra Psatz Bool Arith.
From Coq Require Import Floats.SpecFloat.
From Flocq Require Import Core.
From Verif Require Import Num Monad NumR NumF64 Spin Config Chain SpecVec SpecChain SpecRound SpecClose SpecKeep
  ProofsFlocq ProofsRound ProofsRound2 ProofsF64 ProofsChain ProofsSpin ProofsEnergy ProofsDrive ProofsOrder ProofsOrder2 ProofsOrder3 ProofsDyn ProofsDynR ProofsDyn2
  ProofsTurn ProofsClose ProofsClose2 ProofsClose3 ProofsClose4 ProofsClose5 ProofsClose6 ProofsTiny ProofsHist2 ProofsKeep ProofsKeep2.
Import ListNotations.
Local Open Scope R_scope.

Lemma sub_close x y B : is_number x -> is_number y -> Rabs (value x - value y) <= B -> 1 <= B <= bpow radix2 1000 ->
  is_number (f_sub x y) /\ Rabs (value (f_sub x y) - (value x - value y)) <= 5 / 4 * u * B.
Proof.
  rewrite !value_fval. intros Vx Vy H HB. destruct (sub_val x y Vx Vy) as [V E]; [apply fmax_big; lra|].
  split; [exact V|]. rewrite E. eapply Rle_trans; [apply rnd_err|]. pose proof eta_u as (_ & Q). rewrite u_val in *. lra.
Qed.
Lemma abs_near a b e B : Rabs (a - b) <= e -> Rabs b <= B -> Rabs a <= B + e.
Proof. intros H1 H2. replace a with ((a - b) + b) by ring. eapply Rle_trans; [apply rabs_add; eassumption|]. lra. Qed.
Lemma abs_mul a b A B : Rabs a <= A -> Rabs b <= B -> Rabs (a * b) <= A * B.
Proof. intros. rewrite Rabs_mult. apply Rmult_le_compat; auto using Rabs_pos. Qed.
Lemma big_40 Q : Q <= bpow radix2 40 -> Q <= bpow radix2 1000.
Proof. intro H. eapply Rle_trans; [exact H|]. apply bpow_le. lia. Qed.

Section Bond.
Context (Q : R) (HQ : 40 <= Q <= bpow radix2 40).

Lemma bf_comp e s j s2 h q : is_number e -> is_number s -> is_number j -> is_number s2 -> is_number h ->
  Rabs (value s) <= 11 / 10 -> Rabs (value s2) <= 11 / 10 -> Rabs (value j) <= 1 -> Rabs (value h) <= 9 ->
  Rabs (value e) <= q -> q + 12 <= Q ->
  let r := f_add (f_sub e (f_mul (f_mul s j) s2)) (f_mul s h) in
  is_number r /\ Rabs (value r - (value e - value s * value j * value s2 + value s * value h)) <= 3 * u * Q /\ Rabs (value r) <= q + 12.
Proof.
  intros Ve Vs Vj V2 Vh Bs B2 Bj Bh Be Hq. cbv zeta. assert (U := u_val). pose proof (big_40 Q ltac:(lra)) as QB.
  assert (Q40 : Q <= 1099511627776) by (destruct HQ as [_ K]; cbn in K; lra).
  pose proof (abs_mul _ _ _ _ Bs Bj) as M1.
  destruct (mul_close s j 2 Vs Vj ltac:(lra) ltac:(lra)) as [V3 E3].
  pose proof (abs_near _ _ _ _ E3 M1) as M1'. pose proof (abs_mul _ _ _ _ M1' B2) as M2.
  destruct (mul_close (f_mul s j) s2 2 V3 V2 ltac:(rewrite U in *; lra) ltac:(lra)) as [V4 E4].
  assert (E4' : Rabs (value (f_mul (f_mul s j) s2) - value s * value j * value s2) <= 6 * u).
  { replace (value (f_mul (f_mul s j) s2) - value s * value j * value s2) with
      ((value (f_mul (f_mul s j) s2) - value (f_mul s j) * value s2) + (value (f_mul s j) - value s * value j) * value s2) by ring.
    eapply Rle_trans; [apply rabs_add; [exact E4|apply (abs_mul _ _ _ _ E3 B2)]|]. rewrite U. lra. }
  pose proof (abs_mul _ _ _ _ M1 B2) as M3. pose proof (abs_near _ _ _ _ E4' M3) as M4.
  pose proof (abs_mul _ _ _ _ Bs Bh) as M5.
  destruct (mul_close s h 10 Vs Vh ltac:(lra) ltac:(lra)) as [V5 E5]. pose proof (abs_near _ _ _ _ E5 M5) as M6.
  assert (N1 : Rabs (value e - value (f_mul (f_mul s j) s2)) <= q + 13 / 10).
  { unfold Rminus. eapply Rle_trans; [apply rabs_add; [exact Be|rewrite Rabs_Ropp; exact M4]|]. rewrite U. lra. }
  destruct (sub_close e _ Q Ve V4 ltac:(lra) ltac:(lra)) as [V6 E6]. pose proof (abs_near _ _ _ _ E6 N1) as N2.
  assert (N3 : Rabs (value (f_sub e (f_mul (f_mul s j) s2)) + value (f_mul s h)) <= q + 115 / 10).
  { eapply Rle_trans; [apply rabs_add; [exact N2|exact M6]|]. rewrite U. lra. }
  destruct (add_close _ _ Q V6 V5 ltac:(lra) ltac:(lra)) as [V7 E7]. split; [exact V7|]. split.
  - match goal with |- Rabs (?a - (?b - ?x + ?y)) <= _ => replace (a - (b - x + y)) with
      ((a - (value (f_sub e (f_mul (f_mul s j) s2)) + value (f_mul s h))) +
       ((value (f_sub e (f_mul (f_mul s j) s2)) - (b - value (f_mul (f_mul s j) s2))) + (- (value (f_mul (f_mul s j) s2) - x) + (value (f_mul s h) - y)))) by ring end.
    eapply Rle_trans; [apply rabs_add; [exact E7|apply rabs_add; [exact E6|apply rabs_add; [rewrite Rabs_Ropp; exact E4'|exact E5]]]|]. rewrite U. lra.
  - eapply Rle_trans; [exact (abs_near _ _ _ _ E7 N3)|]. rewrite U. lra.
Qed.

Definition term (S J H : nat -> vec) (i k : nat) : R := bond S J i k + dot (H i) (S i).

Lemma bf_close L e s j s2 h q : is_number e -> near_unit (powerRZ 2 (-50)) s -> is_vector j -> comp_le 1 j -> near_unit (powerRZ 2 (-50)) s2 -> is_vector h -> comp_le 9 h ->
  Rabs (value e) <= q -> q + 36 <= Q ->
  let r := bond_field (F64 L) e s j s2 h in
  is_number r /\ Rabs (value r - (value e + (- dot (vvalue s) (vhad (vvalue j) (vvalue s2)) + dot (vvalue h) (vvalue s)))) <= 9 * u * Q /\ Rabs (value r) <= q + 36.
Proof.
  intros Ve Ns (Jx & Jy & Jz) (B1 & B2 & B3) Ns2 (Hx & Hy & Hz) (D1 & D2 & D3) Be Hq. cbv zeta. unfold bond_field, for3. cbv zeta.
  cbn [nadd nsub nmul F64].
  destruct (near_comp s (near_weak _ _ _ Ns eps_small)) as (A1 & A2 & A3). destruct (near_comp s2 (near_weak _ _ _ Ns2 eps_small)) as (C1 & C2 & C3).
  destruct Ns as ((X1 & X2 & X3) & _). destruct Ns2 as ((Y1 & Y2 & Y3) & _).
  destruct (bf_comp e (vx s) (vx j) (vx s2) (vx h) q) as (V1 & E1 & F1); auto; try lra. set (e1 := f_add (f_sub e (f_mul (f_mul (vx s) (vx j)) (vx s2))) (f_mul (vx s) (vx h))) in *.
  destruct (bf_comp e1 (vy s) (vy j) (vy s2) (vy h) (q + 12)) as (V2 & E2 & F2); auto; try lra. set (e2 := f_add (f_sub e1 (f_mul (f_mul (vy s) (vy j)) (vy s2))) (f_mul (vy s) (vy h))) in *.
  destruct (bf_comp e2 (vz s) (vz j) (vz s2) (vz h) (q + 12 + 12)) as (V3 & E3 & F3); auto; try lra. set (e3 := f_add (f_sub e2 (f_mul (f_mul (vz s) (vz j)) (vz s2))) (f_mul (vz s) (vz h))) in *.
  split; [exact V3|]. split; [|eapply Rle_trans; [exact F3|lra]].
  change (Rabs (value e3 - (value e + (- dot (vvalue s) (vhad (vvalue j) (vvalue s2)) + dot (vvalue h) (vvalue s)))) <= 9 * u * Q).
  unfold dot, vhad, vvalue; cbn [vx vy vz].
  match goal with |- Rabs ?a <= _ => replace a with
    ((value e3 - (value e2 - value (vz s) * value (vz j) * value (vz s2) + value (vz s) * value (vz h))) +
     ((value e2 - (value e1 - value (vy s) * value (vy j) * value (vy s2) + value (vy s) * value (vy h))) +
      (value e1 - (value e - value (vx s) * value (vx j) * value (vx s2) + value (vx s) * value (vx h))))) by ring end.
  eapply Rle_trans; [apply rabs_add; [exact E3|apply rabs_add; [exact E2|exact E1]]|]. lra.
Qed.
End Bond.

Section Print.
Context (L : libm) (n s : nat) (F : chain f64) (h : nat -> v3 f64) (JR BR : nat -> vec) (g : R).
Context (WF : wf n s F) (Hn : (2 <= n)%nat).
Context (HN : forall p, (p < n)%nat -> near_unit (powerRZ 2 (-50)) (at3 (F64 L) (spins F) p)).
Context (HJ : forall p, (p < n)%nat -> is_vector (at3 (F64 L) (j_couple F) p) /\ comp_le 1 (at3 (F64 L) (j_couple F) p)).
Context (Hh : forall p, (p < n)%nat -> is_vector (h p) /\ comp_le 9 (h p)).
Context (EJ : forall p, (p < n)%nat -> vvalue (at3 (F64 L) (j_couple F) p) = JR p) (Eh : forall p, (p < n)%nat -> off (h p) (BR p) <= g).
Let Q := 36 * INR n + 40.
Let SR := fun p => vvalue (at3 (F64 L) (spins F) p).
Let HR := fun p => vvalue (h p).
Lemma Q_range : 40 <= Q <= bpow radix2 40.
Proof.
  unfold Q. pose proof (pos_INR n). split; [lra|]. destruct WF as [_ _ B _ _ _ _]. apply Z.lt_le_incl, IZR_le in B. rewrite <- INR_IZR_INZ in B. cbn. cbn in B. lra.
Qed.
Lemma loop_close m : (m <= n - 1)%nat -> is_number (loop_bf (F64 L) F h m) /\
  Rabs (value (loop_bf (F64 L) F h m) - Rsum m (fun i => term SR JR HR i (i + 1))) <= INR m * (9 * u * Q) /\
  Rabs (value (loop_bf (F64 L) F h m)) <= 36 * INR m.
Proof.
  destruct zero_ok as [Z1 Z2]. induction m as [|m IH]; intro Hm.
  - unfold loop_bf. cbn [seq fold_left Rsum INR]. change (nofZ (F64 L) 0) with (f_ofZ 0). split; [exact Z1|]. rewrite Z2, Rminus_0_r, Rabs_R0. lra.
  - destruct (IH ltac:(lia)) as (V & E & B). unfold loop_bf in *. rewrite seq_S, fold_left_app. cbn [fold_left plus].
    set (e := fold_left _ (seq 0 m) _) in *.
    destruct (HJ m ltac:(lia)) as [J1 J2]. destruct (Hh m ltac:(lia)) as [H1 H2].
    assert (QM : 36 * INR m + 36 <= Q) by (unfold Q; assert (INR m <= INR n) by (apply le_INR; lia); lra).
    destruct (bf_close Q Q_range L e _ _ _ _ (36 * INR m) V (HN m ltac:(lia)) J1 J2 (HN (m + 1)%nat ltac:(lia)) H1 H2 B QM) as (V' & E' & B').
    match type of V' with is_number ?r => change (is_number r /\ Rabs (value r - Rsum (S m) (fun i => term SR JR HR i (i + 1))) <= INR (S m) * (9 * u * Q) /\
      Rabs (value r) <= 36 * INR (S m)); set (r0 := r) in * end.
    split; [exact V'|]. rewrite S_INR. split; [|lra]. cbn [Rsum].
    match goal with |- Rabs (?a - (?b + ?d)) <= _ => replace (a - (b + d)) with ((a - (value e + d)) + (value e - b)) by ring end.
    eapply Rle_trans; [apply rabs_add; [|exact E]|].
    + unfold term at 1, bond, SR, HR. rewrite <- EJ by lia. exact E'.
    + lra.
Qed.
Lemma ring_close : is_number (ring_bf (F64 L) F h n) /\
  Rabs (value (ring_bf (F64 L) F h n) - ring_energy n SR JR BR) <= INR n * (9 * u * Q + 2 * g) /\
  Rabs (value (ring_bf (F64 L) F h n)) <= 36 * INR n.
Proof.
  destruct (loop_close (n - 1) (Nat.le_refl _)) as (V & E & B). unfold ring_bf.
  destruct (HJ (n - 1) ltac:(lia)) as [J1 J2]. destruct (Hh (n - 1) ltac:(lia)) as [H1 H2].
  assert (NN : INR n = INR (n - 1) + 1) by (rewrite <- S_INR; f_equal; lia).
  assert (QM : 36 * INR (n - 1) + 36 <= Q) by (unfold Q; lra).
  destruct (bf_close Q Q_range L _ _ _ _ _ (36 * INR (n - 1)) V (HN (n - 1)%nat ltac:(lia)) J1 J2 (HN 0%nat ltac:(lia)) H1 H2 B QM) as (V' & E' & B').
  match type of V' with is_number ?x => change (is_number x /\ Rabs (value x - ring_energy n SR JR BR) <= INR n * (9 * u * Q + 2 * g) /\
    Rabs (value x) <= 36 * INR n); set (r := x) in * end.
  split; [exact V'|]. split; [|lra].
  assert (A : Rabs (value r - ring_energy n SR JR HR) <= INR n * (9 * u * Q)).
  { unfold ring_energy. change (Rsum n (fun i => bond SR JR i ((i + 1) mod n) + dot (HR i) (SR i))) with (Rsum n (fun i => term SR JR HR i ((i + 1) mod n))).
    rewrite (Rsum_ring n (term SR JR HR)) by lia.
    match goal with |- Rabs (?a - (?b + ?d)) <= _ => replace (a - (b + d)) with ((a - (value (loop_bf (F64 L) F h (n - 1)) + d)) + (value (loop_bf (F64 L) F h (n - 1)) - b)) by ring end.
    eapply Rle_trans; [apply rabs_add; [|exact E]|].
    - unfold term, bond, SR, HR. rewrite <- EJ by lia. exact E'.
    - rewrite NN. lra. }
  assert (D : Rabs (ring_energy n SR JR HR - ring_energy n SR JR BR) <= INR n * (2 * g)).
  { unfold ring_energy. rewrite <- Rsum_minus. apply Rsum_abs. intros i Hi.
    replace (bond SR JR i ((i + 1) mod n) + dot (HR i) (SR i) - (bond SR JR i ((i + 1) mod n) + dot (BR i) (SR i))) with (dot (vsub (HR i) (BR i)) (SR i)) by (unfold dot; cbn [vsub vx vy vz]; ring).
    eapply Rle_trans; [apply dot_cs|]. pose proof (Eh i Hi) as O. unfold off in O. fold (HR i) in O.
    assert (PS : norm (SR i) <= 2).
    { destruct (HN i Hi) as [_ K]. unfold len2 in K. rewrite <- norm_sq, u50, u_val in K. apply Rabs_le_inv in K. fold (SR i) in K. pose proof (norm_nonneg (SR i)). nra. }
    pose proof (norm_nonneg (vsub (HR i) (BR i))). pose proof (norm_nonneg (SR i)). rewrite (Rmult_comm 2 g). apply Rmult_le_compat; lra. }
  replace (value r - ring_energy n SR JR BR) with ((value r - ring_energy n SR JR HR) + (ring_energy n SR JR HR - ring_energy n SR JR BR)) by ring.
  eapply Rle_trans; [apply rabs_add; [exact A|exact D]|]. lra.
Qed.
Lemma density_close : 0 <= g -> is_number (f_div (ring_bf (F64 L) F h n) (f_ofZ (Z.of_nat n))) /\
  Rabs (value (f_div (ring_bf (F64 L) F h n) (f_ofZ (Z.of_nat n))) - ring_energy n SR JR BR / INR n) <= 9 * u * Q + 2 * g + 50 * u.
Proof.
  intro Hg. destruct ring_close as (V & E & B). set (r := ring_bf (F64 L) F h n : f64) in *. change (num (F64 L)) with f64 in *.
  destruct WF as [_ _ B32 _ _ _ _]. destruct (ofZ_val (Z.of_nat n)) as [Vz Ez]; [lia|]. rewrite <- value_fval, <- INR_IZR_INZ in Ez.
  assert (N2 : 2 <= INR n) by (apply le_INR in Hn; cbn in Hn; lra).
  assert (DV : forall x y, Rabs x <= INR n * y -> Rabs (x / INR n) <= y).
  { intros x y H. unfold Rdiv. rewrite Rabs_mult, Rabs_inv, (Rabs_pos_eq (INR n)) by lra. apply Rmult_le_reg_r with (INR n); [lra|].
    rewrite Rmult_assoc, Rinv_l, Rmult_1_r by lra. lra. }
  destruct (div_close r (f_ofZ (Z.of_nat n)) 36 V Vz) as [V' E'].
  - rewrite Ez. lra.
  - rewrite Ez. apply DV. lra.
  - apply Rle_trans with (bpow radix2 6); [cbn; lra|apply bpow_le; lia].
  - split; [exact V'|]. rewrite Ez in E'.
    match goal with |- Rabs (?a - ?b / ?c) <= _ => replace (a - b / c) with ((a - value r / INR n) + (value r - b) / INR n) by (field; lra) end.
    eapply Rle_trans; [apply rabs_add; [exact E'|apply DV; exact E]|]. pose proof eta_u. rewrite u_val in *. lra.
Qed.
End Print.

Section Printed.
Context (L : libm) (HL : accurate L) (n s : nat) (F : chain f64) (c : chain R).
Context (WF : wf n s F) (Hn : (2 <= n)%nat) (Hm : mild_sites F) (Hd : mild_drive F) (Hdt : plain_dt (c_dt (vars F))) (St : steady F).
Context (HG : unit_or_lost F) (HS : same_model F c).
Lemma printed_close : exists e, total_energy2 (F64 L) F = Ok e /\
  ((none_lost F /\ is_number e /\ forall x, Rabs (value e - energy_at n s c x F / INR n) <= INR n * powerRZ 2 (-43)) \/ (~ none_lost F /\ e = S754_nan)).
Proof.
  assert (LS : length (spins F) = n) by apply WF. assert (LZ : hsize (vars F) = Z.of_nat n) by apply WF.
  assert (EF : fieldP (F64 L) F s (h_extP (F64 L) (vars F) (t F)) = fieldsF L s F 0).
  { unfold fieldsF, fieldF, fieldP. rewrite (drive_steady F (t F) (f_add (tick F 0) (f_div (c_dt (vars F)) (f_ofZ 2))) L St). reflexivity. }
  assert (TE : total_energy2 (F64 L) F = Ok (f_div (ring_bf (F64 L) F (fieldsF L s F 0) n) (f_ofZ (Z.of_nat n)))).
  { rewrite <- EF, <- LZ. apply (total_energy2_pure (F64 L) n s F WF); [lia|]. apply mild_hs_ok. exact Hd. }
  exists (f_div (ring_bf (F64 L) F (fieldsF L s F 0) n) (f_ofZ (Z.of_nat n))). split; [exact TE|].
  assert (NL : forall p, (p < n)%nat -> near_unit (powerRZ 2 (-50)) (at3 (F64 L) (spins F) p) \/ lost (at3 (F64 L) (spins F) p)) by exact (proj1 (forall_at L n _ _ LS) HG).
  assert (DEC : none_lost F \/ exists p, (p < n)%nat /\ lost (at3 (F64 L) (spins F) p)).
  { assert (X : forall m, (m <= n)%nat -> (forall p, (p < m)%nat -> ~ lost (at3 (F64 L) (spins F) p)) \/ exists p, (p < n)%nat /\ lost (at3 (F64 L) (spins F) p)).
    { induction m as [|m IH]; intro Hm'; [left; intros; lia|]. destruct (IH ltac:(lia)) as [A|A]; [|right; exact A].
      destruct (NL m ltac:(lia)) as [B|B]; [|right; exists m; auto]. left. intros p Hp K. destruct (Nat.eq_dec p m) as [->|]; [exact (near_lost _ _ B K)|exact (A p ltac:(lia) K)]. }
    destruct (X n (Nat.le_refl n)) as [A|A]; [left|right; exact A]. apply (forall_at L n _ _ LS). exact A. }
  destruct DEC as [C|(p & Hp & K)]; [left|right].
  - split; [exact C|]. assert (C' := proj1 (forall_at L n _ _ LS) C). cbv beta in C'.
    assert (HN : forall p, (p < n)%nat -> near_unit (powerRZ 2 (-50)) (at3 (F64 L) (spins F) p)) by (intros p Hp; destruct (NL p Hp) as [A|A]; [exact A|destruct (C' p Hp A)]).
    assert (FA := fields_any L HL n s F c 1 WF Hn HS Hm Hd Hdt (or_introl St) 0).
    destruct (density_close L n s F (fieldsF L s F 0) (J_ c) (fieldsR s c 0) (g_bound F 1) WF Hn HN) as [V E].
    + intros p Hp. apply (J_vals L n s F c WF HS Hm p Hp).
    + intros p Hp. destruct (FA p ltac:(lia) Hp) as (A & B & _). auto.
    + intros p Hp. apply (J_vals L n s F c WF HS Hm p Hp).
    + intros p Hp. apply (FA p ltac:(lia) Hp).
    + apply g_pos; assumption.
    + split; [exact V|]. intro x. rewrite (energy_at_enL L n) by (assumption || lia). unfold enL.
      unfold fieldsR in E. rewrite (field_steady F c s _ x St HS) in E. eapply Rle_trans; [exact E|].
      unfold g_bound. assert (drift F 1 = 0) as -> by (unfold drift; destruct St as [Z|Z]; rewrite Z; reflexivity).
      assert (N2 : 2 <= INR n) by (apply le_INR in Hn; cbn in Hn; lra).
      assert (E43 : powerRZ 2 (-43) = 1024 * u) by (rewrite pow_bpow, u_val; cbn; lra). assert (E45 : powerRZ 2 (-45) = 256 * u) by (rewrite pow_bpow, u_val; cbn; lra).
      rewrite E43, E45, u_val. lra.
  - split.
    + intro C. exact (proj1 (forall_at L n _ _ LS) C p Hp K).
    + rewrite (ring_nan L n s F _ p WF Hp K). reflexivity.
Qed.
End Printed.

Lemma wf_run L n s (cF : chain f64) k (F : chain f64) : wf n s cF -> iterM (update (F64 L)) k cF = Ok F -> (2 <= n)%nat -> hs_ok (vars cF) ->
  wf n s F /\ j_couple F = j_couple cF /\ static_h F = static_h cF /\ vars F = vars cF.
Proof.
  intros W E Hn Hh. revert F E. induction k as [|k IH]; intros F E.
  - cbn in E. injection E as <-. auto.
  - rewrite iterM_snoc in E. destruct (iterM (update (F64 L)) k cF) as [G| |] eqn:EG; try discriminate E. cbn [bind] in E.
    destruct (IH G eq_refl) as (WG & J & H & V).
    destruct (update_pure (F64 L) n s G WG Hn) as (sp & Eu & Len & _); [exact (eq_ind_r (fun v => hs_ok v) Hh V)|].
    assert (E' : Ok (mkChain (j_couple G) (static_h G) sp (nadd (F64 L) (t G) (c_dt (vars G))) (vars G) (has_file G)) = Ok F) by (etransitivity; [symmetry; exact Eu|exact E]).
    injection E' as <-. cbn. split; [destruct WG; constructor; auto|auto].
Qed.

Lemma run_printed L n s (cF : chain f64) k : accurate L -> wf n s cF -> (2 <= n)%nat -> (n mod 2 = 0)%nat -> mild_sites cF -> mild_drive cF -> steady cF -> plain_dt (c_dt (vars cF)) ->
  unit_or_lost cF -> exists F e0 e, iterM (update (F64 L)) k cF = Ok F /\ total_energy2 (F64 L) cF = Ok e0 /\ total_energy2 (F64 L) F = Ok e /\
    (e = S754_nan \/ (is_number e0 /\ is_number e /\
      Rabs (value e - value e0) <= INR k * (powerRZ 2 (-34) * (4 + 48 * value (c_dt (vars cF)))) + INR n * powerRZ 2 (-42))).
Proof.
  intros HL WF Hn Hev Hm Hd St Hdt HG.
  pose (c := exact_of cF). assert (HS := exact_same cF). fold c in HS.
  destruct (run_energy L HL n s cF WF Hn Hm Hd Hdt HG c HS Hev k St) as (F & E & GF & D).
  change (chain (num (F64 L))) with (chain f64) in F. cbn [num F64] in F. destruct (wf_run L n s cF k F WF E Hn (mild_hs_ok cF Hd)) as (W' & EJ & EH & EV).
  pose (c' := exact_of F). assert (HS' := exact_same F). fold c' in HS'.
  destruct (printed_close L HL n s cF c WF Hn Hm Hd Hdt St HG HS) as (e0 & T0 & P0).
  assert (Hm' : mild_sites F) by (unfold mild_sites; rewrite EJ, EH; exact Hm).
  assert (St' : steady F) by exact (eq_ind_r (fun v => drive v = Dnone \/ drive v = Dstaticfield) St EV).
  assert (Hd' : mild_drive F) by (revert Hd; unfold mild_drive; rewrite (EV : @vars f64 F = vars cF); destruct St as [Z|Z]; rewrite Z; auto).
  assert (Hdt' : plain_dt (c_dt (vars F))) by exact (eq_ind_r (fun v => plain_dt (c_dt v)) Hdt EV).
  destruct (printed_close L HL n s F c' W' Hn Hm' Hd' Hdt' St' GF HS') as (e & T1 & P1).
  exists F, e0, e. split; [exact E|]. split; [exact T0|]. split; [exact T1|].
  destruct P1 as [(C1 & N1 & B1)|[_ ->]]; [right|left; reflexivity].
  assert (C0 : none_lost cF).
  { destruct (unit_or_lost_run L HL n s cF WF Hn Hm Hd Hdt HG k (or_introl St)) as (F2 & E2 & _ & K). rewrite E in E2. injection E2 as <-. exact (K C1). }
  destruct P0 as [(_ & N0 & B0)|[K _]]; [|destruct (K C0)]. split; [exact N0|]. split; [exact N1|].
  specialize (D C1 0). specialize (B1 0). specialize (B0 0).
  assert (EE : energy_at n s c' 0 F = energy_at n s c 0 F).
  { unfold energy_at, J_, B_, h_, drive_field, c, c', exact_of; cbn [j_couple static_h vars drive hs]. rewrite EJ, EH, EV. destruct St as [Z|Z]; rewrite Z; reflexivity. }
  rewrite EE in B1. assert (N2 : 2 <= INR n) by (apply le_INR in Hn; cbn in Hn; lra).
  assert (D' : Rabs (energy_at n s c 0 F / INR n - energy_at n s c 0 cF / INR n) <= INR k * (powerRZ 2 (-34) * (4 + 48 * value (c_dt (vars cF))))).
  { replace (energy_at n s c 0 F / INR n - energy_at n s c 0 cF / INR n) with ((energy_at n s c 0 F - energy_at n s c 0 cF) * / INR n) by (field; lra).
    rewrite Rabs_mult, Rabs_inv, (Rabs_pos_eq (INR n)) by lra. apply Rmult_le_reg_r with (INR n); [lra|]. rewrite Rmult_assoc, Rinv_l, Rmult_1_r by lra. lra. }
  replace (value e - value e0) with ((value e - energy_at n s c 0 F / INR n) + ((energy_at n s c 0 F / INR n - energy_at n s c 0 cF / INR n) + - (value e0 - energy_at n s c 0 cF / INR n))) by ring.
  eapply Rle_trans; [apply rabs_add; [exact B1|apply rabs_add; [exact D'|rewrite Rabs_Ropp; exact B0]]|].
  assert (E42 : powerRZ 2 (-42) = 2 * powerRZ 2 (-43)) by (rewrite !pow_bpow; cbn; lra). rewrite E42. lra.
Qed.
