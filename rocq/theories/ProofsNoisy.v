(** Langevin chains in binary64: moves and steps keep unit vectors or lose spins. *)
From Coq Require Import ZArith Reals List Lia Lra Psatz Bool Arith.
From Coq Require Import Floats.SpecFloat.
From Flocq Require Import Core.
From Verif Require Import Num Monad NumR NumF64 Spin Config Chain Langevin SpecVec SpecChain SpecLang SpecRound SpecClose SpecKeep SpecMC SpecMade SpecNoisy
  ProofsFlocq ProofsRound ProofsRound2 ProofsF64 ProofsChain ProofsSpin ProofsDyn ProofsDynR ProofsMC ProofsMCR5 ProofsMCF64 ProofsLang ProofsClose ProofsClose3 ProofsClose4 ProofsClose6
  ProofsTiny ProofsKeep ProofsKeep2 ProofsNew ProofsSized ProofsMade ProofsMade2 ProofsMade3.
Import ListNotations.
Local Open Scope R_scope.

(** * Moves *)
Lemma accept_made L n s (sc : chain f64) i v de u e : wf n s sc -> (i < n)%nat -> near_unit e v -> l_exp L S754_nan = S754_nan ->
  (lost (nth i (spins sc) none3) -> de = S754_nan) -> Forall (made e) (spins sc) ->
  exists sp, acceptP (F64 L) sc i v de u = set_spins sc sp /\ length sp = n /\ Forall (made e) sp /\
    (forall j, lost (nth j (spins sc) none3) -> nth j sp none3 = nth j (spins sc) none3) /\ (none_lost sc -> Forall (fun v => ~ lost v) sp).
Proof.
  intros W Hi NE X0 HD HM. assert (LS : length (spins sc) = n) by apply (wf_spins _ _ _ W).
  destruct (Classical_Prop.classic (lost (nth i (spins sc) none3))) as [K|K].
  - exists (spins sc). split; [|repeat split; auto]. rewrite (HD K). rewrite (acceptP_rejects L X0). destruct sc; reflexivity.
  - unfold acceptP. destruct (_ || _).
    + exists (upd (spins sc) i v). split; [reflexivity|]. split; [rewrite upd_length; exact LS|]. split; [apply upd_forall; [exact HM|left; exact NE]|]. split.
      * intros j Kj. apply nth_upd_other. intro Z. subst j. exact (K Kj).
      * intro NL. apply upd_forall; [exact NL|]. intro Z. exact (near_lost _ _ NE Z).
    + exists (spins sc). split; [destruct sc; reflexivity|]. repeat split; auto.
Qed.
Definition lset (lc : lchain f64) (sp : list (v3 f64)) : lchain f64 := mkL (set_spins (base lc) sp) (gamma lc).
Lemma lmove_made L kd n s (lc : lchain f64) e : proper L -> wf n s (base lc) -> (2 <= n)%nat -> uniform_draw L (snd kd) -> powerRZ 2 (-44) <= e ->
  Forall (made e) (spins (base lc)) -> exists sp, lmove (F64 L) kd lc = Ok (lset lc sp) /\ length sp = n /\ Forall (made e) sp /\
    (forall i, lost (nth i (spins (base lc)) none3) -> nth i sp none3 = nth i (spins (base lc)) none3) /\
    (none_lost (base lc) -> Forall (fun v => ~ lost v) sp).
Proof.
  intros HL W Hn (D1 & D2 & _) He HM. destruct kd as [b d]. cbn [snd] in *.
  assert (LS : length (spins (base lc)) = n) by apply (wf_spins _ _ _ W).
  assert (Hi : (d_idx d mod n < n)%nat) by (apply Nat.mod_upper_bound; lia).
  assert (NP := propose_near L _ _ HL D1 D2). set (v := propose (F64 L) (d_u1 d) (d_u2 d)) in *.
  assert (NE : near_unit e v) by exact (near_weak _ _ _ NP He).
  assert (X0 : l_exp L S754_nan = S754_nan) by apply HL.
  assert (SP : forall i, (i < n)%nat -> lost (nth i (spins (base lc)) none3) -> some_nan (nth i (spins (base lc)) (mk3 (nofZ (F64 L) 0) (nofZ (F64 L) 0) (nofZ (F64 L) 0)))).
  { intros i Hii K. rewrite (nth_indep _ _ none3); [exact K|]. exact (Nat.lt_le_trans _ _ _ Hii (Nat.eq_le_incl _ _ (eq_sym LS))). }
  unfold lmove. cbn [fst snd]. destruct b.
  - destruct (accept_made L n s (base lc) (d_idx d mod n) v (dMG (F64 L) n s (base lc) (d_idx d mod n) v) (d_u3 d) e W Hi NE X0) as (sp & E & R); auto.
    { intro K. unfold dMG. apply de_magnus_nan. right. left. exact (SP _ Hi K). }
    exists sp. split; [|exact R]. etransitivity; [exact (lmagnus_pure (F64 L) n s lc d W Hn)|]. f_equal. unfold lset. f_equal. exact E.
  - destruct (accept_made L n s (base lc) (d_idx d mod n) v (dL (F64 L) n (base lc) (d_idx d mod n) v) (d_u3 d) e W Hi NE X0) as (sp & E & R); auto.
    { intro K. unfold dL. apply de_plain_nan. right. left. exact (SP _ Hi K). }
    exists sp. split; [|exact R]. etransitivity; [exact (lplain_pure (F64 L) n s lc d W ltac:(lia))|]. f_equal. unfold lset. f_equal. exact E.
Qed.
Lemma lmoved_made L l n s e : proper L -> (2 <= n)%nat -> powerRZ 2 (-44) <= e -> forall (lc : lchain f64), wf n s (base lc) -> Forall (fun kd => uniform_draw L (snd kd)) l ->
  Forall (made e) (spins (base lc)) -> exists sp, lmoved (F64 L) l lc = Ok (lset lc sp) /\ length sp = n /\ Forall (made e) sp /\
    (forall i, lost (nth i (spins (base lc)) none3) -> nth i sp none3 = nth i (spins (base lc)) none3) /\
    (none_lost (base lc) -> Forall (fun v => ~ lost v) sp).
Proof.
  intros HL Hn He. induction l as [|kd l IH]; intros lc W HD HM.
  - exists (spins (base lc)). split; [destruct lc as [[] ?]; reflexivity|]. split; [apply (wf_spins _ _ _ W)|]. repeat split; auto.
  - inversion HD as [|? ? D1 D2]; subst. destruct (lmove_made L kd n s lc e HL W Hn D1 He HM) as (sp1 & E1 & L1 & M1 & K1 & N1).
    assert (W1 : wf n s (base (lset lc sp1))) by (destruct W; constructor; cbn; auto).
    destruct (IH (lset lc sp1) W1 D2 M1) as (sp2 & E2 & L2 & M2 & K2 & N2). cbn [spins set_spins lset base] in K2.
    exists sp2. split; [unfold lmoved in *; cbn [foldM]; rewrite E1; cbn [bind]; exact E2|]. split; [exact L2|]. split; [exact M2|]. split.
    + intros i Ki. rewrite K2; [apply K1, Ki|]. rewrite K1 by exact Ki. exact Ki.
    + intro NL. apply N2. exact (N1 NL).
Qed.

(** * Steps *)
Lemma made_sized v : near_unit (1 / 8) v -> sized 1 (vx v) /\ sized 1 (vy v) /\ sized 1 (vz v).
Proof.
  intro H. destruct (near_comp _ H) as (A & B & C). destruct H as ((V1 & V2 & V3) & _).
  change (bpow radix2 1) with 2. split; [|split]; apply (sz_of 1 (11 / 10)); auto; change (bpow radix2 1) with 2; lra.
Qed.
(** the three components of the field on an end *)
Lemma end_rough L g dt nu j so h se : sized 10 g -> is_number dt -> bpow radix2 (-100) <= fval dt -> (forall f, In f [vx; vy; vz] -> sized 16 (f nu)) ->
  is_vector j -> comp_le 2 j -> is_vector h -> comp_le 8 h -> near_unit (1 / 8) so -> near_unit (1 / 8) se ->
  let w := end_omega (F64 L) g dt nu j so h se in is_vector w /\ len2 w <= powerRZ 2 900.
Proof.
  intros Sg Vd Bd Sn (J1 & J2 & J3) (K1 & K2 & K3) (H1 & H2 & H3) (G1 & G2 & G3) No Ns. cbv zeta.
  destruct (made_sized _ No) as (O1 & O2 & O3). destruct (made_sized _ Ns) as (E1 & E2 & E3).
  assert (Q1 : bpow radix2 1 = 2) by reflexivity. assert (Q3 : bpow radix2 3 = 8) by reflexivity.
  assert (Bd' : bpow radix2 (- (100)) <= Rabs (fval dt)) by (pose proof (bpow_gt_0 radix2 (-100)); rewrite Rabs_pos_eq; [exact Bd|lra]).
  assert (DH : forall f, In f [vx; vy; vz] -> sized 116 (f_div (f nu) dt)) by (intros f Hf; apply (sz_div 16 100); [lia|exact (Sn f Hf)|exact Vd|exact Bd']).
  assert (OB : forall a b c, is_number a -> Rabs (value a) <= 2 -> sized 1 b -> is_number c -> Rabs (value c) <= 8 -> sized 4 (f_sub (f_mul a b) c)).
  { intros a b c Va Ba Sb Vc Bc. apply (sz_sub 3); [lia| |apply (sz_of 3 8); auto; lra].
    apply (sized_weak 2); [|lia]. apply (sz_mul 1 1); [lia|apply (sz_of 1 2); auto; lra|exact Sb]. }
  pose proof (OB _ _ _ J1 K1 O1 H1 G1) as P1. pose proof (OB _ _ _ J2 K2 O2 H2 G2) as P2. pose proof (OB _ _ _ J3 K3 O3 H3 G3) as P3.
  set (om := mk3 (f_sub (f_mul (vx j) (vx so)) (vx h)) (f_sub (f_mul (vy j) (vy so)) (vy h)) (f_sub (f_mul (vz j) (vz so)) (vz h))).
  assert (CR : forall a b c d, sized 1 a -> sized 4 b -> sized 4 c -> sized 1 d -> sized 16 (f_mul (SFopp g) (f_sub (f_mul a b) (f_mul c d)))).
  { intros a b c d Sa Sb Sc Sd. apply (sz_mul 10 6); [lia|apply sz_opp, Sg|]. apply (sz_sub 5); [lia| |]; [apply (sz_mul 1 4)|apply (sz_mul 4 1)]; auto; lia. }
  assert (FIN : forall a b c, sized 4 a -> sized 16 b -> sized 116 c -> is_number (f_sub (f_add a b) c) /\ fval (f_sub (f_add a b) c) * fval (f_sub (f_add a b) c) <= bpow radix2 234).
  { intros a b c Sa Sb Sc. destruct (sz_sub 116 (f_add a b) c ltac:(lia)) as [V B]; [|exact Sc|].
    - apply (sized_weak 17); [|lia]. apply (sz_add 16); [lia| |exact Sb]. apply (sized_weak 4); [exact Sa|lia].
    - split; [exact V|]. replace 234%Z with (117 + 117)%Z by lia. rewrite bpow_plus. apply Rabs_le_inv in B. pose proof (bpow_gt_0 radix2 117). change (116 + 1)%Z with 117%Z in B. nra. }
  assert (W : end_omega (F64 L) g dt nu j so h se = mk3
    (f_sub (f_add (vx om) (f_mul (SFopp g) (f_sub (f_mul (vy se) (vz om)) (f_mul (vy om) (vz se))))) (f_div (vx nu) dt))
    (f_sub (f_add (vy om) (f_mul (SFopp g) (f_sub (f_mul (vz se) (vx om)) (f_mul (vz om) (vx se))))) (f_div (vy nu) dt))
    (f_sub (f_add (vz om) (f_mul (SFopp g) (f_sub (f_mul (vx se) (vy om)) (f_mul (vx om) (vy se))))) (f_div (vz nu) dt))) by reflexivity.
  rewrite W. cbn [om vx vy vz] in *.
  destruct (FIN _ _ _ P1 (CR _ _ _ _ E2 P3 P2 E3) (DH vx ltac:(cbn; auto))) as [A1 B1].
  destruct (FIN _ _ _ P2 (CR _ _ _ _ E3 P1 P3 E1) (DH vy ltac:(cbn; auto))) as [A2 B2].
  destruct (FIN _ _ _ P3 (CR _ _ _ _ E1 P2 P1 E2) (DH vz ltac:(cbn; auto))) as [A3 B3].
  split; [split; [exact A1|split; [exact A2|exact A3]]|]. rewrite len2_fval, pow_bpow. cbn [vx vy vz].
  apply Rle_trans with (bpow radix2 (234 + 2)); [|apply bpow_le; lia]. rewrite bpow_plus. change (bpow radix2 2) with 4. pose proof (bpow_gt_0 radix2 234). lra.
Qed.
Lemma end_lost L g dt nu j so h se : lost so -> lost (end_omega (F64 L) g dt nu j so h se).
Proof.
  intro H. unfold end_omega, lost in *. cbv zeta. unfold ssh_sum, j_s, lcross; cbn [vx vy vz nadd nsub nmul ndiv nopp F64 num].
  destruct H as [H|[H|H]]; [left|right; left|right; right]; rewrite H; autorewrite with nan; reflexivity.
Qed.

Section Step.
Context (L : libm) (HL : accurate L) (M : nat) (J h : nat -> v3 f64) (g dt : f64) (nl nr : v3 f64).
Context (HJ : forall p, (p < M)%nat -> is_vector (J p) /\ comp_le 2 (J p)).
Context (Hh : forall p, (p < M)%nat -> is_vector (h p) /\ comp_le 8 (h p)).
Context (Hev : (M mod 2 = 0)%nat) (H1 : (2 <= M)%nat).
Context (Sg : sized 10 g) (Vd : is_number dt) (Bd : bpow radix2 (-100) <= fval dt).
Context (Snl : forall f, In f [vx; vy; vz] -> sized 16 (f nl)) (Snr : forall f, In f [vx; vy; vz] -> sized 16 (f nr)).
Notation rough S := (forall p, (p < M)%nat -> made (1 / 8) (S p)).

Lemma lrot_rough x S p (HS : rough S) : is_number x -> 0 <= value x <= 1 -> (p < M)%nat ->
  made (powerRZ 2 (-50)) (rotate (F64 L) (S p) (lomF (F64 L) M g dt nl nr S J h p) x) /\ (lost (S p) -> lost (rotate (F64 L) (S p) (lomF (F64 L) M g dt nl nr S J h p) x)).
Proof.
  intros Vx Bx Hp.
  destruct (HS p Hp) as [Np|Lp]; [|rewrite (rotate_F64_nan_spin L _ _ _ Lp); split; [right|intros _]; exact lost_3f].
  split; [|intro K; destruct (near_lost _ _ Np K)].
  assert (FIN : forall w, is_vector w -> len2 w <= powerRZ 2 900 -> made (powerRZ 2 (-50)) (rotate (F64 L) (S p) w x)).
  { intros w V L9. destruct (rotate_rough L (S p) w x HL Np V L9 Vx) as [A|A]; [rewrite Rabs_pos_eq; lra|left; exact A|right; rewrite A; exact lost_3f]. }
  assert (BAD : forall w, lost w -> made (powerRZ 2 (-50)) (rotate (F64 L) (S p) w x)).
  { intros w Lw. right. rewrite rotate_lost_field by exact Lw. exact lost_3f. }
  unfold lomF. destruct (Nat.eqb_spec p 0) as [->|N0].
  - destruct (HS 1%nat ltac:(lia)) as [No|Lo]; [|apply BAD, end_lost; exact Lo].
    destruct (HJ 0%nat ltac:(lia)). destruct (Hh 0%nat ltac:(lia)). destruct (end_rough L g dt nl (J 0%nat) (S 1%nat) (h 0%nat) (S 0%nat)) as [A B]; auto.
  - destruct (Nat.eqb_spec p (M - 1)) as [E|NM].
    + destruct (HS (p - 1)%nat ltac:(lia)) as [No|Lo]; [|apply BAD, end_lost; exact Lo].
      destruct (HJ (p - 1)%nat ltac:(lia)). destruct (Hh p ltac:(lia)). destruct (end_rough L g dt nr (J (p - 1)%nat) (S (p - 1)%nat) (h p) (S p)) as [A B]; auto.
    + pose proof (lft_lt M p Hp) as Ll. pose proof (rgt_lt M p Hp) as Lr.
      destruct (HS _ Ll) as [Nl|Ls]; [|apply BAD, omF_lost; left; exact Ls].
      destruct (HS _ Lr) as [Nr|Ls]; [|apply BAD, omF_lost; right; exact Ls].
      destruct (field_rough L M J h HJ) with (S := S) (p := p) as (V & C); auto.
      * intros q Hq. destruct (Hh q Hq) as [A (B1 & B2 & B3)]. split; [exact A|]. split; [|split]; (eapply Rle_trans; [eassumption|lra]).
      * apply FIN; [exact V|exact (r14 _ C)].
Qed.
Lemma lstage_rough b x S : is_number x -> 0 <= value x <= 1 -> rough S -> forall p, (p < M)%nat ->
  (p mod 2 = b -> made (powerRZ 2 (-50)) (lstageF (F64 L) M g dt nl nr b J h x S p) /\ (lost (S p) -> lost (lstageF (F64 L) M g dt nl nr b J h x S p)))%nat /\
  (p mod 2 <> b -> lstageF (F64 L) M g dt nl nr b J h x S p = S p)%nat.
Proof.
  intros Vx Bx HS p Hp. unfold lstageF. split.
  - intro E. replace (onsub M b p) with true by (symmetry; apply onsub_spec; auto). apply lrot_rough; auto.
  - intro H. destruct (onsub M b p) eqn:E; [|reflexivity]. exfalso. apply onsub_spec in E. destruct E as [_ E]. exact (H E).
Qed.
Lemma ltrot_rough x2 S : is_number x2 -> value x2 = value dt / 2 -> 0 <= value dt <= 1 -> rough S ->
  forall p, (p < M)%nat -> made (powerRZ 2 (-50)) (ltrotF (F64 L) M g dt nl nr J h x2 S p) /\ (lost (S p) -> lost (ltrotF (F64 L) M g dt nl nr J h x2 S p)).
Proof.
  intros V2 E2 Bx HS. unfold ltrotF.
  pose proof (lstage_rough 0 x2 S V2 ltac:(lra) HS) as G1. set (S1 := lstageF (F64 L) M g dt nl nr 0 J h x2 S) in *.
  assert (R1 : rough S1).
  { intros p Hp. destruct (G1 p Hp) as [A B]. destruct (Nat.eq_dec (p mod 2) 0) as [E|E]; [apply made_weak, A, E|rewrite B by exact E; apply HS, Hp]. }
  pose proof (lstage_rough 1 dt S1 Vd ltac:(lra) R1) as G2. set (S2 := lstageF (F64 L) M g dt nl nr 1 J h dt S1) in *.
  assert (R2 : rough S2).
  { intros p Hp. destruct (G2 p Hp) as [A B]. destruct (Nat.eq_dec (p mod 2) 1) as [E|E]; [apply made_weak, A, E|rewrite B by exact E; apply R1, Hp]. }
  pose proof (lstage_rough 0 x2 S2 V2 ltac:(lra) R2) as G3. set (S3 := lstageF (F64 L) M g dt nl nr 0 J h x2 S2) in *.
  intros p Hp. destruct (G1 p Hp) as [A1 B1]. destruct (G2 p Hp) as [A2 B2]. destruct (G3 p Hp) as [A3 B3].
  pose proof (Nat.mod_upper_bound p 2 ltac:(lia)).
  destruct (Nat.eq_dec (p mod 2) 0) as [E|E].
  - destruct (A1 E) as [_ K1]. destruct (A3 E) as [M3 K3]. split; [exact M3|]. intro K. apply K3. rewrite B2 by lia. auto.
  - assert (E1 : (p mod 2 = 1)%nat) by lia. destruct (A2 E1) as [M2 K2]. rewrite B3 by lia. split; [exact M2|]. intro K. apply K2. rewrite B1 by lia. exact K.
Qed.
End Step.

(** the noise *)
Lemma bath_sigma L (lc : lchain f64) : mild_bath (vars (base lc)) (gamma lc) -> plain_dt (c_dt (vars (base lc))) ->
  sized 10 (gamma lc) /\ sized 10 (lsigma (F64 L) lc) /\ nfinite (F64 L) (lsigma (F64 L) lc) = true.
Proof.
  intros (Vg & Bg & Vb & Bb & Bdt) (Vd & _ & Hd). rewrite value_fval in *.
  assert (Q10 : bpow radix2 10 = 1024) by reflexivity. assert (Q0 : bpow radix2 0 = 1) by reflexivity. assert (Q1 : bpow radix2 1 = 2) by reflexivity.
  assert (Q8 : bpow radix2 (-8) = 1 / 256) by (cbn; lra). rewrite pow_bpow in Bdt. pose proof (bpow_gt_0 radix2 (-100)) as P100.
  assert (Sg : sized 10 (gamma lc)) by (split; [exact Vg|rewrite Q10, Rabs_pos_eq; lra]).
  assert (Sd : sized 0 (c_dt (vars (base lc)))) by (split; [exact Vd|rewrite Q0, Rabs_pos_eq; lra]).
  destruct (ofZ_val 2 ltac:(lia)) as [V2 E2]. assert (S2 : sized 1 (f_ofZ 2)) by (split; [exact V2|rewrite E2, Q1, Rabs_pos_eq; lra]).
  assert (S3 := sz_mul 1 10 _ _ ltac:(lia) S2 Sg). assert (S4 := sz_mul 11 0 _ _ ltac:(lia) S3 Sd).
  assert (S5 := sz_div 11 8 _ (beta (vars (base lc))) ltac:(lia) S4 Vb ltac:(change (- (8))%Z with (-8)%Z; rewrite Q8, Rabs_pos_eq; lra)).
  assert (POS : 0 <= fval (f_div (f_mul (f_mul (f_ofZ 2) (gamma lc)) (c_dt (vars (base lc)))) (beta (vars (base lc))))).
  { assert (RP : forall r, 0 <= r -> 0 <= rnd r).
    { intros r Hr. rewrite <- (round_0 radix2 ffexp ZnearestE). apply (round_le radix2 ffexp ZnearestE). exact Hr. }
    assert (FM : forall k r, (-1000 <= k <= 1000)%Z -> Rabs r <= bpow radix2 k -> Rabs (rnd r) < fmax) by (intros k r Hk Hr; apply (rnd_pow k r Hk Hr)).
    assert (E3 : fval (f_mul (f_ofZ 2) (gamma lc)) = rnd (2 * fval (gamma lc))).
    { destruct (mul_val _ _ V2 Vg) as [_ E]; [rewrite E2; apply (FM 11%Z); [lia|]; change (bpow radix2 11) with 2048; rewrite Rabs_pos_eq; lra|]. rewrite E, E2. reflexivity. }
    assert (P3 : 0 <= fval (f_mul (f_ofZ 2) (gamma lc)) <= 2048).
    { split; [rewrite E3; apply RP; lra|]. destruct S3 as [_ B]. apply Rabs_le_inv in B. change (bpow radix2 (1 + 10)) with 2048 in B. lra. }
    assert (P4 : 0 <= fval (f_mul (f_mul (f_ofZ 2) (gamma lc)) (c_dt (vars (base lc)))) <= 2048).
    { split; [|destruct S4 as [_ B]; apply Rabs_le_inv in B; change (bpow radix2 (11 + 0)) with 2048 in B; lra].
      assert (0 <= fval (f_mul (f_ofZ 2) (gamma lc)) * fval (c_dt (vars (base lc))) <= 2048) by nra.
      destruct (mul_val _ _ (proj1 S3) Vd) as [_ E]; [apply (FM 11%Z); [lia|]; change (bpow radix2 11) with 2048; rewrite Rabs_pos_eq; lra|]. rewrite E. apply RP. lra. }
    assert (D : 0 <= fval (f_mul (f_mul (f_ofZ 2) (gamma lc)) (c_dt (vars (base lc)))) / fval (beta (vars (base lc))) <= 2048 * 256).
    { split; [apply Rmult_le_pos; [lra|left; apply Rinv_0_lt_compat; lra]|]. apply (Rmult_le_reg_r (fval (beta (vars (base lc))))); [lra|]. unfold Rdiv. rewrite Rmult_assoc, Rinv_l by lra. nra. }
    destruct (div_val _ _ (proj1 S4) Vb) as [_ E]; [lra|apply (FM 19%Z); [lia|]; change (bpow radix2 19) with 524288; rewrite Rabs_pos_eq; lra|]. rewrite E. apply RP. lra. }
  destruct (sz_sqrt 10 _ ltac:(lia) (sized_weak _ 20 _ S5 ltac:(lia)) POS) as [SS _].
  split; [exact Sg|]. split; [exact SS|]. exact (proj2 (proj1 SS)).
Qed.

Section LRun.
Context (L : libm) (HL : accurate L) (n s : nat) (cF : chain f64) (g : f64).
Context (WF : wf n s cF) (Hn : (2 <= n)%nat) (Hm : rough_sites cF) (Hd : mild_drive cF).
Context (Hdt : plain_dt (c_dt (vars cF))) (Hb : mild_bath (vars cF) g).
Notation at3F sp p := (at3 (F64 L) sp p).
Notation M := (2 * (n / 2))%nat.
Notation lat i sp := (mkL (at_step cF i sp) g).
Lemma noise_sized (sg x : f64) : sized 10 sg -> is_number x -> Rabs (value x) <= 32 -> sized 16 (f_add (f_ofZ 0) (f_mul sg x)).
Proof.
  intros Ss Vx Bx. destruct (ofZ_val 0 ltac:(lia)) as [V0 E0]. apply (sz_add 15); [lia| |].
  - split; [exact V0|]. rewrite E0, Rabs_R0. apply bpow_ge_0.
  - apply (sz_mul 10 5); [lia|exact Ss|]. split; [exact Vx|]. rewrite <- value_fval. exact Bx.
Qed.
Lemma lupdate_rough i z sp : plain_noise z -> length sp = n -> (forall p, (p < n)%nat -> made (1 / 8) (at3F sp p)) ->
  exists sp', lupdate (F64 L) (fst z) (snd z) (lat i sp) = Ok (lat (S i) sp') /\ length sp' = n /\
    (forall p, (p < M)%nat -> made (powerRZ 2 (-50)) (at3F sp' p) /\ (lost (at3F sp p) -> lost (at3F sp' p))) /\
    (forall p, (M <= p)%nat -> at3F sp' p = at3F sp p).
Proof.
  intros [[Z1 (z1 & z2 & z3)] [Z2 (z4 & z5 & z6)]] Ls HG.
  assert (W1 : wf n s (base (lat i sp))) by (destruct WF; constructor; cbn; auto).
  destruct (bath_sigma L (lat i sp) Hb Hdt) as (Sg & SS & FF).
  destruct (lupdate_pure (F64 L) n s (fst z) (snd z) (lat i sp) W1 Hn (mild_hs_ok cF Hd) FF) as (sp' & Eu & Len & A). exists sp'.
  split; [exact Eu|]. split; [exact Len|].
  assert (ML : (M <= n)%nat) by (pose proof (Nat.div_mod n 2 ltac:(lia)); lia).
  assert (ME : (M mod 2 = 0)%nat) by (rewrite Nat.mul_comm; apply Nat.mod_mul; lia).
  assert (M1 : (2 <= M)%nat) by (pose proof (Nat.div_le_mono 2 n 2 ltac:(lia) Hn); cbn in *; lia).
  destruct (half_exact _ Hdt) as [V2 E2]. destruct (Hdt) as (Vd & _). pose proof (dt01 cF Hdt) as R1.
  match type of A with forall p, _ = ltrotF _ _ _ _ ?a ?b _ ?f _ _ p => set (nl := a) in *; set (nr := b) in *; set (hh := f) in * end.
  change (forall p, at3F sp' p = ltrotF (F64 L) M g (c_dt (vars cF)) nl nr (at3 (F64 L) (j_couple cF)) hh (f_div (c_dt (vars cF)) (f_ofZ 2)) (at3 (F64 L) sp) p) in A.
  split.
  - intros p Hp. rewrite A.
    apply (ltrot_rough L HL M (at3 (F64 L) (j_couple cF)) hh g (c_dt (vars cF)) nl nr); auto.
    + intros q Hq. destruct Hm as [HJ _]. rewrite Forall_forall in HJ. apply HJ. apply nth_In. destruct WF as [_ _ _ _ _ W6 _]. change (q < length (@j_couple f64 cF))%nat. lia.
    + intros q Hq. assert (X : steady cF \/ sized 102 (tick cF (S i))).
      { destruct (tick_sized cF Hd Hdt (S i)) as [St|T]; [left; exact St|right; exact (sized_weak 101 102 _ T ltac:(lia))]. }
      exact (field_sized L n s cF _ q HL WF Hm Hd X ltac:(lia)).
    + destruct Hb as (_ & _ & _ & _ & Q). rewrite <- pow_bpow, <- value_fval. exact Q.
    + intros f [<-|[<-|[<-|[]]]]; cbn [vx vy vz v3map nl]; apply noise_sized; auto; apply Z1.
    + intros f [<-|[<-|[<-|[]]]]; cbn [vx vy vz v3map nr]; apply noise_sized; auto; apply Z2.
    + lra.
    + intros q Hq. apply HG. lia.
  - intros p Hp. rewrite A. apply (ltrotF_out (F64 L)); exact Hp.
Qed.
Lemma lruns_rough e : powerRZ 2 (-50) <= e <= 1 / 8 -> forall zs i sp, Forall plain_noise zs -> length sp = n -> (forall p, (p < n)%nat -> made e (at3F sp p)) ->
  exists sp', lruns (F64 L) zs (lat i sp) = Ok (lat (i + length zs)%nat sp') /\ length sp' = n /\
    (forall p, (p < n)%nat -> made e (at3F sp' p) /\ (lost (at3F sp p) -> lost (at3F sp' p))) /\
    (zs <> [] -> forall p, (p < M)%nat -> made (powerRZ 2 (-50)) (at3F sp' p)).
Proof.
  intro He.
  assert (E8 : forall v, made e v -> made (1 / 8) v) by (intros v [H|H]; [left; exact (near_weak _ _ _ H (proj2 He))|right; exact H]).
  assert (E5 : forall v, made (powerRZ 2 (-50)) v -> made e v) by (intros v [H|H]; [left; exact (near_weak _ _ _ H (proj1 He))|right; exact H]).
  induction zs as [|z zs IH]; intros i sp HZ Ls HG.
  - exists sp. split; [unfold lruns; cbn [foldM length]; rewrite Nat.add_0_r; reflexivity|]. split; [exact Ls|]. split; [intros p Hp; split; [exact (HG p Hp)|auto]|congruence].
  - pose proof (Forall_inv HZ) as Z1. pose proof (Forall_inv_tail HZ) as Z2.
    destruct (lupdate_rough i z sp Z1 Ls (fun p Hp => E8 _ (HG p Hp))) as (sp1 & E1 & L1 & G1 & O1).
    assert (HG1 : forall p, (p < n)%nat -> made e (at3F sp1 p) /\ (lost (at3F sp p) -> lost (at3F sp1 p))).
    { intros p Hp. destruct (Nat.lt_ge_cases p M) as [Hlt|Hge].
      - destruct (G1 p Hlt) as [A B]. split; [apply E5; exact A|exact B].
      - rewrite O1 by exact Hge. split; [exact (HG p Hp)|auto]. }
    destruct (IH (S i) sp1 Z2 L1 (fun p Hp => proj1 (HG1 p Hp))) as (sp2 & E2 & L2 & G2 & R2).
    exists sp2. split; [|split; [exact L2|split]].
    + replace (i + length (z :: zs))%nat with (S i + length zs)%nat by (cbn; lia). refine (eq_trans _ E2). unfold lruns. exact (f_equal (fun r => bind r (foldM (fun z c => lupdate (F64 L) (fst z) (snd z) c) zs)) E1).
    + intros p Hp. destruct (G2 p Hp) as [A B]. split; [exact A|]. intro K. apply B, (HG1 p Hp), K.
    + intros _ p Hp. destruct zs as [|z' zs']; [|apply R2; [discriminate|exact Hp]].
      unfold lruns in E2. cbn [foldM] in E2. injection E2 as <-. apply (G1 p Hp).
Qed.
End LRun.

(** * A whole run *)
Lemma noisy_run L conf g d l zs : proper L -> mild_conf conf -> mild_bath conf g -> plain_draws L d ->
  Forall (fun kd => uniform_draw L (snd kd)) l -> Forall plain_noise zs ->
  exists c c1 c2, lchain_new (F64 L) conf g d = Ok c /\ unit_or_lost (base c) /\
    lmoved (F64 L) l c = Ok c1 /\ Forall (made (powerRZ 2 (-44))) (spins (base c1)) /\ (none_lost (base c) -> none_lost (base c1)) /\
    lruns (F64 L) zs c1 = Ok c2 /\ Forall (made (powerRZ 2 (-44))) (spins (base c2)) /\ (zs <> [] -> on_ring (base c2) (made (powerRZ 2 (-50)))) /\
    (forall i, lost (nth i (spins (base c)) none3) -> lost (nth i (spins (base c2)) none3)).
Proof.
  intros HL HC HB HD HU HZ. destruct (new_mild L conf HC d HD) as (c & E & W & EV & MS & MD). change (@vars f64 c = conf) in EV.
  set (n := Z.to_nat (hsize conf)) in *. set (s := Z.to_nat (ssize conf)) in *.
  assert (Hn : (2 <= n)%nat) by (unfold n; destruct HC; lia).
  assert (UL := new_made L conf d c HL E).
  set (lc := mkL (mkChain (j_couple c) (static_h c) (spins c) (t c) (vars c) true) g : lchain f64).
  assert (EL : lchain_new (F64 L) conf g d = Ok lc) by (rewrite lchain_new_base, E; reflexivity).
  assert (WL : wf n s (base lc)) by (destruct W; constructor; cbn; auto).
  assert (E45 : powerRZ 2 (-50) <= powerRZ 2 (-44)) by (rewrite !pow_bpow; apply bpow_le; lia).
  assert (E48 : powerRZ 2 (-44) <= 1 / 8) by (rewrite p44, u_val; lra).
  assert (M44 : Forall (made (powerRZ 2 (-44))) (spins (base lc))).
  { eapply Forall_impl; [|exact UL]. intros v [H|H]; [left; exact (near_weak _ _ _ H E45)|right; exact H]. }
  destruct (lmoved_made L l n s (powerRZ 2 (-44)) HL Hn ltac:(lra) lc WL HU M44) as (sp & E1 & L1 & M1 & K1 & N1).
  set (cF := set_spins (base lc) sp : chain f64).
  assert (W1 : wf n s cF) by (destruct WL; constructor; cbn; auto).
  assert (Hdt : plain_dt (c_dt (vars cF))) by (change (plain_dt (c_dt (@vars f64 c))); rewrite EV; destruct HC as (_ & _ & _ & _ & _ & _ & _ & _ & _ & Q & _); exact Q).
  assert (HB1 : mild_bath (vars cF) g) by (change (mild_bath (@vars f64 c) g); rewrite EV; exact HB).
  destruct (lruns_rough L (proj1 HL) n s cF g W1 Hn MS MD Hdt HB1 (powerRZ 2 (-44)) (conj E45 E48) zs 0 sp HZ L1 (proj1 (forall_at L n sp _ L1) M1))
    as (sp2 & E2 & L2 & G2 & R2).
  exists lc, (lset lc sp), (mkL (at_step cF (0 + length zs) sp2) g). split; [exact EL|]. split; [exact UL|]. split; [exact E1|]. split; [exact M1|]. split; [exact N1|].
  split; [exact E2|]. split; [|split].
  - apply (forall_at L n sp2 _ L2). intros p Hp. apply (G2 p Hp).
  - intros H1 i Hi. cbn [spins at_step base] in Hi. rewrite L2 in Hi. rewrite (fspin_at L n) by (auto; pose proof (Nat.div_mod n 2 ltac:(lia)); lia). apply R2; auto.
  - intros i Ki. cbn [spins at_step base]. destruct (Nat.lt_ge_cases i n) as [Hi|Hi].
    + rewrite (nth_indep sp2 none3 (z3 (F64 L))) by exact (Nat.lt_le_trans _ _ _ Hi (Nat.eq_le_incl _ _ (eq_sym L2))). apply (G2 i Hi). unfold at3. rewrite (nth_indep sp (z3 (F64 L)) none3) by exact (Nat.lt_le_trans _ _ _ Hi (Nat.eq_le_incl _ _ (eq_sym L1))). rewrite K1; exact Ki.
    + rewrite nth_overflow in Ki by exact (Nat.le_trans _ _ _ (Nat.eq_le_incl _ _ (wf_spins _ _ _ W)) Hi). rewrite nth_overflow by exact (Nat.le_trans _ _ _ (Nat.eq_le_incl _ _ L2) Hi). exact Ki.
Qed.

(** * Infinite temperature *)
Lemma div_zero x y : is_number y -> value y = 0 -> f_finite (f_sqrt (f_div x y)) = false.
Proof.
  intros Vy Ey. destruct y as [b| | |b m e]; try (destruct Vy as [_ Q]; discriminate Q).
  - destruct x as [c|c| |c m e]; try reflexivity; destruct c, b; reflexivity.
  - exfalso. unfold value in Ey. pose proof (powerRZ_lt 2 e ltac:(lra)). pose proof (IZR_lt 0 (Zpos m) ltac:(lia)). assert (0 < IZR (Z.pos m) * powerRZ 2 e) by (apply Rmult_lt_0_compat; assumption). destruct b; lra.
Qed.
Lemma hot_bath L conf g d : proper L -> mild_conf conf -> plain_draws L d -> is_number (beta conf) -> value (beta conf) = 0 ->
  exists c, lchain_new (F64 L) conf g d = Ok c /\ forall l z zs c1, lmoved (F64 L) l c = Ok c1 -> Forall (fun kd => uniform_draw L (snd kd)) l ->
    lruns (F64 L) (z :: zs) c1 = Panic Unwrap.
Proof.
  intros HL HC HD Vb Eb. destruct (new_mild L conf HC d HD) as (c & E & W & EV & MS & MD). change (@vars f64 c = conf) in EV.
  set (n := Z.to_nat (hsize conf)) in *. set (s := Z.to_nat (ssize conf)) in *.
  assert (Hn : (2 <= n)%nat) by (unfold n; destruct HC; lia).
  set (lc := mkL (mkChain (j_couple c) (static_h c) (spins c) (t c) (vars c) true) g : lchain f64).
  exists lc. split; [rewrite lchain_new_base, E; reflexivity|]. intros l z zs c1 E1 HU.
  assert (WL : wf n s (base lc)) by (destruct W; constructor; cbn; auto).
  assert (M44 : Forall (made (powerRZ 2 (-44))) (spins (base lc))).
  { eapply Forall_impl; [|exact (new_made L conf d c HL E)]. intros v [H|H]; [left; apply (near_weak _ _ _ H); rewrite !pow_bpow; apply bpow_le; lia|right; exact H]. }
  destruct (lmoved_made L l n s (powerRZ 2 (-44)) HL Hn ltac:(lra) lc WL HU M44) as (sp & E1' & L1 & _).
  assert (c1 = lset lc sp) by congruence. subst c1.
  assert (W1 : wf n s (base (lset lc sp))) by (destruct WL; constructor; cbn; auto).
  assert (F0 : nfinite (F64 L) (lsigma (F64 L) (lset lc sp)) = false).
  { unfold lsigma. apply div_zero; change (vars (base (lset lc sp))) with (@vars f64 c); rewrite EV; assumption. }
  unfold lruns. cbn [foldM]. exact (f_equal (fun r => bind r _) (lupdate_nofinite (F64 L) n s (fst z) (snd z) (lset lc sp) W1 (mild_hs_ok c MD) F0)).
Qed.
