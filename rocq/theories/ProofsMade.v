(** Binary64 steps of chains whose spins are only roughly unit vectors. *)
From Coq Require Import ZArith Reals List Lia Lra Psatz Bool Arith.
From Coq Require Import Floats.SpecFloat.
From Flocq Require Import Core.
From Verif Require Import Num Monad NumR NumF64 Spin Config Chain SpecVec SpecChain SpecRound SpecClose SpecKeep SpecMC SpecMade
  ProofsFlocq ProofsRound ProofsRound2 ProofsF64 ProofsChain ProofsSpin ProofsEnergy ProofsDrive ProofsOrder ProofsOrder2 ProofsOrder3 ProofsDyn ProofsDynR ProofsDyn2
  ProofsTurn ProofsClose ProofsClose2 ProofsClose3 ProofsClose4 ProofsClose5 ProofsClose6 ProofsTiny ProofsKeep ProofsKeep2 ProofsSized.
Import ListNotations.
Local Open Scope R_scope.

Lemma sq_app_lo x r h : app x r h -> 0 <= h <= / 100000 -> Rabs r <= 11 / 10 -> r * r - / 1000 <= fval x * fval x <= r * r + / 1000.
Proof.
  intros [_ H] Hh Hr. apply Rabs_le_inv in H. apply Rabs_le_inv in Hr. nra.
Qed.

Lemma rotate_tiny_rough L s field dt : accurate L -> near_unit (1 / 8) s -> is_vector field -> len2 field <= powerRZ 2 (-900) -> is_number dt ->
  Rabs (value dt) <= 1 ->
  near_unit (powerRZ 2 (-50)) (rotate (F64 L) s field dt) \/ rotate (F64 L) s field dt = nan3f.
Proof.
  intros HL HN Hf Hl Vdt Hdt. rewrite value_fval in Hdt. destruct (near_comp s HN) as (B1 & B2 & B3). rewrite !value_fval in B1, B2, B3.
  destruct HN as ((Vs1 & Vs2 & Vs3) & Hs).
  destruct (tiny_dir L field Hf Hl) as (n & En & Vn & Bn & D). assert (U := u_val).
  destruct D as [(N1 & N2 & N3)|(F1 & F2 & F3)].
  - right. set (f := mk3 (f_div (vx field) n) (f_div (vy field) n) (f_div (vz field) n)).
    destruct (unnorm_nonfin s f (l_cos L (f_mul n dt)) (l_sin L (f_mul n dt)) N1 N2 N3) as (W1 & W2 & W3). cbv zeta in W1, W2, W3.
    set (w := unnorm s f (l_cos L (f_mul n dt)) (l_sin L (f_mul n dt))) in *.
    rewrite (rotate_unnorm L s field dt n _ En eq_refl). fold f. fold w.
    assert (Q : nonfin (nsqrt (F64 L) (sum_sq (F64 L) [vx w; vy w; vz w]))).
    { cbn [nsqrt F64]. apply sqrt_nonfin. unfold sum_sq; cbn [fold_left nadd nmul nofZ F64]. apply add_nonfin. right. apply mul_nonfin. left. exact W3. }
    rewrite !div_nonfin by assumption. reflexivity.
  - left.
    assert (Bd : Rabs (fval n * fval dt) <= bpow radix2 (-400)).
    { rewrite Rabs_mult, (Rabs_pos_eq (fval n)) by lra. rewrite <- (Rmult_1_r (bpow radix2 (-400))). apply Rmult_le_compat; try lra. apply Rabs_pos. }
    destruct (mul_val n dt Vn Vdt) as [Vd Ed].
    { apply fmax_big. eapply Rle_trans; [exact Bd|]. apply bpow_le. lia. }
    assert (P400 : bpow radix2 (-400) <= / 1000 * u).
    { rewrite U. apply Rle_trans with (bpow radix2 (-70)); [apply bpow_le; lia|cbn; lra]. }
    assert (Da : Rabs (fval (f_mul n dt)) <= / 100 * u).
    { rewrite Ed. pose proof (rnd_err (fval n * fval dt)) as Er. pose proof (Rabs_triang (rnd (fval n * fval dt) - fval n * fval dt) (fval n * fval dt)) as T.
      replace (rnd (fval n * fval dt) - fval n * fval dt + fval n * fval dt) with (rnd (fval n * fval dt)) in T by ring. pose proof eta_u. rewrite U in *. lra. }
    destruct (HL _ Vd) as (Vc & Vsn & Hc & Hsn & Ec & Es). rewrite u50, !value_fval in Ec, Es.
    set (dc := l_cos L (f_mul n dt)) in *. set (ds := l_sin L (f_mul n dt)) in *.
    assert (E32 : ee = 32 * u) by (rewrite ee_val, U; lra).
    assert (Ac : app dc 1 (ee / 2)).
    { split; [exact Vc|]. pose proof (cos_lip (fval (f_mul n dt)) 0) as C. rewrite cos_0, Rminus_0_r in C.
      replace (fval dc - 1) with ((fval dc - cos (fval (f_mul n dt))) + (cos (fval (f_mul n dt)) - 1)) by ring.
      eapply Rle_trans; [apply Rabs_triang|]. rewrite E32, U in *. lra. }
    assert (As : app ds 0 (ee / 2)).
    { split; [exact Vsn|]. pose proof (sin_lip (fval (f_mul n dt)) 0) as C. rewrite sin_0, !Rminus_0_r in C.
      replace (fval ds - 0) with ((fval ds - sin (fval (f_mul n dt))) + sin (fval (f_mul n dt))) by ring.
      eapply Rle_trans; [apply Rabs_triang|]. rewrite E32, U in *. lra. }
    pose (CA := still_comp (vx s) (vy s) (vz s) _ _ _ dc ds Vs1 Vs2 Vs3 F1 F2 F3 Ac As B1 B2 B3).
    pose (w := unnorm s (mk3 (f_div (vx field) n) (f_div (vy field) n) (f_div (vz field) n)) dc ds).
    assert (Hh : 0 <= 20 * ee <= / 100000) by (rewrite ee_val; lra).
    assert (A1 : app (vx w) (fval (vx s)) (20 * ee)) by (apply CA; auto).
    assert (A2 : app (vy w) (fval (vy s)) (20 * ee)) by (apply CA; auto).
    assert (A3 : app (vz w) (fval (vz s)) (20 * ee)) by (apply CA; auto).
    pose proof (sq_app_lo _ _ _ A1 Hh B1) as Q1. pose proof (sq_app_lo _ _ _ A2 Hh B2) as Q2. pose proof (sq_app_lo _ _ _ A3 Hh B3) as Q3.
    rewrite len2_fval in Hs. apply Rabs_le_inv in Hs.
    assert (QW : 1 / 4 <= fval (vx w) * fval (vx w) + fval (vy w) * fval (vy w) + fval (vz w) * fval (vz w) <= 256) by (split; lra).
    destruct (normalised L (vx w) (vy w) (vz w) (proj1 A1) (proj1 A2) (proj1 A3)) as (m & Vm & Em & Pm & _ & U1 & U2 & U3 & Bm).
    { eapply Rle_trans; [|exact (proj1 QW)]. apply Rle_trans with (bpow radix2 (-2)); [apply bpow_le; lia|cbn; lra]. }
    { eapply Rle_trans; [exact (proj2 QW)|]. apply Rle_trans with (bpow radix2 8); [cbn; lra|apply bpow_le; lia]. }
    pose proof (rotate_unnorm L s field dt n m En Em) as Rt. rewrite Rt.
    split; [split; [exact U1|split; [exact U2|exact U3]]|]. rewrite len2_fval, u50.
    assert (X : forall r, 1 - 8 * u <= r <= 1 + 8 * u -> Rabs (r - 1) <= 8 * u) by (intros r Hr; apply Rabs_le; lra).
    apply X. exact Bm.
Qed.
Lemma rotate_rough L s field dt : accurate L -> near_unit (1 / 8) s -> is_vector field -> len2 field <= powerRZ 2 900 -> is_number dt ->
  Rabs (value dt) <= 1 ->
  near_unit (powerRZ 2 (-50)) (rotate (F64 L) s field dt) \/ rotate (F64 L) s field dt = nan3f.
Proof.
  intros HL HS Hf Hl Vdt Hdt. destruct (Rle_dec (powerRZ 2 (-900)) (len2 field)) as [H|H].
  - left. apply rotate_near; auto. { exact (accurate_sane L HL). } { exact (conj Hf (conj H Hl)). }
    eapply Rle_trans; [exact Hdt|]. rewrite pow_bpow. apply (bpow_le radix2 0 500). lia.
  - apply rotate_tiny_rough; auto. lra.
Qed.

Lemma r14 v : comp_le 14 v -> len2 v <= powerRZ 2 900.
Proof.
  intros (A & B & C). unfold len2, dot, vvalue; cbn [vx vy vz]. rewrite pow_bpow.
  assert (Q : forall r, Rabs r <= 14 -> r * r <= 196) by (intros r Hr; apply Rabs_le_inv in Hr; nra).
  pose proof (Q _ A). pose proof (Q _ B). pose proof (Q _ C). apply Rle_trans with (bpow radix2 10); [cbn; lra|apply bpow_le; lia].
Qed.
Lemma r_off L M J h b x S p : (p mod 2 <> b)%nat -> stageF (F64 L) M b J h x S p = S p.
Proof.
  intro H. unfold stageF. destruct (onsub M b p) eqn:E; [|reflexivity]. exfalso. apply onsub_spec in E. destruct E as [_ E]. exact (H E).
Qed.
Lemma r_on L M J h b x S p : (p < M)%nat -> (p mod 2 = b)%nat -> stageF (F64 L) M b J h x S p = rotate (F64 L) (S p) (omF (F64 L) M S J h p) x.
Proof.
  intros Hp H. unfold stageF. destruct (onsub M b p) eqn:E; [reflexivity|]. assert (onsub M b p = true) by (apply onsub_spec; auto). congruence.
Qed.
Lemma om_comp_rough jl sl jr sr h : is_number jl -> is_number sl -> is_number jr -> is_number sr -> is_number h ->
  Rabs (value jl) <= 2 -> Rabs (value jr) <= 2 -> Rabs (value sl) <= 11 / 10 -> Rabs (value sr) <= 11 / 10 -> Rabs (value h) <= 9 ->
  let w := f_sub (f_add (f_mul jl sl) (f_mul jr sr)) h in is_number w /\ Rabs (value w) <= 14.
Proof.
  rewrite !value_fval. intros V1 V2 V3 V4 V5 B1 B2 B3 B4 B5. cbv zeta. pose proof ee_small as E.
  assert (P1 : app (f_mul jl sl) (fval jl * fval sl) ee) by (apply (app_mul _ _ _ _ 0 0 2 (11 / 10)); auto using app_exact; lra).
  assert (P2 : app (f_mul jr sr) (fval jr * fval sr) ee) by (apply (app_mul _ _ _ _ 0 0 2 (11 / 10)); auto using app_exact; lra).
  assert (Q1 := mul_bound _ _ _ _ B1 B3). assert (Q2 := mul_bound _ _ _ _ B2 B4).
  assert (A := app_add _ _ _ _ _ _ P1 P2 ltac:(lra)).
  pose proof (Rabs_triang (fval jl * fval sl) (fval jr * fval sr)) as T.
  assert (D := app_sub _ _ _ _ _ _ A (app_exact h V5) ltac:(lra)).
  split; [apply D|]. destruct D as [_ D]. rewrite value_fval.
  set (w := fval (f_sub _ h)) in *. set (q := fval jl * fval sl + fval jr * fval sr) in *.
  assert (D' : - / 10 <= w - (q - fval h) <= / 10) by (apply Rabs_le_inv; lra).
  assert (Q : -44 / 10 <= q <= 44 / 10) by (unfold Rabs in T at 1; destruct (Rcase_abs q); lra).
  clearbody w q. clear - D' Q B5. apply Rabs_le_inv in B5. apply Rabs_le. lra.
Qed.
Section Step.
Context (L : libm) (HL : accurate L) (M : nat) (J h : nat -> v3 f64).
Context (HJ : forall p, (p < M)%nat -> is_vector (J p) /\ comp_le 2 (J p)).
Context (Hh : forall p, (p < M)%nat -> is_vector (h p) /\ comp_le 9 (h p)).
Context (Hev : (M mod 2 = 0)%nat) (H1 : (1 <= M)%nat).
Notation rough S := (forall p, (p < M)%nat -> made (1 / 8) (S p)).

Lemma field_rough S p : (p < M)%nat -> near_unit (1 / 8) (S (lft M p)) -> near_unit (1 / 8) (S (rgt M p)) ->
  is_vector (omF (F64 L) M S J h p) /\ comp_le 14 (omF (F64 L) M S J h p).
Proof.
  intros Hp NL NR. pose proof (lft_lt M p Hp) as Ll.
  destruct (HJ _ Ll) as ((Jx & Jy & Jz) & (Bx & By & Bz)). destruct (HJ _ Hp) as ((Kx & Ky & Kz) & (Cx & Cy & Cz)).
  destruct (Hh _ Hp) as ((hx & hy & hz) & (Dx & Dy & Dz)).
  destruct (near_comp _ NL) as (Sx & Sy & Sz). destruct (near_comp _ NR) as (Tx & Ty & Tz).
  destruct NL as ((Vx & Vy & Vz) & _). destruct NR as ((Wx & Wy & Wz) & _).
  unfold omF, ssh_sum, j_s; cbn [vx vy vz nadd nsub nmul F64].
  destruct (om_comp_rough (vx (J (lft M p))) (vx (S (lft M p))) (vx (J p)) (vx (S (rgt M p))) (vx (h p))) as (A1 & A2); auto.
  destruct (om_comp_rough (vy (J (lft M p))) (vy (S (lft M p))) (vy (J p)) (vy (S (rgt M p))) (vy (h p))) as (A4 & A5); auto.
  destruct (om_comp_rough (vz (J (lft M p))) (vz (S (lft M p))) (vz (J p)) (vz (S (rgt M p))) (vz (h p))) as (A7 & A8); auto.
  split; [split; [exact A1|split; [exact A4|exact A7]]|split; [exact A2|split; [exact A5|exact A8]]].
Qed.

Lemma stage_rough b x S : (b < 2)%nat -> is_number x -> 0 <= value x <= 1 -> rough S ->
  forall p, (p < M)%nat ->
  (p mod 2 = b -> made (powerRZ 2 (-50)) (stageF (F64 L) M b J h x S p) /\ (lost (S p) -> lost (stageF (F64 L) M b J h x S p)))%nat /\
  (p mod 2 <> b -> stageF (F64 L) M b J h x S p = S p)%nat.
Proof.
  intros Hb Vx Bx HS p Hp. split; [|apply r_off]. intro E. rewrite r_on by assumption.
  pose proof (lft_lt M p Hp) as Ll. pose proof (rgt_lt M p Hp) as Lr.
  destruct (HS p Hp) as [Np|Lp]; [|rewrite (rotate_F64_nan_spin L _ _ _ Lp); split; [right|intros _]; exact lost_3f].
  split; [|intro K; destruct (near_lost _ _ Np K)].
  destruct (HS _ Ll) as [Nl|Ls]; [|right; rewrite rotate_lost_field; [exact lost_3f|apply omF_lost; left; exact Ls]].
  destruct (HS _ Lr) as [Nr|Ls]; [|right; rewrite rotate_lost_field; [exact lost_3f|apply omF_lost; right; exact Ls]].
  destruct (field_rough S p Hp Nl Nr) as (V & C). pose proof (r14 _ C) as L9.
  destruct (rotate_rough L (S p) (omF (F64 L) M S J h p) x HL Np V L9 Vx) as [A|A].
  - rewrite Rabs_pos_eq; lra.
  - left. exact A.
  - right. rewrite A. exact lost_3f.
Qed.
Lemma made_weak v : made (powerRZ 2 (-50)) v -> made (1 / 8) v.
Proof. intros [H|H]; [left; exact (near_weak _ _ _ H eps_small)|right; exact H]. Qed.
Lemma trot_rough x2 x S : is_number x -> is_number x2 -> value x2 = value x / 2 -> 0 <= value x <= 1 -> rough S ->
  forall p, (p < M)%nat -> made (powerRZ 2 (-50)) (trotF (F64 L) M J h x2 x S p) /\ (lost (S p) -> lost (trotF (F64 L) M J h x2 x S p)).
Proof.
  intros Vx V2 E2 Bx HS. unfold trotF.
  pose proof (stage_rough 0 x2 S ltac:(lia) V2 ltac:(lra) HS) as G1. set (S1 := stageF (F64 L) M 0 J h x2 S) in *.
  assert (R1 : rough S1).
  { intros p Hp. destruct (G1 p Hp) as [A B]. destruct (Nat.eq_dec (p mod 2) 0) as [E|E]; [apply made_weak, A, E|rewrite B by exact E; apply HS, Hp]. }
  pose proof (stage_rough 1 x S1 ltac:(lia) Vx ltac:(lra) R1) as G2. set (S2 := stageF (F64 L) M 1 J h x S1) in *.
  assert (R2 : rough S2).
  { intros p Hp. destruct (G2 p Hp) as [A B]. destruct (Nat.eq_dec (p mod 2) 1) as [E|E]; [apply made_weak, A, E|rewrite B by exact E; apply R1, Hp]. }
  pose proof (stage_rough 0 x2 S2 ltac:(lia) V2 ltac:(lra) R2) as G3. set (S3 := stageF (F64 L) M 0 J h x2 S2) in *.
  intros p Hp. destruct (G1 p Hp) as [A1 B1]. destruct (G2 p Hp) as [A2 B2]. destruct (G3 p Hp) as [A3 B3].
  pose proof (Nat.mod_upper_bound p 2 ltac:(lia)).
  destruct (Nat.eq_dec (p mod 2) 0) as [E|E].
  - destruct (A1 E) as [_ K1]. destruct (A3 E) as [M3 K3]. split; [exact M3|]. intro K. apply K3. rewrite B2 by lia. auto.
  - assert (E1 : (p mod 2 = 1)%nat) by lia. destruct (A2 E1) as [M2 K2]. rewrite B3 by lia. split; [exact M2|]. intro K. apply K2. rewrite B1 by lia. exact K.
Qed.
End Step.

(** one step of a chain, at any time *)
Section Run.
Context (L : libm) (HL : accurate L) (n s : nat) (cF : chain f64).
Context (WF : wf n s cF) (Hn : (2 <= n)%nat) (Hm : rough_sites cF) (Hd : mild_drive cF).
Context (Hdt : plain_dt (c_dt (vars cF))).
Notation at3F sp p := (at3 (F64 L) sp p).
Notation M := (2 * (n / 2))%nat.

Lemma update_rough i sp : length sp = n -> (forall p, (p < n)%nat -> made (1 / 8) (at3F sp p)) ->
  exists sp', update (F64 L) (at_step cF i sp) = Ok (at_step cF (S i) sp') /\ length sp' = n /\
    (forall p, (p < M)%nat -> made (powerRZ 2 (-50)) (at3F sp' p) /\ (lost (at3F sp p) -> lost (at3F sp' p))) /\
    (forall p, (M <= p)%nat -> at3F sp' p = at3F sp p).
Proof.
  intros Ls HG.
  assert (W1 : wf n s (at_step cF i sp)) by (destruct WF; constructor; cbn; auto).
  destruct (update_pure (F64 L) n s (at_step cF i sp) W1 Hn (mild_hs_ok cF Hd)) as (sp' & Eu & Len & A). exists sp'.
  split; [exact Eu|]. split; [exact Len|].
  assert (ML : (M <= n)%nat) by (pose proof (Nat.div_mod n 2 ltac:(lia)); lia).
  assert (ME : (M mod 2 = 0)%nat) by (rewrite Nat.mul_comm; apply Nat.mod_mul; lia).
  assert (M1 : (1 <= M)%nat) by (pose proof (Nat.div_le_mono 2 n 2 ltac:(lia) Hn); cbn in *; lia).
  destruct (half_exact _ Hdt) as [V2 E2]. destruct (Hdt) as (Vd & _). pose proof (dt01 cF Hdt) as R1.
  change (fieldF (F64 L) (at_step cF i sp) s (h_extP (F64 L) (vars (at_step cF i sp)) (nadd (F64 L) (t (at_step cF i sp)) (ndiv (F64 L) (c_dt (vars (at_step cF i sp))) (nofZ (F64 L) 2)))))
    with (fieldsF L s cF i) in A.
  change (forall p, at3F sp' p = trotF (F64 L) M (at3 (F64 L) (j_couple cF)) (fieldsF L s cF i) (f_div (c_dt (vars cF)) (f_ofZ 2)) (c_dt (vars cF)) (at3 (F64 L) sp) p) in A.
  split.
  - intros p Hp. rewrite A.
    apply (trot_rough L HL M (at3 (F64 L) (j_couple cF)) (fieldsF L s cF i)); auto; try lra.
    + intros q Hq. destruct Hm as [HJ _]. rewrite Forall_forall in HJ. apply HJ. apply nth_In. destruct WF as [_ _ _ _ _ W6 _]. change (q < length (@j_couple f64 cF))%nat. lia.
    + intros q Hq. assert (X : steady cF \/ sized 102 (f_add (tick cF i) (f_div (c_dt (vars cF)) (f_ofZ 2)))).
      { destruct (tick_sized cF Hd Hdt i) as [St|T]; [left; exact St|right]. apply (sz_add 101); [lia|exact T|].
        split; [exact V2|]. rewrite <- value_fval, E2. apply Rle_trans with (bpow radix2 0); [rewrite Rabs_pos_eq; cbn; lra|apply bpow_le; lia]. }
      destruct (field_sized L n s cF _ q HL WF Hm Hd X ltac:(lia)) as [B1 (B2 & B3 & B4)]. split; [exact B1|]. split; [|split]; (eapply Rle_trans; [eassumption|lra]).
    + intros q Hq. apply HG. lia.
  - intros p Hp. rewrite A. apply (trotF_out (F64 L)); exact Hp.
Qed.
Lemma updates_rough e sp : powerRZ 2 (-50) <= e <= 1 / 8 -> length sp = n -> (forall p, (p < n)%nat -> made e (at3F sp p)) -> forall i,
  exists sp', iterM (update (F64 L)) i (at_step cF 0 sp) = Ok (at_step cF i sp') /\ length sp' = n /\
    (forall p, (p < n)%nat -> made e (at3F sp' p) /\ (lost (at3F sp p) -> lost (at3F sp' p))) /\
    (1 <= i -> forall p, p < M -> made (powerRZ 2 (-50)) (at3F sp' p))%nat.
Proof.
  intros He Ls HG.
  assert (E8 : forall v, made e v -> made (1 / 8) v) by (intros v [H|H]; [left; exact (near_weak _ _ _ H (proj2 He))|right; exact H]).
  assert (E5 : forall v, made (powerRZ 2 (-50)) v -> made e v) by (intros v [H|H]; [left; exact (near_weak _ _ _ H (proj1 He))|right; exact H]).
  induction i as [|i IH].
  - exists sp. split; [reflexivity|]. split; [exact Ls|]. split; [|lia]. intros p Hp. split; [exact (HG p Hp)|auto].
  - destruct IH as (sp1 & E1 & L1 & G1 & _).
    destruct (update_rough i sp1 L1 (fun p Hp => E8 _ (proj1 (G1 p Hp)))) as (sp2 & E2 & L2 & G2 & O2).
    exists sp2. split; [rewrite iterM_snoc, E1; cbn [bind]; exact E2|]. split; [exact L2|]. split.
    + intros p Hp. destruct (Nat.lt_ge_cases p M) as [Hlt|Hge].
      * destruct (G2 p Hlt) as [A B]. split; [apply E5; exact A|]. intro K. apply B. apply (G1 p Hp). exact K.
      * rewrite O2 by exact Hge. exact (G1 p Hp).
    + intros _ p Hp. apply (G2 p Hp).
Qed.
End Run.
