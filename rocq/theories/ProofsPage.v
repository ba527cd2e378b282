(** The lines of the default logs in binary64. *)
From Coq Require Import ZArith Reals List Lia Lra Psatz Bool Arith.
From Coq Require Import Floats.SpecFloat.
From Flocq Require Import Core.
From Verif Require Import Num Monad NumR NumF64 Spin Config Chain Fit Files Runs SpecVec SpecChain SpecToml SpecRuns SpecRound SpecClose SpecKeep SpecMC SpecMade SpecPage
  ProofsFlocq ProofsRound ProofsRound2 ProofsF64 ProofsChain ProofsSpin ProofsDyn ProofsTotal ProofsColumns ProofsMC ProofsMCR5 ProofsMCF64 ProofsHist2 ProofsClose ProofsClose3 ProofsClose4 ProofsClose6
  ProofsTiny ProofsKeep ProofsKeep2 ProofsKeep3 ProofsNew ProofsSized ProofsMade ProofsMade2 ProofsMade3 ProofsFrame ProofsSim ProofsLangRun.
Import ListNotations.
Local Open Scope R_scope.

(** * Sums without rounding up: bounds that are multiples of 2^-16 *)
Notation q16 := (bpow radix2 (-16)).
Definition fit (z : Z) (x : f64) : Prop := is_number x /\ Rabs (fval x) <= IZR z * q16.
Definition zok (z : Z) : Prop := (0 <= z < 2 ^ 53)%Z.
Lemma rnd_fit z r : zok z -> Rabs r <= IZR z * q16 -> Rabs (rnd r) <= IZR z * q16 /\ Rabs (rnd r) < fmax.
Proof.
  intros Hz Hr.
  assert (B : Rabs (rnd r) <= IZR z * q16).
  { assert (E : rnd (IZR z * q16) = IZR z * q16) by (apply (rnd_exact z (-16)); [unfold zok in Hz; lia|lia]).
    apply Rabs_le_inv in Hr. apply Rabs_le. split.
    - replace (- (IZR z * q16)) with (rnd (- (IZR z * q16))); [apply (round_le radix2 ffexp ZnearestE); lra|]. rewrite <- E at 2. apply round_NE_opp.
    - rewrite <- E. apply (round_le radix2 ffexp ZnearestE); lra. }
  split; [exact B|]. eapply Rle_lt_trans; [exact B|]. assert (F := IZR_lt_fmax z ltac:(unfold zok in Hz; lia)). rewrite Rabs_pos_eq in F by (apply IZR_le; apply Hz).
  eapply Rle_lt_trans; [|exact F]. rewrite <- (Rmult_1_r (IZR z)) at 2. apply Rmult_le_compat_l; [apply IZR_le; apply Hz|apply (bpow_le radix2 (-16) 0); lia].
Qed.
Lemma fit_add a b x y : zok (a + b) -> (0 <= a)%Z -> (0 <= b)%Z -> fit a x -> fit b y -> fit (a + b) (f_add x y).
Proof.
  intros Hz Ha Hb [Vx Bx] [Vy By]. assert (S : Rabs (fval x + fval y) <= IZR (a + b) * q16) by (rewrite plus_IZR, Rmult_plus_distr_r; eapply Rle_trans; [apply Rabs_triang|lra]).
  destruct (rnd_fit _ _ Hz S) as [B F]. destruct (add_val x y Vx Vy F) as [V E]. split; [exact V|rewrite E; exact B].
Qed.
Lemma fit_sub a b x y : zok (a + b) -> (0 <= a)%Z -> (0 <= b)%Z -> fit a x -> fit b y -> fit (a + b) (f_sub x y).
Proof.
  intros Hz Ha Hb [Vx Bx] [Vy By]. assert (S : Rabs (fval x - fval y) <= IZR (a + b) * q16).
  { rewrite plus_IZR, Rmult_plus_distr_r. unfold Rminus. eapply Rle_trans; [apply Rabs_triang|rewrite Rabs_Ropp; lra]. }
  destruct (rnd_fit _ _ Hz S) as [B F]. destruct (sub_val x y Vx Vy F) as [V E]. split; [exact V|rewrite E; exact B].
Qed.
Lemma fit_mul z A B x y : zok z -> is_number x -> is_number y -> Rabs (fval x) <= A -> Rabs (fval y) <= B -> A * B <= IZR z * q16 -> fit z (f_mul x y).
Proof.
  intros Hz Vx Vy Bx By H. assert (S : Rabs (fval x * fval y) <= IZR z * q16).
  { rewrite Rabs_mult. eapply Rle_trans; [|exact H]. apply Rmult_le_compat; auto using Rabs_pos. }
  destruct (rnd_fit _ _ Hz S) as [C F]. destruct (mul_val x y Vx Vy F) as [V E]. split; [exact V|rewrite E; exact C].
Qed.
Lemma fit_div k z x : zok z -> (0 < k < 2 ^ 53)%Z -> fit (k * z) x -> fit z (f_div x (f_ofZ k)).
Proof.
  intros Hz Hk [Vx Bx]. destruct (ofZ_val k ltac:(lia)) as [Vk Ek]. assert (P : 0 < IZR k) by (apply IZR_lt; lia).
  assert (S : Rabs (fval x / fval (f_ofZ k)) <= IZR z * q16).
  { rewrite Ek. unfold Rdiv. rewrite Rabs_mult, (Rabs_pos_eq (/ IZR k)) by (left; apply Rinv_0_lt_compat; exact P).
    apply (Rmult_le_reg_r (IZR k)); [exact P|]. rewrite Rmult_assoc, Rinv_l, Rmult_1_r by lra. rewrite mult_IZR in Bx. lra. }
  destruct (rnd_fit _ _ Hz S) as [C F]. destruct (div_val x (f_ofZ k) Vx Vk) as [V E]; [rewrite Ek; lra|exact F|]. split; [exact V|rewrite E; exact C].
Qed.
Lemma q16_val : q16 = 1 / 65536. Proof. cbn. lra. Qed.
Lemma fit_small z x B : fit z x -> IZR z / 65536 <= B -> small B x.
Proof. intros [V H] L. split; [exact V|]. rewrite value_fval. rewrite q16_val in H. lra. Qed.

(** * Sums over the chain *)
Lemma unit_comp v f : near_unit (powerRZ 2 (-44)) v -> In f [vx; vy; vz] -> is_number (f v) /\ Rabs (fval (f v)) <= 1 + 1 / 1000000.
Proof.
  intros [(V1 & V2 & V3) H] F. apply Rabs_le_inv in H. assert (P : powerRZ 2 (-44) <= 1 / 1000000) by (rewrite p44, u_val; lra).
  assert (K : forall a b c, a * a + b * b + c * c <= 1 + 1 / 1000000 -> Rabs a <= 1 + 1 / 1000000).
  { intros a b c Q. apply Rabs_le. split; nra. }
  unfold len2, dot, vvalue in H. cbn [vx vy vz] in H. rewrite !value_fval in H.
  destruct F as [<-|[<-|[<-|[]]]]; split; auto.
  - apply (K _ (fval (vy v)) (fval (vz v))); lra.
  - apply (K _ (fval (vx v)) (fval (vz v))); lra.
  - apply (K _ (fval (vx v)) (fval (vy v))); lra.
Qed.
Definition KB : Z := 1966089.
Lemma bond_fit L q e s1 j s2 h : (0 <= q)%Z -> zok (q + KB) -> fit q e -> near_unit (powerRZ 2 (-44)) s1 -> near_unit (powerRZ 2 (-44)) s2 ->
  is_vector j -> comp_le 2 j -> is_vector h -> comp_le 8 h -> fit (q + KB) (bond_field (F64 L) e s1 j s2 h).
Proof.
  intros Hq Hz He N1 N2 (J1 & J2 & J3) (j1 & j2 & j3) (H1 & H2 & H3) (h1 & h2 & h3). rewrite !value_fval in *. unfold zok, KB in *.
  assert (C : forall f q e, In f [vx; vy; vz] -> is_number (f j) -> Rabs (fval (f j)) <= 2 -> is_number (f h) -> Rabs (fval (f h)) <= 8 -> (0 <= q)%Z -> (q + 655363 < 2 ^ 53)%Z ->
    fit q e -> fit (q + 655363) (f_add (f_sub e (f_mul (f_mul (f s1) (f j)) (f s2))) (f_mul (f s1) (f h)))).
  { intros f q' e' If Vj Bj Vh Bh Hq' Hz' He'. destruct (unit_comp s1 f N1 If) as [V1 B1]. destruct (unit_comp s2 f N2 If) as [V2 B2].
    assert (P1 : fit (131073) (f_mul (f s1) (f j))) by (apply (fit_mul _ (1 + 1 / 1000000) 2); auto; [unfold zok; lia|rewrite q16_val; lra]).
    destruct P1 as [VP BP]. rewrite q16_val in BP.
    assert (P2 : fit 131074 (f_mul (f_mul (f s1) (f j)) (f s2))) by (apply (fit_mul _ (131073 * (1 / 65536)) (1 + 1 / 1000000)); auto; [unfold zok; lia|rewrite q16_val; lra]).
    assert (P3 : fit 524289 (f_mul (f s1) (f h))) by (apply (fit_mul _ (1 + 1 / 1000000) 8); auto; [unfold zok; lia|rewrite q16_val; lra]).
    replace (q' + 655363)%Z with ((q' + 131074) + 524289)%Z by lia. apply fit_add; [unfold zok; lia|lia|lia| |exact P3]. apply fit_sub; [unfold zok; lia|lia|lia|exact He'|exact P2]. }
  assert (A1 := C vx q e ltac:(cbn; auto) J1 j1 H1 h1 Hq ltac:(lia) He).
  assert (A2 := C vy (q + 655363)%Z _ ltac:(cbn; auto) J2 j2 H2 h2 ltac:(lia) ltac:(lia) A1).
  assert (A3 := C vz (q + 655363 + 655363)%Z _ ltac:(cbn; auto) J3 j3 H3 h3 ltac:(lia) ltac:(lia) A2).
  replace (q + 1966089)%Z with (q + 655363 + 655363 + 655363)%Z by lia. exact A3.
Qed.
Lemma fit0 : fit 0 (f_ofZ 0).
Proof. destruct (ofZ_val 0 ltac:(lia)) as [V E]. split; [exact V|]. rewrite E, Rabs_R0. lra. Qed.
Lemma sum_fit L l f : In f [vx; vy; vz] -> Forall (near_unit (powerRZ 2 (-44))) l -> (Z.of_nat (length l) < 2 ^ 31)%Z ->
  fit (Z.of_nat (length l) * 65537) (f (sum_spins (F64 L) l)).
Proof.
  intros If. unfold sum_spins. induction l as [|v l IH] using rev_ind; intros F B.
  - destruct If as [<-|[<-|[<-|[]]]]; exact fit0.
  - rewrite fold_left_app. cbn [fold_left]. apply Forall_app in F. destruct F as [F1 F2]. inversion F2 as [|? ? Hv _]; subst. rewrite app_length in *. cbn [length] in *.
    destruct (unit_comp v f Hv If) as [Vv Bv]. specialize (IH F1 ltac:(lia)).
    replace (Z.of_nat (length l + 1) * 65537)%Z with (Z.of_nat (length l) * 65537 + 65537)%Z by lia.
    assert (Q : fit 65537 (f v)) by (split; [exact Vv|rewrite q16_val; lra]).
    destruct If as [<-|[<-|[<-|[]]]]; (apply fit_add; [unfold zok; lia|lia|lia|exact IH|exact Q]).
Qed.
Section Sums.
Context (L : libm) (n s : nat) (c : chain f64) (h : nat -> v3 f64).
Context (W : wf n s c) (HN : forall p, (p < n)%nat -> near_unit (powerRZ 2 (-44)) (at3 (F64 L) (spins c) p)).
Context (HJ : forall p, (p < n)%nat -> is_vector (at3 (F64 L) (j_couple c) p) /\ comp_le 2 (at3 (F64 L) (j_couple c) p)).
Lemma i31 : (Z.of_nat n < 2 ^ 31)%Z. Proof. destruct W; assumption. Qed.
Lemma loop_fit k : (forall p, (p < k)%nat -> is_vector (h p) /\ comp_le 8 (h p)) -> (k < n)%nat -> fit (Z.of_nat k * KB) (loop_bf (F64 L) c h k).
Proof.
  intro Hh. pose proof i31. induction k as [|k IH]; intro Hk.
  - exact fit0.
  - unfold loop_bf in *. rewrite seq_S, fold_left_app. cbn [fold_left plus].
    destruct (HJ k ltac:(lia)). destruct (Hh k ltac:(lia)).
    replace (Z.of_nat (S k) * KB)%Z with (Z.of_nat k * KB + KB)%Z by (unfold KB; lia).
    apply bond_fit; auto; [unfold KB; lia|unfold zok, KB; lia|apply IH; [intros; apply Hh; lia|lia]|apply HN; lia|apply HN; lia].
Qed.
Lemma ring_fit : (forall p, (p < n)%nat -> is_vector (h p) /\ comp_le 8 (h p)) -> (1 <= n)%nat -> fit (Z.of_nat n * KB) (ring_bf (F64 L) c h n).
Proof.
  intros Hh Hn. pose proof i31. unfold ring_bf. destruct (HJ (n - 1)%nat ltac:(lia)). destruct (Hh (n - 1)%nat ltac:(lia)).
  replace (Z.of_nat n * KB)%Z with (Z.of_nat (n - 1) * KB + KB)%Z by (unfold KB; lia).
  apply bond_fit; auto; [unfold KB; lia|unfold zok, KB; lia|apply loop_fit; [intros; apply Hh; lia|lia]|apply HN; lia].
Qed.
End Sums.

Section Page.
Context (L : libm) (HL : accurate L) (n s : nat) (cF : chain f64).
Context (WF : wf n s cF) (Hn : (2 <= n)%nat) (Hs : (2 <= s)%nat) (Hm : rough_sites cF) (Hd : mild_drive cF).
Context (Hdt : plain_dt (c_dt (vars cF))) (Ht : forall i, sized 101 (tick cF i)).
Lemma page_line i sp : length sp = n -> Forall (made (powerRZ 2 (-44))) sp ->
  exists row, chain_log (F64 L) (at_step cF i sp) = Ok (if has_file cF then [row] else []) /\
    ((Forall (fun v => ~ lost v) sp /\ full_row row) \/ (~ Forall (fun v => ~ lost v) sp /\ nan_row row)).
Proof.
  intros Ls HM. set (F := (at_step cF i sp : chain (num (F64 L)))) in *.
  assert (W1 : wf n s F) by (destruct WF; constructor; cbn; auto).
  assert (Hh : hs_ok (vars F)) by exact (mild_hs_ok cF Hd).
  destruct (chain_log_ok (F64 L) n s F W1 Hh (quarter_F64 L) ltac:(lia)) as [ls E].
  destruct (watched_idx (F64 L) n s F (quarter_F64 L) W1 ltac:(lia)) as [Ea Eb].
  pose proof (wf_sub _ _ _ W1) as SUB. pose proof (wf_i32 _ _ _ W1) as I32.
  assert (E' := E). unfold chain_log in E'.
  rewrite (system_energy_pure (F64 L) n s F W1 ltac:(lia) Hh), (total_energy2_pure (F64 L) n s F W1 ltac:(lia) Hh), (m_pure (F64 L) n s F W1), (m_tot_pure (F64 L) n s F W1) in E'.
  cbn [bind] in E'. cbv zeta in E'. rewrite Ea, Eb in E'. cbn [bind] in E'. apply bind_ok in E'. destruct E' as (u & _ & E'). apply ok_inj in E'.
  set (h2 := fieldP (F64 L) F s (h_extP (F64 L) (vars F) (t F))) in *.
  set (h1 := fun i0 => sum_vec (F64 L) (at3 (F64 L) (static_h F) i0) (h_extP (F64 L) (vars F) (t F))) in *.
  rewrite (wf_hsize _ _ _ W1), (wf_ssize _ _ _ W1) in E'.
  match type of E' with (if _ then [?r] else []) = _ => set (row := r) in * end.
  exists row. split; [etransitivity; [exact E|]; f_equal; symmetry; exact E'|].
  assert (TN : is_number (t F)) by apply (Ht i).
  assert (LZ : hsize (vars F) = Z.of_nat n) by apply W1. assert (SZ : ssize (vars F) = Z.of_nat s) by apply W1.
  destruct (Classical_Prop.classic (Forall (fun v => ~ lost v) sp)) as [NL|KL]; [left|right].
  - split; [exact NL|].
    assert (NU : Forall (near_unit (powerRZ 2 (-44))) sp).
    { apply Forall_forall. intros v Hv. rewrite Forall_forall in HM, NL. destruct (HM v Hv) as [A|A]; [exact A|destruct (NL v Hv A)]. }
    assert (HN : forall p, (p < n)%nat -> near_unit (powerRZ 2 (-44)) (at3 (F64 L) (spins F) p)) by exact (proj1 (forall_at L n sp _ Ls) NU).
    assert (HJ : forall p, (p < n)%nat -> is_vector (at3 (F64 L) (j_couple F) p) /\ comp_le 2 (at3 (F64 L) (j_couple F) p)).
    { intros q Hq. destruct Hm as [HJ _]. rewrite Forall_forall in HJ. apply HJ. apply nth_In. destruct WF as [_ _ _ _ _ W6 _]. change (q < length (@j_couple f64 cF))%nat. lia. }
    assert (H2 : forall p, (p < n)%nat -> is_vector (h2 p) /\ comp_le 8 (h2 p)).
    { intros p Hp. exact (field_sized L n s cF (tick cF i) p HL WF Hm Hd (or_intror (sized_weak 101 102 _ (Ht i) ltac:(lia))) Hp). }
    assert (H1 : forall p, (p < s - 1)%nat -> is_vector (h1 p) /\ comp_le 8 (h1 p)).
    { intros p Hp. assert (Q : h2 p = h1 p) by (unfold h2, h1, fieldP; replace (p <? s)%nat with true by (symmetry; apply Nat.ltb_lt; lia); reflexivity). rewrite <- Q. apply H2. lia. }
    assert (R1 := ring_fit L n s F h2 W1 HN HJ H2 ltac:(lia)).
    assert (R2 := loop_fit L n s F h1 W1 HN HJ (s - 1) H1 ltac:(lia)).
    assert (D1 : fit KB (f_div (ring_bf (F64 L) F h2 n) (f_ofZ (Z.of_nat n)))) by (apply fit_div; [unfold zok, KB; lia|lia|exact R1]).
    assert (D2 : fit KB (f_div (loop_bf (F64 L) F h1 (s - 1)) (f_ofZ (Z.of_nat (s - 1))))) by (apply fit_div; [unfold zok, KB; lia|lia|exact R2]).
    assert (SM : forall k f, In f [vx; vy; vz] -> (1 <= k <= n)%nat -> fit 65537 (f_div (f (sum_spins (F64 L) (firstn k sp))) (f_ofZ (Z.of_nat k)))).
    { intros k f If Hk. apply fit_div; [unfold zok; lia|lia|]. replace k with (length (firstn k sp)) at 1 by (rewrite firstn_length; lia).
      apply sum_fit; [exact If|apply Forall_forall; intros v Hv; rewrite Forall_forall in NU; apply NU; rewrite <- (firstn_skipn k sp); apply in_or_app; left; exact Hv|rewrite firstn_length; lia]. }
    assert (B30 : forall x, fit KB x -> small (30 + 1 / 1024) x) by (intros x Hx; apply (fit_small KB); [exact Hx|unfold KB; lra]).
    assert (B1 : forall x, fit 65537 x -> small (1 + powerRZ 2 (-16)) x).
    { intros x Hx. apply (fit_small 65537); [exact Hx|]. rewrite pow_bpow, q16_val. lra. }
    unfold row.
    eexists _, _, _, _, _, _, _, (at3 (F64 L) sp (s / 4)), (at3 (F64 L) sp (3 * s / 4)). split; [reflexivity|]. split; [exact TN|]. split; [apply B30; exact D1|]. split; [apply B30; exact D2|].
    destruct (quarter_lt s ltac:(lia)). split; [|split; apply HN; lia].
    repeat apply Forall_cons; try apply Forall_nil; apply B1.
    + apply (SM s vx); [cbn; auto|lia].
    + apply (SM s vy); [cbn; auto|lia].
    + apply (SM s vz); [cbn; auto|lia].
    + apply (SM n vz); [cbn; auto|lia].
  - split; [exact KL|]. unfold nan_row, row.
    assert (EX : exists p, (p < n)%nat /\ lost (at3 (F64 L) sp p)).
    { apply Classical_Prop.NNPP. intro Q. apply KL. apply (forall_at L n sp _ Ls). intros p Hp K. apply Q. exists p. auto. }
    destruct EX as (p & Hp & K). assert (RN : ring_bf (F64 L) F h2 n = S754_nan) by exact (ring_nan L n s F h2 p W1 Hp K).
    eexists _, _. split; [|split; [exact TN|]]; [f_equal; f_equal; refine (eq_trans (f_equal (fun x => f_div x _) RN) _); reflexivity|reflexivity].
Qed.
End Page.

(** * Runs *)
Lemma sound_app a b : Forall full_row a -> sound_log b -> sound_log (a ++ b).
Proof. intros Fa (x & y & -> & Fx & Fy). exists (a ++ x), y. split; [rewrite app_assoc; reflexivity|]. split; [apply Forall_app; auto|exact Fy]. Qed.
Lemma sound_nan a b : Forall nan_row a -> Forall nan_row b -> sound_log (a ++ b).
Proof. intros Fa Fb. exists [], (a ++ b). split; [reflexivity|]. split; [constructor|apply Forall_app; auto]. Qed.
Lemma therm_samples L (d : nat -> mcdraw (F64 L)) k sc : thermalise (F64 L) d k sc = samples (F64 L) (map (fun j => (Plain, d j)) (seq 0 (Z.to_nat k))) sc.
Proof.
  unfold thermalise, samples. generalize 0%nat. generalize (Z.to_nat k). clear k. intro k. revert sc. induction k as [|k IH]; intros sc j; [reflexivity|].
  cbn [iterMi seq map foldM fst snd sample]. destruct (metropolis_update (F64 L) (d j) sc) as [c| |]; cbn [bind]; [apply IH|reflexivity|reflexivity].
Qed.
Section Loop.
Context (L : libm) (HL : accurate L) (n s : nat) (cF : chain f64).
Context (WF : wf n s cF) (Hn : (2 <= n)%nat) (Hs : (2 <= s)%nat) (Hm : rough_sites cF) (Hd : mild_drive cF).
Context (Hdt : plain_dt (c_dt (vars cF))) (Ht : forall i, sized 101 (tick cF i)).
Lemma page_loop tmax ts fuel : forall k i sp F out, length sp = n -> Forall (made (powerRZ 2 (-44))) sp ->
  time_loop (F64 L) (@t f64) tmax (sim_body (F64 L) (chain_log (F64 L)) ts) fuel k (at_step cF i sp) = Ok (F, out) ->
  sound_log out /\ (~ Forall (fun v => ~ lost v) sp -> Forall nan_row out).
Proof.
  induction fuel as [|fuel IH]; intros k i sp F out Ls HM E; cbn [time_loop] in E.
  - match type of E with (if ?b then _ else _) = _ => destruct b end; [discriminate|]. injection E as _ <-. split; [exists [], []; auto|constructor].
  - match type of E with (if ?b then _ else _) = _ => destruct b end; [|injection E as _ <-; split; [exists [], []; auto|constructor]].
    apply bind_ok in E. destruct E as ([F1 l] & E1 & E). apply bind_ok in E. destruct E as ([F2 l'] & E2 & E). injection E as _ <-.
    assert (E58 : forall v, made (powerRZ 2 (-44)) v -> made (1 / 8) v).
    { intros v [H|H]; [left; apply (near_weak _ _ _ H); rewrite p44, u_val; lra|right; exact H]. }
    assert (E45 : forall v, made (powerRZ 2 (-50)) v -> made (powerRZ 2 (-44)) v).
    { intros v [H|H]; [left; apply (near_weak _ _ _ H); rewrite !pow_bpow; apply bpow_le; lia|right; exact H]. }
    assert (HG := proj1 (forall_at L n sp _ Ls) HM).
    destruct (update_rough L HL n s cF WF Hn Hm Hd Hdt i sp Ls (fun p Hp => E58 _ (HG p Hp))) as (sp1 & EU & L1 & G1 & O1).
    assert (HM1 : Forall (made (powerRZ 2 (-44))) sp1).
    { apply (forall_at L n sp1 _ L1). intros p Hp. destruct (Nat.lt_ge_cases p (2 * (n / 2))) as [Hlt|Hge]; [apply E45, (G1 p Hlt)|rewrite O1 by exact Hge; apply HG, Hp]. }
    assert (K1 : ~ Forall (fun v => ~ lost v) sp -> ~ Forall (fun v => ~ lost v) sp1).
    { intros A B. apply A. apply (forall_at L n sp _ Ls). intros p Hp K. apply (proj1 (forall_at L n sp1 _ L1) B p Hp).
      destruct (Nat.lt_ge_cases p (2 * (n / 2))) as [Hlt|Hge]; [apply (G1 p Hlt), K|rewrite O1 by exact Hge; exact K]. }
    unfold sim_body in E1. apply bind_ok in E1. destruct E1 as (F1' & Eu & E1). apply bind_ok in E1. destruct E1 as (b & _ & E1). apply bind_ok in E1. destruct E1 as (l1 & El & E1).
    injection E1 as <- <-. assert (EQ : F1' = at_step cF (S i) sp1) by (assert (X := eq_trans (eq_sym Eu) EU); injection X as X; exact X). subst F1'.
    destruct (IH _ _ _ _ _ L1 HM1 E2) as [SO KO].
    destruct (page_line L HL n s cF WF Hn Hs Hm Hd Ht (S i) sp1 L1 HM1) as (row & ER & RC).
    assert (PR : (Forall (fun v => ~ lost v) sp1 /\ Forall full_row l1) \/ (~ Forall (fun v => ~ lost v) sp1 /\ Forall nan_row l1)).
    { destruct b; [|injection El as <-; destruct RC as [[A _]|[A _]]; [left|right]; split; auto].
      assert (X := eq_trans (eq_sym El) ER). injection X as ->. destruct RC as [[A B]|[A B]]; [left|right]; (split; [exact A|]); destruct (has_file cF); auto. }
    split.
    + destruct PR as [[_ P]|[K P]]; [apply sound_app; auto|apply sound_nan; auto].
    + intro K. apply K1 in K. destruct PR as [[A _]|[_ P]]; [destruct (K A)|]. apply Forall_app. auto.
Qed.
End Loop.

Lemma page_worker L conf d fuel c out : proper L -> mild_conf conf -> (2 <= ssize conf)%Z -> plain_run L d ->
  chain_new (F64 L) conf (dr_new d) = Ok c -> sim_worker (F64 L) (chain_log (F64 L)) fuel d c = Ok out ->
  sound_log out /\ (~ none_lost c -> Forall nan_row out) /\ (c_log conf = true -> out <> []).
Proof.
  intros HL HC S2 [HD HU] E0 E. destruct (new_mild L conf HC (dr_new d) HD) as (c' & E' & W & EV & MS & MD).
  assert (c' = c) by congruence. subst c'. clear E'. change (@vars f64 c = conf) in EV. set (n := Z.to_nat (hsize conf)) in *. set (s := Z.to_nat (ssize conf)) in *.
  assert (Hn : (2 <= n)%nat) by (unfold n; destruct HC; lia). assert (Hs : (2 <= s)%nat) by (unfold s; lia).
  assert (M44 : Forall (made (powerRZ 2 (-44))) (spins c)).
  { eapply Forall_impl; [|exact (new_made L conf (dr_new d) c HL E0)]. intros v [H|H]; [left; apply (near_weak _ _ _ H); rewrite !pow_bpow; apply bpow_le; lia|right; exact H]. }
  unfold sim_worker in E. rewrite therm_samples in E.
  match type of E with context [samples _ ?l _] => set (ll := l) in * end.
  assert (UU : Forall (fun kd => uniform_draw L (snd kd)) ll) by (unfold ll; rewrite Forall_map; apply Forall_forall; intros j _; apply HU).
  destruct (samples_made L ll n s (powerRZ 2 (-44)) HL Hn ltac:(lra) c W UU M44) as (sp & E1 & L1 & M1 & K1 & N1).
  assert (E' : bind (Ok (set_spins c sp)) (sim_run (F64 L) (chain_log (F64 L)) fuel) = Ok out) by exact (eq_trans (f_equal (fun r => bind r (sim_run (F64 L) (chain_log (F64 L)) fuel)) (eq_sym E1)) E). clear E. cbn [bind] in E'.
  set (cF := set_spins c sp : chain f64) in *.
  assert (W1 : wf n s cF) by (destruct W; constructor; cbn; auto).
  assert (Hdt : plain_dt (c_dt (vars cF))) by (change (plain_dt (c_dt (@vars f64 c))); rewrite EV; destruct HC as (_ & _ & _ & _ & _ & _ & _ & _ & _ & Q & _); exact Q).
  assert (Ht : forall i, sized 101 (tick cF i)).
  { assert (T0 : sized 100 (t c)).
    { assert (OK : conf_ok (F64 L) conf).
      { destruct HC as (Hh & Hss & Hj & Hv & Hl & Lf & Ff & Ls & Fs & _). split; [exact (conj (Z.le_trans 0 2 _ ltac:(lia) (proj1 Hh)) (proj2 Hh))|]. split; [apply (proj1 Hj)|]. split; [apply (proj1 Hv)|]. split; assumption. }
      destruct (chain_new_ok (F64 L) conf (dr_new d) OK) as (c2 & E2 & _ & _ & _ & ET & _ & _). assert (c2 = c) by congruence. subst c2.
      destruct HC as (_ & _ & _ & _ & _ & _ & _ & _ & _ & _ & _ & _ & _ & [Vr Br]). rewrite value_fval in Br. destruct (opp_val _ Vr) as [Vo Eo].
      assert (X : t c = SFopp (trel conf)) by exact ET. rewrite X. split; [exact Vo|]. rewrite Eo, Rabs_Ropp, <- pow_bpow. exact Br. }
    induction i as [|i IH]; [exact (sized_weak 100 101 _ T0 ltac:(lia))|]. exact (tick_step _ _ IH Hdt). }
  assert (NN : ~ none_lost c -> ~ Forall (fun v => ~ lost v) sp).
  { intros A B. apply A. assert (LS : length (spins c) = n) by apply (wf_spins _ _ _ W). apply (forall_at L n (spins c) _ LS). intros p Hp K.
    apply (proj1 (forall_at L n sp _ L1) B p Hp). unfold at3 in *. rewrite (nth_indep sp (z3 (F64 L)) none3) by exact (Nat.lt_le_trans _ _ _ Hp (Nat.eq_le_incl _ _ (eq_sym L1))).
    rewrite (nth_indep (spins c) (z3 (F64 L)) none3) in K by exact (Nat.lt_le_trans _ _ _ Hp (Nat.eq_le_incl _ _ (eq_sym LS))). rewrite K1; exact K. }
  unfold sim_run in E'. cbv zeta in E'. apply bind_ok in E'. destruct E' as (l0 & El & E'). apply bind_ok in E'. destruct E' as ([F l] & Et & E'). injection E' as <-.
  assert (A0 : cF = at_step cF 0 sp) by (unfold cF; reflexivity).
  destruct (page_loop L (proj1 HL) n s cF W1 Hn Hs MS MD Hdt Ht _ _ fuel 0 0 sp F l L1 M1 Et) as [SO KO].
  destruct (page_line L (proj1 HL) n s cF W1 Hn Hs MS MD Ht 0 sp L1 M1) as (row & ER & RC).
  assert (X := eq_trans (eq_sym El) ER). injection X as ->.
  assert (FI : forall P : list f64 -> Prop, P row -> Forall P (if has_file cF then [row] else [])) by (intros P HP; destruct (has_file cF); repeat constructor; exact HP).
  assert (NE : c_log conf = true -> (if has_file cF then [row] else []) ++ l <> []).
  { intro CL. assert (HF : has_file cF = true).
    { assert (EC := E0). unfold chain_new in EC. cbv zeta in EC. repeat (apply bind_ok in EC; destruct EC as (? & _ & EC)). injection EC as <-. exact CL. }
    rewrite HF. discriminate. }
  destruct RC as [[A B]|[A B]].
  - split; [exact (sound_app _ _ (FI _ B) SO)|]. split; [|exact NE]. intro K. destruct (NN K A).
  - split; [exact (sound_nan _ _ (FI _ B) (KO A))|]. split; [|exact NE]. intros _. apply Forall_app. split; [exact (FI _ B)|exact (KO A)].
Qed.

(** * The mode *)
Lemma page_files L fuel rg (conf : config f64) f conf' f' : proper L -> mild_conf conf -> (2 <= ssize conf)%Z -> (forall i, plain_run L (r_draws (F64 L) rg i)) -> c_log conf = true ->
  in_range conf -> (0 <= runs conf)%Z -> run_sim (F64 L) fuel rg conf f = Ok (conf', f') ->
  forall i, (i < Z.to_nat (runs conf))%nat -> exists rows, contents f' (log_name (c_file conf) (Z.to_nat (offset conf) + i)) = Some (map numbers rows) /\ sound_log rows /\ rows <> [].
Proof.
  intros HL HC S2 HD CL IR R0 E i Hi. apply run_frame_wrote in E. destruct E as ((lss & F2 & W) & _).
  assert (W' := W : wrote f f' (if c_log (conf : config f64) then _ else [])). rewrite CL in W'. destruct W' as [W1 _]. clear W.
  assert (NR : num_runs (F64 L) conf = Z.to_nat (runs conf)) by exact (proj1 (num_runs_small (F64 L) conf IR R0)).
  assert (LL := F2_length _ _ _ F2). rewrite seq_length in LL.
  destruct (nth_error lss i) as [ls|] eqn:EN; [|apply nth_error_None in EN; lia].
  destruct (F2_nth _ _ _ F2 i ls EN) as (sc & out & E1 & E2 & ->).
  destruct (page_worker L conf (r_draws (F64 L) rg i) fuel sc out HL HC S2 (HD i) E1 E2) as (SO & _ & NE).
  exists out. split; [|auto]. apply W1. exact (logs_in _ _ _ _ _ EN).
Qed.
Lemma line64 L n s (F : chain f64) : accurate L -> wf n s F -> (2 <= n)%nat -> (2 <= s)%nat -> rough_sites F -> mild_drive F -> plain_dt (c_dt (vars F)) ->
  small (powerRZ 2 100) (t F) -> Forall (made (powerRZ 2 (-44))) (spins F) ->
  exists row, chain_log (F64 L) F = Ok (if has_file F then [row] else []) /\ ((none_lost F /\ full_row row) \/ (~ none_lost F /\ nan_row row)).
Proof.
  intros HL W Hn Hs Hm Hd Hdt [Vt Bt] HM.
  assert (Ht : forall i, sized 101 (tick F i)).
  { induction i as [|i IH]; [|exact (tick_step _ _ IH Hdt)]. split; [exact Vt|]. cbn [tick Nat.iter nat_rect]. rewrite <- value_fval. eapply Rle_trans; [exact Bt|]. rewrite pow_bpow. apply bpow_le. lia. }
  destruct (page_line L HL n s F W Hn Hs Hm Hd Ht 0 (spins F) (wf_spins _ _ _ W) HM) as (row & E & C). rewrite at_step0 in E. exists row. auto.
Qed.
