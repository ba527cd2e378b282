(** The lines of mc_live.dat in binary64. *)
From Coq Require Import String ZArith Reals List Lia Lra Psatz Bool Arith.
From Coq Require Import Floats.SpecFloat.
From Flocq Require Import Core.
From Verif Require Import Num Monad NumR NumF64 Spin Config Chain Fit Files Runs SpecVec SpecChain SpecToml SpecRuns SpecRound SpecClose SpecKeep SpecMC SpecMade SpecPage SpecReport SpecTally
  ProofsFlocq ProofsRound ProofsRound2 ProofsF64 ProofsChain ProofsSpin ProofsDyn ProofsTotal ProofsColumns ProofsMC ProofsMCR5 ProofsMCF64 ProofsHist2 ProofsClose ProofsClose3 ProofsClose4 ProofsClose6
  ProofsTiny ProofsKeep ProofsKeep2 ProofsKeep3 ProofsNew ProofsSized ProofsMade ProofsMade2 ProofsMade3 ProofsDir ProofsNames ProofsFrame ProofsSim ProofsWriters ProofsReport ProofsReport2 ProofsLive ProofsPage.
Import ListNotations.
Local Open Scope R_scope.
Local Open Scope list_scope.

Lemma tally_line L n s (F : chain (num (F64 L))) : accurate L -> wf n s F -> (1 <= n)%nat -> (1 <= s)%nat -> rough_sites F -> mild_drive F -> small (powerRZ 2 100) (t F) ->
  Forall (made (powerRZ 2 (-44))) (spins F) -> exists ln, mc_line (F64 L) F = Ok ln /\ tallied F [ln].
Proof.
  intros HL W Hn Hs Hm Hd [Vt Bt] HM.
  assert (Hh : hs_ok (vars F)) by exact (mild_hs_ok F Hd).
  assert (X : steady F \/ sized 102 (t F)).
  { right. split; [exact Vt|]. rewrite <- value_fval. eapply Rle_trans; [exact Bt|]. rewrite pow_bpow. apply bpow_le. lia. }
  destruct (watched_idx (F64 L) n s F (quarter_F64 L) W ltac:(lia)) as [Ea Eb].
  pose proof (wf_sub _ _ _ W) as SUB. pose proof (wf_i32 _ _ _ W) as I32.
  assert (Ls : length (spins F) = n) by apply (wf_spins _ _ _ W).
  assert (ES : as_usize (ssize (vars F)) = s) by exact (wf_s W).
  set (h2 := fieldP (F64 L) F s (h_extP (F64 L) (vars F) (t F))) in *.
  assert (E : mc_line (F64 L) F = Ok (numbers [f_div (ring_bf (F64 L) F h2 n) (f_ofZ (Z.of_nat n)); f_div (ring_bf (F64 L) F (at3 (F64 L) (static_h F)) s) (f_ofZ (Z.of_nat s));
     f_div (vx (sum_spins (F64 L) (firstn s (spins F)))) (f_ofZ (Z.of_nat s)); f_div (vy (sum_spins (F64 L) (firstn s (spins F)))) (f_ofZ (Z.of_nat s));
     f_div (vz (sum_spins (F64 L) (firstn s (spins F)))) (f_ofZ (Z.of_nat s));
     vx (at3 (F64 L) (spins F) (s / 4)); vy (at3 (F64 L) (spins F) (s / 4)); vz (at3 (F64 L) (spins F) (s / 4));
     vx (at3 (F64 L) (spins F) (3 * s / 4)); vy (at3 (F64 L) (spins F) (3 * s / 4)); vz (at3 (F64 L) (spins F) (3 * s / 4))])).
  { unfold mc_line, mc_system_energy. rewrite (m_pure (F64 L) n s F W), (m_tot_pure (F64 L) n s F W), (total_energy2_pure (F64 L) n s F W ltac:(lia) Hh). cbn [bind]. cbv zeta.
    match goal with |- context [mc_ring_energy (F64 L) F ?k] => replace k with s by (symmetry; exact ES) end.
    rewrite (mc_ring_pure (F64 L) n s F W s ltac:(lia)). cbn [bind]. rewrite Ea, Eb. cbn [bind]. rewrite (wf_ssize _ _ _ W), (wf_hsize _ _ _ W). reflexivity. }
  eexists. split; [exact E|]. clear E.
  destruct (Classical_Prop.classic (none_lost F)) as [NL|KL]; [left|right].
  - split; [exact NL|]. apply Forall_cons; [|apply Forall_nil].
    assert (NU : Forall (near_unit (powerRZ 2 (-44))) (spins F)).
    { unfold none_lost in NL. apply Forall_forall. intros v Hv. rewrite Forall_forall in HM, NL. destruct (HM v Hv) as [A|A]; [exact A|destruct (NL v Hv A)]. }
    assert (HN : forall p, (p < n)%nat -> near_unit (powerRZ 2 (-44)) (at3 (F64 L) (spins F) p)) by exact (proj1 (forall_at L n (spins F) _ Ls) NU).
    assert (HJ : forall p, (p < n)%nat -> is_vector (at3 (F64 L) (j_couple F) p) /\ comp_le 2 (at3 (F64 L) (j_couple F) p)).
    { intros q Hq. destruct Hm as [HJ _]. rewrite Forall_forall in HJ. apply HJ. apply nth_In. destruct W as [_ _ _ _ _ W6 _]. change (q < length (@j_couple (num (F64 L)) F))%nat. lia. }
    assert (H2 : forall p, (p < n)%nat -> is_vector (h2 p) /\ comp_le 8 (h2 p)).
    { intros p Hp. exact (field_sized L n s F (t F) p HL W Hm Hd X Hp). }
    assert (H0 : forall p, (p < n)%nat -> is_vector (at3 (F64 L) (static_h F) p) /\ comp_le 8 (at3 (F64 L) (static_h F) p)).
    { intros q Hq. destruct Hm as [_ HH]. rewrite Forall_forall in HH.
      assert (K : is_vector (at3 (F64 L) (static_h F) q) /\ comp_le 6 (at3 (F64 L) (static_h F) q)) by (apply HH; apply nth_In; destruct W as [_ _ _ _ _ _ W7]; change (q < length (@static_h (num (F64 L)) F))%nat; lia).
      destruct K as [A (B1 & B2 & B3)]. split; [exact A|]. split; [|split]; (eapply Rle_trans; [eassumption|lra]). }
    assert (R1 := ring_fit L n s F h2 W HN HJ H2 ltac:(lia)).
    assert (R2 : fit (Z.of_nat s * KB) (ring_bf (F64 L) F (at3 (F64 L) (static_h F)) s)).
    { unfold ring_bf. destruct (HJ (s - 1)%nat ltac:(lia)). destruct (H0 (s - 1)%nat ltac:(lia)).
      replace (Z.of_nat s * KB)%Z with (Z.of_nat (s - 1) * KB + KB)%Z by (unfold KB; lia).
      apply bond_fit; try assumption; try (apply HN; lia); [unfold KB; lia|unfold zok, KB; lia|].
      apply (loop_fit L n s F _ W HN HJ (s - 1)); [intros; apply H0; lia|lia]. }
    assert (D1 : fit KB (f_div (ring_bf (F64 L) F h2 n) (f_ofZ (Z.of_nat n)))) by (apply fit_div; [unfold zok, KB; lia|lia|exact R1]).
    assert (D2 : fit KB (f_div (ring_bf (F64 L) F (at3 (F64 L) (static_h F)) s) (f_ofZ (Z.of_nat s)))) by (apply fit_div; [unfold zok, KB; lia|lia|exact R2]).
    assert (LF : length (firstn s (spins F)) = s) by (rewrite firstn_length; lia).
    assert (SB : (Z.of_nat s < 2 ^ 31)%Z) by lia.
    assert (SM : forall f, In f [vx; vy; vz] -> fit 65537 (f_div (f (sum_spins (F64 L) (firstn s (spins F)))) (f_ofZ (Z.of_nat s)))).
    { intros f If. apply fit_div; [unfold zok; lia|lia|]. replace (Z.of_nat s * 65537)%Z with (Z.of_nat (length (firstn s (spins F))) * 65537)%Z by (f_equal; f_equal; exact LF).
      apply sum_fit; [exact If|rewrite <- (firstn_skipn s (spins F)) in NU; apply Forall_app in NU; apply NU|exact (eq_ind_r (fun k => (Z.of_nat k < 2 ^ 31)%Z) SB LF)]. }
    assert (B30 : forall x, fit KB x -> small (30 + 1 / 1024) x) by (intros x Hx; apply (fit_small KB); [exact Hx|unfold KB; lra]).
    assert (B1 : forall x, fit 65537 x -> small (1 + powerRZ 2 (-16)) x).
    { intros x Hx. apply (fit_small 65537); [exact Hx|]. rewrite pow_bpow, q16_val. lra. }
    assert (Q1 : (s / 4 < n)%nat) by (apply (Nat.le_lt_trans _ (s / 2)); [apply Nat.div_le_compat_l; lia|]; apply (Nat.lt_le_trans _ s); [apply Nat.div_lt; lia|lia]).
    assert (Q3 : (3 * s / 4 < n)%nat) by (apply (Nat.lt_le_trans _ s); [apply Nat.div_lt_upper_bound; lia|lia]).
    eexists _, _, _, _, _, (at3 (F64 L) (spins F) (s / 4)), (at3 (F64 L) (spins F) (3 * s / 4)). split; [reflexivity|]. split; [apply B30; exact D1|]. split; [apply B30; exact D2|].
    split; [|split; apply HN; assumption].
    repeat apply Forall_cons; try apply Forall_nil; apply B1; apply SM; cbn; auto.
  - split; [exact KL|]. apply Forall_cons; [|apply Forall_nil].
    assert (EX : exists p, (p < n)%nat /\ lost (at3 (F64 L) (spins F) p)).
    { apply Classical_Prop.NNPP. intro Q. apply KL. apply (forall_at L n (spins F) _ Ls). intros p Hp K. apply Q. exists p. auto. }
    destruct EX as (p & Hp & K). assert (RN : ring_bf (F64 L) F h2 n = S754_nan) by exact (ring_nan L n s F h2 p W Hp K).
    rewrite RN. eexists. split; [reflexivity|reflexivity].
Qed.

(** * A thread *)
Lemma iter_samples L k (d : nat -> mcdraw (F64 L)) m : forall j sc,
  iterMi (fun j sc => sample (F64 L) k (d j) sc) j m sc = samples (F64 L) (map (fun j => (k, d j)) (seq j m)) sc.
Proof.
  induction m as [|m IH]; intros j sc; [reflexivity|]. unfold samples. cbn [iterMi seq map foldM fst snd]. destruct (sample (F64 L) k (d j) sc) as [c| |]; cbn [bind]; [apply IH|reflexivity|reflexivity].
Qed.
Lemma tally_cons (c : chain f64) a l : tallied c [a] -> tallied c l -> tallied c (a :: l).
Proof. intros [[A B]|[A B]] [[C D]|[C D]]; try contradiction; [left|right]; (split; [exact A|]); constructor; auto; inversion B; assumption. Qed.
Lemma tally_loop L n s k (c : chain f64) (d : nat -> mcdraw (F64 L)) inner : proper L -> wf n s c -> (2 <= n)%nat -> (1 <= s)%nat -> rough_sites c -> mild_drive c -> small (powerRZ 2 100) (t c) ->
  (forall j, uniform_draw L (d j)) -> forall m j sp, length sp = n -> Forall (made (powerRZ 2 (-44))) sp -> (Forall (fun v => ~ lost v) sp <-> none_lost c) ->
  exists ls, sample_loop (F64 L) (sample (F64 L) k) (mc_line (F64 L)) inner d m j (set_spins c sp) = Ok ls /\ length ls = m /\ tallied c ls.
Proof.
  intros HL W Hn Hs Hm Hd Ht HU. induction m as [|m IH]; intros j sp Ls HM HK; cbn [sample_loop].
  - exists []. split; [reflexivity|]. split; [reflexivity|]. destruct (Classical_Prop.classic (none_lost c)) as [A|A]; [left|right]; split; auto.
  - assert (WW : wf n s (set_spins c sp)) by (destruct W; constructor; cbn; auto).
    assert (UU : Forall (fun kd => uniform_draw L (snd kd)) (map (fun j => (k, d j)) (seq j inner))) by (rewrite Forall_map; apply Forall_forall; intros i _; apply HU).
    destruct (samples_made L _ n s (powerRZ 2 (-44)) HL Hn ltac:(lra) (set_spins c sp) WW UU HM) as (sp1 & E1 & L1 & M1 & K1 & N1).
    assert (E2 := eq_trans (iter_samples L k d inner j (set_spins c sp)) E1). rewrite E2. cbn [bind].
    change (set_spins (set_spins c sp) sp1) with (set_spins c sp1).
    assert (W1 : wf n s (set_spins c sp1)) by (destruct W; constructor; cbn; auto).
    assert (HK1 : Forall (fun v => ~ lost v) sp1 <-> none_lost c).
    { rewrite <- HK. split; [|exact N1]. intro A. apply (forall_at L n sp _ Ls). intros p Hp Kp. apply (proj1 (forall_at L n sp1 _ L1) A p Hp).
      cbn [spins set_spins] in K1. unfold at3 in *. rewrite (nth_indep sp1 (z3 (F64 L)) none3) by exact (Nat.lt_le_trans _ _ _ Hp (Nat.eq_le_incl _ _ (eq_sym L1))).
      rewrite (nth_indep sp (z3 (F64 L)) none3) in Kp by exact (Nat.lt_le_trans _ _ _ Hp (Nat.eq_le_incl _ _ (eq_sym Ls))). rewrite K1; exact Kp. }
    destruct (tally_line L n s (set_spins c sp1) (proj1 HL) W1 ltac:(lia) Hs Hm Hd Ht M1) as (ln & El & T1).
    rewrite El. cbn [bind]. destruct (IH (j + inner)%nat sp1 L1 M1 HK1) as (ls & E3 & L3 & T3). rewrite E3. cbn [bind].
    exists (ln :: ls). split; [reflexivity|]. split; [exact (f_equal S L3)|]. apply tally_cons; [|exact T3].
    destruct T1 as [[A B]|[A B]]; [left; split; [apply HK1; exact A|exact B]|right; split; [intro Q; apply A, HK1, Q|exact B]].
Qed.
Lemma tally_thread L k conf d m : proper L -> mild_conf conf -> (1 <= ssize conf)%Z -> plain_run L d ->
  exists c ls, chain_new (F64 L) conf (dr_new d) = Ok c /\ mc_worker (F64 L) (sample (F64 L) k) 1000000 (mc_line (F64 L)) d m c = Ok ls /\
    length ls = Z.to_nat m /\ tallied c ls.
Proof.
  intros HL HC S1 [HD HU]. destruct (new_mild L conf HC (dr_new d) HD) as (c & E & W & EV & MS & MD). change (@vars f64 c = conf) in EV.
  set (n := Z.to_nat (hsize conf)) in *. set (s := Z.to_nat (ssize conf)) in *.
  assert (Hn : (2 <= n)%nat) by (unfold n; destruct HC; lia). assert (Hs : (1 <= s)%nat) by (unfold s; lia).
  assert (M44 : Forall (made (powerRZ 2 (-44))) (spins c)).
  { eapply Forall_impl; [|exact (new_made L conf (dr_new d) c HL E)]. intros v [H|H]; [left; apply (near_weak _ _ _ H); rewrite !pow_bpow; apply bpow_le; lia|right; exact H]. }
  assert (T0 : small (powerRZ 2 100) (t c)).
  { assert (OK : conf_ok (F64 L) conf).
    { destruct HC as (Hh & Hss & Hj & Hv & Hl & Lf & Ff & Ls & Fs & _). split; [exact (conj (Z.le_trans 0 2 _ ltac:(lia) (proj1 Hh)) (proj2 Hh))|]. split; [apply (proj1 Hj)|]. split; [apply (proj1 Hv)|]. split; assumption. }
    destruct (chain_new_ok (F64 L) conf (dr_new d) OK) as (c2 & E2 & _ & _ & _ & ET & _ & _). assert (c2 = c) by congruence. subst c2.
    destruct HC as (_ & _ & _ & _ & _ & _ & _ & _ & _ & _ & _ & _ & _ & [Vr Br]). destruct (opp_val _ Vr) as [Vo Eo].
    assert (X : t c = SFopp (trel conf)) by exact ET. rewrite X. split; [exact Vo|]. rewrite value_fval in *. rewrite Eo, Rabs_Ropp. exact Br. }
  destruct (tally_loop L n s k c (dr_mc d) (Z.to_nat 1000000) HL W Hn Hs MS MD T0 HU (Z.to_nat m) 0 (spins c) (wf_spins _ _ _ W) M44 (iff_refl _)) as (ls & E1 & L1 & T1).
  exists c, ls. split; [exact E|]. split; [|split; [exact L1|exact T1]]. destruct c. exact E1.
Qed.

(** * The mode *)
Lemma concat_len {A} (l : list Z) : forall (a : nat -> list A), Forall (fun z => (1 <= z)%Z) l -> (forall i, length (a i) = Z.to_nat (nth i l 0%Z)) ->
  Z.of_nat (length (concat (map a (seq 0 (length l))))) = SpecWriters.zsum l.
Proof.
  intros a F. revert a. induction F as [|z l Hz F IH]; intros a LA; [reflexivity|]. cbn [length seq map concat]. rewrite app_length, <- seq_shift, map_map.
  rewrite Nat2Z.inj_add, (IH (fun i => a (S i)) (fun i => LA (S i))), (LA 0%nat). change (SpecWriters.zsum (z :: l)) with (z + SpecWriters.zsum l)%Z. cbn [nth]. rewrite Z2Nat.id by lia. reflexivity.
Qed.
Lemma tally_file L k rg (conf : config f64) f : proper L -> mild_conf conf -> (1 <= ssize conf)%Z -> (1 <= threads conf)%Z -> (1 <= mc_points conf < 2 ^ 31)%Z ->
  (forall i, plain_run L (r_draws (F64 L) rg i)) ->
  exists c work f', run_mc_with (F64 L) (sample (F64 L) k) rg conf f = Ok (conf, f') /\
    lines_of f' "mc_live.dat" = lines_of f "mc_live.dat" ++ r_file (F64 L) rg work /\
    Z.of_nat (length (concat work)) = mc_points conf /\
    (forall i ls, nth_error work i = Some ls -> chain_new (F64 L) conf (dr_new (r_draws (F64 L) rg i)) = Ok (c i) /\ tallied (c i) ls) /\
    (sent_only (r_file (F64 L) rg) -> Forall (fun ln => full_tally ln \/ nan_tally ln) (r_file (F64 L) rg work)).
Proof.
  intros HL HC S1 Th Pt HD.
  destruct (mc_split_ok _ _ Th Pt) as (parts & Ep & _ & Fp & Sp).
  set (c := fun i => match chain_new (F64 L) conf (dr_new (r_draws (F64 L) rg i)) with Ok c => c | _ => mkChain [] [] [] S754_nan conf false end : chain f64).
  set (a := fun i => match mc_worker (F64 L) (sample (F64 L) k) 1000000 (mc_line (F64 L)) (r_draws (F64 L) rg i) (nth i parts 0%Z) (c i) with Ok l => l | _ => [] end : list (line f64)).
  assert (A : forall i, chain_new (F64 L) conf (dr_new (r_draws (F64 L) rg i)) = Ok (c i) /\
    mc_worker (F64 L) (sample (F64 L) k) 1000000 (mc_line (F64 L)) (r_draws (F64 L) rg i) (nth i parts 0%Z) (c i) = Ok (a i) /\ length (a i) = Z.to_nat (nth i parts 0%Z) /\ tallied (c i) (a i)).
  { intro i. destruct (tally_thread L k conf (r_draws (F64 L) rg i) (nth i parts 0%Z) HL HC S1 (HD i)) as (c' & ls & E1 & E2 & E3 & E4).
    assert (EC : c i = c') by (unfold c; rewrite E1; reflexivity). assert (EA : a i = ls) by (unfold a; rewrite EC, E2; reflexivity). rewrite EC, EA. auto. }
  destruct (frame_value (F64 L) (mc_worker (F64 L) (sample (F64 L) k) 1000000 (mc_line (F64 L))) rg conf (append "mc_live.dat" [] f) c a parts Ep (fun i => proj1 (A i))) as (f1 & E1 & K1).
  { intros i z Ez. apply nth_error_nth with (d := 0%Z) in Ez. rewrite <- Ez. apply A. }
  assert (NW : forall i ls, nth_error (map a (seq 0 (length parts))) i = Some ls -> ls = a i).
  { intros i ls H. rewrite nth_error_map in H. destruct (nth_error (seq 0 (length parts)) i) as [j|] eqn:Ej; [|discriminate]. injection H as <-.
    assert (j = i); [|congruence]. assert (i < length parts)%nat by (rewrite <- (seq_length (length parts) 0); apply nth_error_Some; congruence). apply nth_error_nth with (d := 0%nat) in Ej. rewrite seq_nth in Ej by assumption. lia. }
  exists c, (map a (seq 0 (length parts))), (append "mc_live.dat" (r_file (F64 L) rg (map a (seq 0 (length parts)))) f1).
  split; [unfold run_mc_with; cbv zeta; match type of E1 with ?x = _ => match goal with |- context [mc_frame ?b ?c ?d ?e ?g] => change (mc_frame b c d e g) with x end end; rewrite E1; reflexivity|].
  split; [|split; [|split]].
  - unfold lines_of. rewrite contents_append, String.eqb_refl.
    rewrite (K1 "mc_live.dat"%string) by (intros j; apply not_eq_sym, (log_name_not _ j "mc_live"%string _ eq_refl eq_refl)).
    rewrite contents_append, String.eqb_refl. destruct (contents f "mc_live.dat") as [l|]; [rewrite app_nil_r|]; reflexivity.
  - rewrite <- Sp. apply concat_len; [exact Fp|]. intro i. apply A.
  - intros i ls H. apply NW in H. subst ls. split; apply A.
  - intro SO. apply Forall_forall. intros ln Hl. apply SO in Hl. apply in_concat in Hl. destruct Hl as (ls & H1 & H2). apply in_map_iff in H1. destruct H1 as (i & <- & _).
    destruct (A i) as (_ & _ & _ & [[_ T]|[_ T]]); rewrite Forall_forall in T; [left|right]; apply T; exact H2.
Qed.
Lemma tally64 L n s (F : chain f64) : accurate L -> wf n s F -> (1 <= n)%nat -> (1 <= s)%nat -> rough_sites F -> mild_drive F -> small (powerRZ 2 100) (t F) ->
  Forall (made (powerRZ 2 (-44))) (spins F) -> exists ln, mc_line (F64 L) F = Ok ln /\ ((none_lost F /\ full_tally ln) \/ (~ none_lost F /\ nan_tally ln)).
Proof.
  intros A1 A2 A3 A4 A5 A6 A7 A8. destruct (tally_line L n s F A1 A2 A3 A4 A5 A6 A7 A8) as (ln & E & T). exists ln. split; [exact E|].
  destruct T as [[A B]|[A B]]; [left|right]; (split; [exact A|exact (Forall_inv B)]).
Qed.
