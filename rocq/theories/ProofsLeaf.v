(** The lines of the Langevin logs in binary64. *)
From Coq Require Import ZArith Reals List Lia Lra Psatz Bool Arith.
From Coq Require Import Floats.SpecFloat.
From Flocq Require Import Core.
From Verif Require Import Num Monad NumR NumF64 Spin Config Chain Langevin Fit Files Runs SpecVec SpecChain SpecToml SpecLang SpecRuns SpecRound SpecClose SpecKeep SpecMC SpecMade SpecNoisy SpecPage SpecLeaf
  ProofsFlocq ProofsRound ProofsRound2 ProofsF64 ProofsChain ProofsSpin ProofsDyn ProofsTotal ProofsColumns ProofsMC ProofsMCR5 ProofsMCF64 ProofsHist2 ProofsClose ProofsClose3 ProofsClose4 ProofsClose6
  ProofsTiny ProofsKeep ProofsKeep2 ProofsKeep3 ProofsNew ProofsSized ProofsMade ProofsMade2 ProofsMade3 ProofsFrame ProofsSim ProofsLangRun ProofsNoisy ProofsPage.
Import ListNotations.
Local Open Scope R_scope.

(** * The open chain *)
Lemma bond_nan2 L e a j b h : some_nan b -> bond_field (F64 L) e a j b h = S754_nan.
Proof.
  intros H. unfold bond_field, for3. cbv zeta. cbn [nadd nsub nmul ndiv nopp nofZ nlit npi F64]. change (num (F64 L)) with f64 in *.
  destruct H as [H|[H|H]]; rewrite ?H; autorewrite with nan; reflexivity.
Qed.
Lemma open_nan L (c : chain f64) h k p : (p <= k)%nat -> (1 <= k)%nat -> some_nan (at3 (F64 L) (spins c) p) -> loop_bf (F64 L) c h k = S754_nan.
Proof.
  intros Hp Hk H.
  assert (Q : exists i, (i < k)%nat /\ forall e, bond_field (F64 L) e (at3 (F64 L) (spins c) i) (at3 (F64 L) (j_couple c) i) (at3 (F64 L) (spins c) (i + 1)) (h i) = S754_nan).
  { destruct (Nat.eq_dec p k) as [->|Hn].
    - exists (k - 1)%nat. split; [lia|]. intro e. replace (k - 1 + 1)%nat with k by lia. apply bond_nan2. exact H.
    - exists p. split; [lia|]. intro e. apply bond_field_nan. right. exact H. }
  destruct Q as (i & Hi & Q). unfold loop_bf. replace (seq 0 k) with (seq 0 i ++ i :: seq (S i) (k - S i)).
  - rewrite fold_left_app. cbn [fold_left]. rewrite Q. apply loop_nan. intros j. apply bond_field_nan. left. reflexivity.
  - change (i :: seq (S i) (k - S i)) with (seq (0 + i) (S (k - S i))). rewrite <- seq_app. f_equal. lia.
Qed.
Lemma open_fit L (c : chain f64) (h : nat -> v3 f64) m k : (Z.of_nat m < 2 ^ 31)%Z ->
  (forall p, (p < m)%nat -> near_unit (powerRZ 2 (-44)) (at3 (F64 L) (spins c) p)) ->
  (forall p, (p < m)%nat -> is_vector (at3 (F64 L) (j_couple c) p) /\ comp_le 2 (at3 (F64 L) (j_couple c) p)) ->
  (forall p, (p < k)%nat -> is_vector (h p) /\ comp_le 8 (h p)) -> (k < m)%nat -> fit (Z.of_nat k * KB) (loop_bf (F64 L) c h k).
Proof.
  intros I HN HJ Hh. induction k as [|k IH]; intro Hk.
  - exact fit0.
  - unfold loop_bf in *. rewrite seq_S, fold_left_app. cbn [fold_left plus].
    destruct (HJ k ltac:(lia)). destruct (Hh k ltac:(lia)).
    replace (Z.of_nat (S k) * KB)%Z with (Z.of_nat k * KB + KB)%Z by (unfold KB; lia).
    apply bond_fit; auto; [unfold KB; lia|unfold zok, KB; lia|apply IH; [intros; apply Hh; lia|lia]|apply HN; lia|apply HN; lia].
Qed.
Lemma sub_at L n s (sp : list (v3 f64)) : length sp = n -> (s <= n)%nat -> (sub_kept s sp <-> forall p, (p < s)%nat -> ~ lost (at3 (F64 L) sp p)).
Proof.
  intros Ls Hs. unfold sub_kept. assert (LF : length (firstn s sp) = s) by (rewrite firstn_length; lia).
  rewrite (forall_at L s (firstn s sp) _ LF). assert (X : forall p, (p < s)%nat -> at3 (F64 L) (firstn s sp) p = at3 (F64 L) sp p).
  { intros p Hp. unfold at3. rewrite <- (firstn_skipn s sp) at 2. symmetry. apply app_nth1. exact (Nat.lt_le_trans _ _ _ Hp (Nat.eq_le_incl _ _ (eq_sym LF))). }
  split; intros H p Hp; [rewrite <- X by exact Hp|rewrite X by exact Hp]; apply H; exact Hp.
Qed.
Lemma full_sub_kept s sp : Forall (fun v => ~ lost v) sp -> sub_kept s sp.
Proof. intro H. unfold sub_kept. rewrite <- (firstn_skipn s sp) in H. apply Forall_app in H. apply H. Qed.

(** * A line *)
Section Leaf.
Context (L : libm) (HL : accurate L) (n s : nat) (cF : chain f64) (g : f64).
Context (WF : wf n s cF) (Hn : (2 <= n)%nat) (Hs : (2 <= s)%nat) (Hm : rough_sites cF) (Hd : mild_drive cF).
Context (Hdt : plain_dt (c_dt (vars cF))) (Ht : forall i, sized 101 (tick cF i)).
Notation lat i sp := (mkL (at_step cF i sp) g).
Definition kind (sp : list (v3 f64)) (row : list f64) : Prop :=
  (Forall (fun v => ~ lost v) sp /\ full_leaf row) \/ (~ Forall (fun v => ~ lost v) sp /\ sub_kept s sp /\ sub_leaf row) \/ (~ sub_kept s sp /\ nan_leaf row).
Lemma leaf_line i sp : length sp = n -> Forall (made (powerRZ 2 (-44))) sp -> exists row, lchain_log (F64 L) (lat i sp) = Ok [row] /\ kind sp row.
Proof.
  intros Ls HM. set (F := (at_step cF i sp : chain (num (F64 L)))) in *.
  assert (W1 : wf n s F) by (destruct WF; constructor; cbn; auto).
  assert (Hh : hs_ok (vars F)) by exact (mild_hs_ok cF Hd).
  destruct (lchain_log_line (F64 L) n s (mkL F g) (quarter_F64 L) W1 Hh Hs) as (l & _ & E).
  pose proof (wf_sub _ _ _ W1) as SUB. pose proof (wf_i32 _ _ _ W1) as I32.
  assert (E' := E). unfold lchain_log in E'. cbv zeta in E'. cbn [base] in E'.
  rewrite (system_energy_pure (F64 L) n s F W1 ltac:(lia) Hh), (m_pure (F64 L) n s F W1) in E'. cbn [bind] in E'.
  apply bind_ok in E'. destruct E' as (bt & _ & E'). apply ok_inj in E'. unfold lm_tot in E'. cbn [base] in E'.
  set (h2 := fieldP (F64 L) F s (h_extP (F64 L) (vars F) (t F))) in *.
  set (h1 := fun i0 => sum_vec (F64 L) (at3 (F64 L) (static_h F) i0) (h_extP (F64 L) (vars F) (t F))) in *.
  rewrite (wf_hsize _ _ _ W1), (wf_ssize _ _ _ W1) in E'.
  match type of E' with [?r] = _ => set (row := r) in * end.
  exists row. split; [etransitivity; [exact E|]; f_equal; symmetry; exact E'|].
  assert (TN : is_number (t F)) by apply (Ht i).
  assert (AT := sub_at L n s sp Ls SUB). assert (HMA := proj1 (forall_at L n sp _ Ls) HM).
  destruct (Classical_Prop.classic (sub_kept s sp)) as [NS|KS].
  - assert (HN : forall p, (p < s)%nat -> near_unit (powerRZ 2 (-44)) (at3 (F64 L) (spins F) p)).
    { intros p Hp. destruct (HMA p ltac:(lia)) as [A|A]; [exact A|destruct (proj1 AT NS p Hp A)]. }
    assert (HJ : forall p, (p < s)%nat -> is_vector (at3 (F64 L) (j_couple F) p) /\ comp_le 2 (at3 (F64 L) (j_couple F) p)).
    { intros q Hq. destruct Hm as [HJ _]. rewrite Forall_forall in HJ. apply HJ. apply nth_In. destruct WF as [_ _ _ _ _ W6 _]. change (q < length (@j_couple f64 cF))%nat. lia. }
    assert (H1 : forall p, (p < s - 1)%nat -> is_vector (h1 p) /\ comp_le 8 (h1 p)).
    { intros p Hp. assert (Q : h2 p = h1 p) by (unfold h2, h1, fieldP; replace (p <? s)%nat with true by (symmetry; apply Nat.ltb_lt; lia); reflexivity). rewrite <- Q.
      exact (field_sized L n s cF (tick cF i) p HL WF Hm Hd (or_intror (sized_weak 101 102 _ (Ht i) ltac:(lia))) ltac:(lia)). }
    assert (R2 := open_fit L F h1 s (s - 1) ltac:(lia) HN HJ H1 ltac:(lia)).
    assert (D2 : fit KB (f_div (loop_bf (F64 L) F h1 (s - 1)) (f_ofZ (Z.of_nat (s - 1))))) by (apply fit_div; [unfold zok, KB; lia|lia|exact R2]).
    assert (SM : forall l k f, In f [vx; vy; vz] -> Forall (near_unit (powerRZ 2 (-44))) l -> length l = k -> (1 <= k <= n)%nat -> fit 65537 (f_div (f (sum_spins (F64 L) l)) (f_ofZ (Z.of_nat k)))).
    { intros l0 k f If Fl <- Hk. apply fit_div; [unfold zok; lia|lia|]. apply sum_fit; [exact If|exact Fl|lia]. }
    assert (B30 : forall x, fit KB x -> small (30 + 1 / 1024) x) by (intros x Hx; apply (fit_small KB); [exact Hx|unfold KB; lra]).
    assert (B1 : forall x, fit 65537 x -> small (1 + powerRZ 2 (-16)) x).
    { intros x Hx. apply (fit_small 65537); [exact Hx|]. rewrite pow_bpow, q16_val. lra. }
    assert (NU : forall l, Forall (made (powerRZ 2 (-44))) l -> Forall (fun v => ~ lost v) l -> Forall (near_unit (powerRZ 2 (-44))) l).
    { intros l0 A B. apply Forall_forall. intros v Hv. rewrite Forall_forall in A, B. destruct (A v Hv) as [C|C]; [exact C|destruct (B v Hv C)]. }
    assert (MF : Forall (made (powerRZ 2 (-44))) (firstn s sp)) by (assert (Q := HM); rewrite <- (firstn_skipn s sp) in Q; apply Forall_app in Q; apply Q).
    assert (LF : length (firstn s sp) = s) by (rewrite firstn_length; lia).
    assert (SF : forall f, In f [vx; vy; vz] -> small (1 + powerRZ 2 (-16)) (f_div (f (sum_spins (F64 L) (firstn s sp))) (f_ofZ (Z.of_nat s)))).
    { intros f If. apply B1, SM; [exact If|exact (NU _ MF NS)|exact LF|lia]. }
    destruct (Classical_Prop.classic (Forall (fun v => ~ lost v) sp)) as [NL|KL]; [left|right; left].
    + split; [exact NL|]. unfold row. eexists _, _, _, _, _, _, _. split; [reflexivity|]. split; [exact TN|]. split; [apply B30; exact D2|].
      apply Forall_cons; [apply (SF vx); cbn; auto|]. apply Forall_cons; [apply (SF vy); cbn; auto|]. apply Forall_cons; [apply (SF vz); cbn; auto|]. apply Forall_cons; [|apply Forall_nil].
      apply B1. apply (SM sp n vz); [cbn; auto|exact (NU _ HM NL)|exact Ls|lia].
    + split; [exact KL|]. split; [exact NS|]. unfold row. eexists _, _, _, _, _, _, _. split; [reflexivity|]. split; [exact TN|]. split; [apply B30; exact D2|].
      apply Forall_cons; [apply (SF vx); cbn; auto|]. apply Forall_cons; [apply (SF vy); cbn; auto|]. apply Forall_cons; [apply (SF vz); cbn; auto|]. apply Forall_nil.
  - right. right. split; [exact KS|]. unfold nan_leaf, row.
    assert (EX : exists p, (p < s)%nat /\ lost (at3 (F64 L) sp p)).
    { apply Classical_Prop.NNPP. intro Q. apply KS. apply AT. intros p Hp K. apply Q. exists p. auto. }
    destruct EX as (p & Hp & K). assert (RN : loop_bf (F64 L) F h1 (s - 1) = S754_nan) by exact (open_nan L F h1 (s - 1) p ltac:(lia) ltac:(lia) K).
    assert (DN : ndiv (F64 L) (loop_bf (F64 L) F h1 (s - 1)) (nofZ (F64 L) (Z.of_nat (s - 1))) = S754_nan) by (refine (eq_trans (f_equal (fun x => f_div x _) RN) _); reflexivity).
    rewrite DN. eexists _, _. split; [reflexivity|]. split; [exact TN|reflexivity].
Qed.

(** * Runs *)
Context (Hb : mild_bath (vars cF) g).
Definition verdict (sp : list (v3 f64)) (out : list (list f64)) : Prop := sound_leaf out /\
  (~ Forall (fun v => ~ lost v) sp -> exists b c, out = b ++ c /\ Forall sub_leaf b /\ Forall nan_leaf c) /\ (~ sub_kept s sp -> Forall nan_leaf out) /\
  (s = n -> exists a c, out = a ++ c /\ Forall full_leaf a /\ Forall nan_leaf c).
Lemma verdict_nil sp : verdict sp [].
Proof. split; [exists [], [], []; auto|]. split; [intros _; exists [], []; auto|]. split; [constructor|]. intros _. exists [], []. auto. Qed.
Lemma verdict_cons sp row out : length sp = n -> kind sp row -> verdict sp out -> verdict sp (row :: out).
Proof.
  intros Ls K (A & B & C & D). destruct K as [[K1 K2]|[(K1 & K2 & K3)|[K1 K2]]].
  - split; [|split; [intro Q; destruct (Q K1)|split; [intro Q; destruct (Q (full_sub_kept s sp K1))|intro Q; destruct (D Q) as (a & c & -> & Fa & Fc); exists (row :: a), c; split; [reflexivity|auto]]]].
    destruct A as (a & b & c & -> & Fa & Fb & Fc). exists (row :: a), b, c. split; [reflexivity|auto].
  - destruct (B K1) as (b & c & -> & Fb & Fc). split; [exists [], (row :: b), c; split; [reflexivity|auto]|]. split; [|split; [intro Q; destruct (Q K2)|]].
    + intros _. exists (row :: b), c. split; [reflexivity|auto].
    + intro Q. destruct K1. unfold sub_kept in K2. rewrite Q, <- Ls, firstn_all in K2. exact K2.
  - specialize (C K1). split; [exists [], [], (row :: out); split; [reflexivity|auto]|]. split; [|split; [intros _; auto|]]; intros _; exists [], (row :: out); (split; [reflexivity|auto]).
Qed.
Lemma leaf_loop tmax ts noise : (forall k, plain_noise (noise k)) -> forall fuel k i sp F out, length sp = n -> Forall (made (powerRZ 2 (-44))) sp ->
  time_loop (F64 L) (fun lc : lchain f64 => t (base lc)) tmax (langevin_body (F64 L) noise ts) fuel k (lat i sp) = Ok (F, out) -> verdict sp out.
Proof.
  intro HZ. induction fuel as [|fuel IH]; intros k i sp F out Ls HM E; cbn [time_loop] in E.
  - match type of E with (if ?b then _ else _) = _ => destruct b end; [discriminate|]. injection E as _ <-. apply verdict_nil.
  - match type of E with (if ?b then _ else _) = _ => destruct b end; [|injection E as _ <-; apply verdict_nil].
    apply bind_ok in E. destruct E as ([F1 l] & E1 & E). apply bind_ok in E. destruct E as ([F2 l'] & E2 & E). injection E as _ <-.
    assert (E58 : forall v, made (powerRZ 2 (-44)) v -> made (1 / 8) v).
    { intros v [H|H]; [left; apply (near_weak _ _ _ H); rewrite p44, u_val; lra|right; exact H]. }
    assert (E45 : forall v, made (powerRZ 2 (-50)) v -> made (powerRZ 2 (-44)) v).
    { intros v [H|H]; [left; apply (near_weak _ _ _ H); rewrite !pow_bpow; apply bpow_le; lia|right; exact H]. }
    assert (HG := proj1 (forall_at L n sp _ Ls) HM).
    destruct (lupdate_rough L HL n s cF g WF Hn Hm Hd Hdt Hb i (noise k) sp (HZ k) Ls (fun p Hp => E58 _ (HG p Hp))) as (sp1 & EU & L1 & G1 & O1).
    assert (HM1 : Forall (made (powerRZ 2 (-44))) sp1).
    { apply (forall_at L n sp1 _ L1). intros p Hp. destruct (Nat.lt_ge_cases p (2 * (n / 2))) as [Hlt|Hge]; [apply E45, (G1 p Hlt)|rewrite O1 by exact Hge; apply HG, Hp]. }
    assert (KP : forall p, lost (at3 (F64 L) sp p) -> lost (at3 (F64 L) sp1 p)).
    { intros p K. destruct (Nat.lt_ge_cases p (2 * (n / 2))) as [Hlt|Hge]; [apply (G1 p Hlt), K|rewrite O1 by exact Hge; exact K]. }
    assert (K1 : ~ Forall (fun v => ~ lost v) sp -> ~ Forall (fun v => ~ lost v) sp1).
    { intros A B. apply A. apply (forall_at L n sp _ Ls). intros p Hp K. apply (proj1 (forall_at L n sp1 _ L1) B p Hp). apply KP, K. }
    pose proof (wf_sub _ _ _ WF) as SUB.
    assert (K2 : ~ sub_kept s sp -> ~ sub_kept s sp1).
    { intros A B. apply A. apply (sub_at L n s sp Ls SUB). intros p Hp K. apply (proj1 (sub_at L n s sp1 L1 SUB) B p Hp). apply KP, K. }
    unfold langevin_body in E1. apply bind_ok in E1. destruct E1 as (F1' & Eu & E1). apply bind_ok in E1. destruct E1 as (b & _ & E1). apply bind_ok in E1. destruct E1 as (l1 & El & E1).
    injection E1 as <- <-. assert (EQ : F1' = lat (S i) sp1) by (assert (X := eq_trans (eq_sym Eu) EU); injection X as X; exact X). subst F1'.
    assert (V1 := IH _ _ _ _ _ L1 HM1 E2).
    assert (V2 : verdict sp1 (l1 ++ l')).
    { destruct b; [|injection El as <-; exact V1]. destruct (leaf_line (S i) sp1 L1 HM1) as (row & ER & RC).
      assert (X := eq_trans (eq_sym El) ER). injection X as ->. exact (verdict_cons _ _ _ L1 RC V1). }
    destruct V2 as (A & B & C & D). split; [exact A|]. split; auto.
Qed.
End Leaf.

Lemma therm_moved L (d : nat -> mcdraw (F64 L)) k : forall j lc,
  iterMi (fun k lc => lmetropolis_update (F64 L) (d k) lc) j k lc = lmoved (F64 L) (map (fun j => (false, d j)) (seq j k)) lc.
Proof.
  induction k as [|k IH]; intros j lc; [reflexivity|]. unfold lmoved. cbn [iterMi seq map foldM fst snd lmove]. destruct (lmetropolis_update (F64 L) (d j) lc) as [c| |]; cbn [bind]; [apply IH|reflexivity|reflexivity].
Qed.
Lemma leaf_worker L conf g d noise fuel lc out : proper L -> mild_conf conf -> mild_bath conf g -> (2 <= ssize conf)%Z -> noisy_draws L d noise ->
  lchain_new (F64 L) conf g (dr_new d) = Ok lc -> langevin_worker (F64 L) fuel d noise lc = Ok out ->
  sound_leaf out /\ out <> [] /\ (~ none_lost (base lc) -> exists b c, out = b ++ c /\ Forall sub_leaf b /\ Forall nan_leaf c) /\
  (~ sub_kept (Z.to_nat (ssize conf)) (spins (base lc)) -> Forall nan_leaf out) /\ (ssize conf = hsize conf -> exists a c, out = a ++ c /\ Forall full_leaf a /\ Forall nan_leaf c).
Proof.
  intros HL HC HB S2 [[HD HU] HZ] E0 E. destruct (new_mild L conf HC (dr_new d) HD) as (c & E' & W & EV & MS & MD). change (@vars f64 c = conf) in EV.
  set (n := Z.to_nat (hsize conf)) in *. set (s := Z.to_nat (ssize conf)) in *.
  assert (Hn : (2 <= n)%nat) by (unfold n; destruct HC; lia). assert (Hs : (2 <= s)%nat) by (unfold s; lia).
  assert (UL := new_made L conf (dr_new d) c HL E').
  assert (lc = mkL (mkChain (j_couple c) (static_h c) (spins c) (t c) (vars c) true) g) as -> by (rewrite lchain_new_base, E' in E0; injection E0 as <-; reflexivity).
  set (lc := mkL (mkChain (j_couple c) (static_h c) (spins c) (t c) (vars c) true) g : lchain f64) in *.
  assert (WL : wf n s (base lc)) by (destruct W; constructor; cbn; auto).
  assert (M44 : Forall (made (powerRZ 2 (-44))) (spins (base lc))).
  { eapply Forall_impl; [|exact UL]. intros v [H|H]; [left; apply (near_weak _ _ _ H); rewrite !pow_bpow; apply bpow_le; lia|right; exact H]. }
  unfold langevin_worker in E. rewrite therm_moved in E.
  match type of E with context [lmoved _ ?l _] => set (ll := l) in * end.
  assert (UU : Forall (fun kd => uniform_draw L (snd kd)) ll) by (unfold ll; rewrite Forall_map; apply Forall_forall; intros j _; apply HU).
  destruct (lmoved_made L ll n s (powerRZ 2 (-44)) HL Hn ltac:(lra) lc WL UU M44) as (sp & E1 & L1 & M1 & K1 & N1).
  match type of E with bind _ ?k = _ => assert (E2 : bind (Ok (lset lc sp)) k = Ok out) by exact (eq_trans (f_equal (fun r => bind r k) (eq_sym E1)) E) end. clear E. cbn [bind] in E2. cbv zeta in E2.
  set (cF := set_spins (base lc) sp : chain f64) in *.
  assert (W1 : wf n s cF) by (destruct WL; constructor; cbn; auto).
  assert (Hdt : plain_dt (c_dt (vars cF))) by (change (plain_dt (c_dt (@vars f64 c))); rewrite EV; destruct HC as (_ & _ & _ & _ & _ & _ & _ & _ & _ & Q & _); exact Q).
  assert (HB1 : mild_bath (vars cF) g) by (change (mild_bath (@vars f64 c) g); rewrite EV; exact HB).
  assert (Ht : forall i, sized 101 (tick cF i)).
  { assert (T0 : sized 100 (t c)).
    { assert (OK : conf_ok (F64 L) conf).
      { destruct HC as (Hh & Hss & Hj & Hv & Hl & Lf & Ff & Ls & Fs & _). split; [exact (conj (Z.le_trans 0 2 _ ltac:(lia) (proj1 Hh)) (proj2 Hh))|]. split; [apply (proj1 Hj)|]. split; [apply (proj1 Hv)|]. split; assumption. }
      destruct (chain_new_ok (F64 L) conf (dr_new d) OK) as (c2 & Ec & _ & _ & _ & ET & _ & _). assert (c2 = c) by congruence. subst c2.
      destruct HC as (_ & _ & _ & _ & _ & _ & _ & _ & _ & _ & _ & _ & _ & [Vr Br]). rewrite value_fval in Br. destruct (opp_val _ Vr) as [Vo Eo].
      assert (X : t c = SFopp (trel conf)) by exact ET. rewrite X. split; [exact Vo|]. rewrite Eo, Rabs_Ropp, <- pow_bpow. exact Br. }
    induction i as [|i IH]; [exact (sized_weak 100 101 _ T0 ltac:(lia))|]. exact (tick_step _ _ IH Hdt). }
  assert (LS : length (spins c) = n) by apply (wf_spins _ _ _ W). pose proof (wf_sub _ _ _ W) as SUB.
  assert (KP : forall p, (p < n)%nat -> lost (at3 (F64 L) (spins c) p) -> lost (at3 (F64 L) sp p)).
  { intros p Hp K. unfold at3 in *. rewrite (nth_indep sp (z3 (F64 L)) none3) by exact (Nat.lt_le_trans _ _ _ Hp (Nat.eq_le_incl _ _ (eq_sym L1))).
    rewrite (nth_indep (spins c) (z3 (F64 L)) none3) in K by exact (Nat.lt_le_trans _ _ _ Hp (Nat.eq_le_incl _ _ (eq_sym LS))). rewrite K1; exact K. }
  assert (NN : ~ none_lost (base lc) -> ~ Forall (fun v => ~ lost v) sp).
  { intros A B. apply A. apply (forall_at L n (spins c) _ LS). intros p Hp K. exact (proj1 (forall_at L n sp _ L1) B p Hp (KP p Hp K)). }
  assert (NS : ~ sub_kept s (spins c) -> ~ sub_kept s sp).
  { intros A B. apply A. apply (sub_at L n s (spins c) LS SUB). intros p Hp K. exact (proj1 (sub_at L n s sp L1 SUB) B p Hp (KP p ltac:(lia) K)). }
  apply bind_ok in E2. destruct E2 as (l0 & El & E2). apply bind_ok in E2. destruct E2 as ([F l] & Et & E2). injection E2 as <-.
  assert (V := leaf_loop L (proj1 HL) n s cF g W1 Hn Hs MS MD Hdt Ht HB1 _ _ noise HZ fuel 0 0 sp F l L1 M1 Et).
  destruct (leaf_line L (proj1 HL) n s cF g W1 Hn Hs MS MD Ht 0 sp L1 M1) as (row & ER & RC).
  assert (X := eq_trans (eq_sym El) ER). injection X as ->.
  destruct (verdict_cons n s sp row l L1 RC V) as (A & B & C & D). split; [exact A|]. split; [discriminate|]. split; [intro Q; exact (B (NN Q))|]. split; [intro Q; exact (C (NS Q))|].
  intro Q. apply D. unfold s, n. rewrite Q. reflexivity.
Qed.

(** * The mode *)
Lemma leaf_files L fuel g rg (conf : config f64) f conf' f' : proper L -> mild_conf conf -> mild_bath conf g -> (2 <= ssize conf)%Z ->
  (forall i, noisy_draws L (r_draws (F64 L) rg i) (r_noise (F64 L) rg i)) ->
  in_range conf -> (0 <= runs conf)%Z -> run_langevin (F64 L) fuel g rg conf f = Ok (conf', f') ->
  forall i, (i < Z.to_nat (runs conf))%nat -> exists rows,
    contents f' (log_name (c_file conf) (Z.to_nat (offset conf) + i)) = Some (l_header (F64 L) :: map numbers rows) /\ sound_leaf rows /\ rows <> [] /\
    (ssize conf = hsize conf -> exists a c, rows = a ++ c /\ Forall full_leaf a /\ Forall nan_leaf c).
Proof.
  intros HL HC HB S2 HD IR R0 E i Hi. unfold run_langevin in E. apply bind_ok in E. destruct E as (u & _ & E). apply bind_ok in E. destruct E as (f1 & E2 & E3).
  pose proof (finish_ok _ _ _ _ _ _ E3) as (_ & _ & D & _).
  assert (NR : num_runs (F64 L) conf = Z.to_nat (runs conf)) by exact (proj1 (num_runs_small (F64 L) conf IR R0)).
  unfold range in E2. rewrite Nat.sub_0_r in E2.
  apply (fold_wrote (fun f => f) _ (c_file conf) (fun _ ls => exists r, ls = l_header (F64 L) :: map numbers r /\ sound_leaf r /\ r <> [] /\ (ssize conf = hsize conf -> exists a c, r = a ++ c /\ Forall full_leaf a /\ Forall nan_leaf c)) 0 (num_runs (F64 L) conf) (Z.to_nat (offset conf))) in E2.
  - destruct E2 as (lss & F2 & W). assert (LL := F2_length _ _ _ F2). rewrite seq_length in LL.
    destruct (nth_error lss i) as [ls|] eqn:EN; [|apply nth_error_None in EN; lia].
    destruct (F2_nth _ _ _ F2 i ls EN) as (r & -> & Q). exists r. split; [|exact Q].
    destruct (wrote_dat _ _ _ _ _ W D) as [WW _]. apply WW. exact (logs_in _ _ _ _ _ EN).
  - intros j h h' Hj Eh. apply bind_ok in Eh. destruct Eh as (lc & Elc & Eh). apply bind_ok in Eh. destruct Eh as (out & Eo & Eh).
    injection Eh as <-. exists (l_header (F64 L) :: map numbers out). split.
    + exists out. destruct (leaf_worker L conf g _ _ fuel lc out HL HC HB S2 (HD j) Elc Eo) as (A & B & _ & _ & C). auto.
    + rewrite Nat.sub_0_r. apply (wrote_append _ _ _ [l_header (F64 L)] (map numbers out)). apply (wrote_append _ _ _ [] [l_header (F64 L)]). apply wrote_create.
Qed.
Lemma leaf64 L n s (lc : lchain f64) : accurate L -> wf n s (base lc) -> (2 <= n)%nat -> (2 <= s)%nat -> rough_sites (base lc) -> mild_drive (base lc) -> plain_dt (c_dt (vars (base lc))) ->
  small (powerRZ 2 100) (t (base lc)) -> Forall (made (powerRZ 2 (-44))) (spins (base lc)) ->
  exists row, lchain_log (F64 L) lc = Ok [row] /\
    ((none_lost (base lc) /\ full_leaf row) \/ (~ none_lost (base lc) /\ sub_kept s (spins (base lc)) /\ sub_leaf row) \/ (~ sub_kept s (spins (base lc)) /\ nan_leaf row)).
Proof.
  destruct lc as [F g]. cbn [base]. intros HL W Hn Hs Hm Hd Hdt [Vt Bt] HM.
  assert (Ht : forall i, sized 101 (tick F i)).
  { induction i as [|i IH]; [|exact (tick_step _ _ IH Hdt)]. split; [exact Vt|]. cbn [tick Nat.iter nat_rect]. rewrite <- value_fval. eapply Rle_trans; [exact Bt|]. rewrite pow_bpow. apply bpow_le. lia. }
  destruct (leaf_line L HL n s F g W Hn Hs Hm Hd Ht 0 (spins F) (wf_spins _ _ _ W) HM) as (row & E & C). rewrite at_step0 in E. exists row. auto.
Qed.
