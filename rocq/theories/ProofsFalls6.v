(** The average energy as a function of the inverse temperature: one temperature for each energy, and a
    search on an energy that rises (C83). *)
From Coq Require Import Reals List ZArith Lra Lia Arith Psatz FunctionalExtensionality.
From Verif Require Import Num Monad NumR Spin Config Chain Fit SpecVec SpecChain SpecMC SpecTotal SpecFit SpecSampling SpecMean
  ProofsEnergy ProofsFit ProofsTotal ProofsFitR ProofsMean ProofsMean2 ProofsMean3 ProofsMean7 ProofsFalls ProofsFalls2 ProofsFalls3.
Import ListNotations.
Local Open Scope R_scope.

Lemma averages k n s w c (g : chain R -> R) : regular (fun x => g (at_dirs c n x)) ->
  exists v : R -> R, forall b, is_boltzmann_avg n b (ens_energy k n s w) c (fun _ => g) (v b).
Proof.
  intros Hg. assert (K : forall b, {l | is_boltzmann_avg n b (ens_energy k n s w) c (fun _ => g) l}).
  { intros b. apply R_complete. destruct (average_exists k n s c w b g Hg) as [l Hl]. apply CV_Cauchy. exists l. exact Hl. }
  exists (fun b => proj1_sig (K b)). intros b. exact (proj2_sig (K b)).
Qed.

Section Ens.
Context (k : ensemble) (n s : nat) (w : R) (c : chain R).
Notation H := (ens_energy k n s w).
Context (Two : exists x y, in_cube x /\ in_cube y /\ H (at_dirs c n x) <> H (at_dirs c n y)).

Lemma avg_strict b1 b2 v1 v2 : 0 <= b1 -> b1 < b2 ->
  is_boltzmann_avg n b1 H c (fun _ => H) v1 -> is_boltzmann_avg n b2 H c (fun _ => H) v2 -> v2 < v1.
Proof using Two.
  intros B1 B2 H1 H2. destruct (average_exists k n s c w 0 H (reg_energy k n s w c)) as [u Hu].
  destruct (average_exists k n s c w 0 (fun x => H x * H x) (reg_mult _ _ (reg_energy k n s w c) (reg_energy k n s w c))) as [q Hq].
  destruct (reg_energy k n s w c) as [[M HM] _].
  pose proof (variance_pos k n s w c u q Hu Hq Two) as V.
  pose proof (avg_steep n H c M b1 b2 v1 v2 u q HM B1 ltac:(lra) H1 H2 Hu Hq) as S.
  assert (0 < (b2 - b1) * exp (- (4 * b2 * M)) * (q - u * u)); [|lra].
  apply Rmult_lt_0_compat; [apply Rmult_lt_0_compat; [lra|apply exp_pos]|exact V].
Qed.

Lemma one_temperature v b1 b2 e : (forall b, is_boltzmann_avg n b H c (fun _ => H) (v b)) -> 0 <= b1 -> b1 <= b2 -> v b2 <= e <= v b1 ->
  exists b, b1 <= b <= b2 /\ v b = e /\ forall b', 0 <= b' -> v b' = e -> b' = b.
Proof using Two.
  intros Hv B1 B2 He. destruct (reg_energy k n s w c) as [[M HM] _].
  assert (Lip : forall a b, Rabs (v a - v b) <= 4 * M * M * Rabs (a - b)) by (intros a b; apply (avg_slope n H c H M M); auto).
  assert (C : continuity (fun b => v b - e)).
  { intros a eps Heps. set (L := 4 * M * M). assert (L0 : 0 <= L) by (unfold L; nra).
    exists (eps / (L + 1)). split; [apply Rdiv_lt_0_compat; lra|]. intros x [_ Hx]. cbn in Hx |- *. unfold R_dist in *.
    replace (v x - e - (v a - e)) with (v x - v a) by ring. eapply Rle_lt_trans; [apply Lip|]. fold L.
    apply Rle_lt_trans with (L * (eps / (L + 1))).
    - apply Rmult_le_compat_l; lra.
    - apply Rmult_lt_reg_r with (L + 1); [lra|]. replace (L * (eps / (L + 1)) * (L + 1)) with (L * eps) by (field; lra). nra. }
  destruct (IVT_cor (fun b => v b - e) b1 b2 C B2) as (b & Hb & Eb); [nra|].
  exists b. split; [exact Hb|]. split; [lra|]. intros b' Hb' E'.
  destruct (Rtotal_order b' b) as [L|[E|L]]; [exfalso|exact E|exfalso].
  - pose proof (avg_strict b' b _ _ Hb' L (Hv b') (Hv b)). lra.
  - pose proof (avg_strict b b' _ _ ltac:(lra) L (Hv b) (Hv b')). lra.
Qed.
End Ens.

(** The density of --fit for uncoupled spins in a field along z *)
Lemma free_density n w c h x : (1 <= n)%nat -> h <> 0 -> (forall i, (i < n)%nat -> J_ c i = vzero) -> (forall i, (i < n)%nat -> h_ c i = mk3 0 0 h) ->
  fit_density Sbeta n n w (at_dirs c n x) = (h + w) / (h * INR n) * ens_energy Estatic n n w (at_dirs c n x).
Proof.
  intros Hn Hh HJ HB. set (c' := at_dirs c n x). assert (HJ' : forall i, (i < n)%nat -> J_ c' i = vzero) by exact HJ. assert (HB' : forall i, (i < n)%nat -> h_ c' i = mk3 0 0 h) by exact HB.
  clearbody c'. pose proof (lt_0_INR n ltac:(lia)) as np.
  assert (E : ring_energy n (S_ c') (J_ c') (h_ c') = h * vz (Vsum n (S_ c'))).
  { unfold ring_energy. transitivity (Rsum n (fun i => h * vz (S_ c' i))).
    - apply Rsum_ext. intros i Hi. rewrite (HB' i Hi). unfold bond. rewrite (HJ' i Hi). unfold dot, vhad, vzero. cbn [vx vy vz]. ring.
    - rewrite Rsum_scal. f_equal. clear. induction n as [|n IH]; [reflexivity|]. cbn [Rsum Vsum vadd vz]. rewrite IH. reflexivity. }
  cbn [fit_density ens_energy]. rewrite E. field. lra.
Qed.
Lemma free_two n w c h : (1 <= n)%nat -> h <> 0 -> (forall i, (i < n)%nat -> J_ c i = vzero) -> (forall i, (i < n)%nat -> h_ c i = mk3 0 0 h) ->
  exists x y, in_cube x /\ in_cube y /\ ens_energy Estatic n n w (at_dirs c n x) <> ens_energy Estatic n n w (at_dirs c n y).
Proof.
  intros Hn Hh HJ HB. pose proof (lt_0_INR n ltac:(lia)) as np.
  assert (V : forall v, ens_energy Estatic n n w (at_dirs c n (fun _ => (0, v))) = INR n * (h * (1 - 2 * v))).
  { intros v. cbn [ens_energy]. unfold ring_energy. transitivity (Rsum n (fun i => h * (1 - 2 * v))).
    - apply Rsum_ext. intros i Hi. change (h_ (at_dirs c n (fun _ => (0, v))) i) with (h_ c i). change (J_ (at_dirs c n (fun _ => (0, v)))) with (J_ c).
      unfold bond. rewrite (HB i Hi), (HJ i Hi), !dirs_spin. rewrite (proj2 (Nat.ltb_lt _ _) Hi). unfold uniform_dir, dot, vhad, vzero. cbn [fst snd vx vy vz]. ring.
    - clear. induction n as [|n IH]; [cbn; ring|]. rewrite S_INR. cbn [Rsum]. rewrite IH. ring. }
  exists (fun _ => (0, 0)), (fun _ => (0, 1)). split; [intros i; cbn; lra|]. split; [intros i; cbn; lra|]. rewrite !V. nra.
Qed.
Lemma find_rising n (conf : config R) c h v : (1 <= n)%nat -> let w := 2 * PI / tau conf in h < 0 -> 0 < h + w ->
  (forall i, (i < n)%nat -> J_ c i = vzero) -> (forall i, (i < n)%nat -> h_ c i = mk3 0 0 h) ->
  (forall b, low_end Sbeta <= b <= 5 -> is_boltzmann_avg n b (ens_energy Estatic n n w) c (fun _ => fit_density Sbeta n n w) (v b)) ->
  (forall a b, low_end Sbeta <= a -> a < b -> b <= 5 -> v a < v b) /\
  forall eta fuel rng r c',
  (forall k b e, asked Sbeta (config_map Some conf) rng k b -> energy_at ERNum Sbeta (config_map Some conf) (Some b) (rng k) = Ok e -> exists x, e = Some x /\ Rabs (x - v b) <= eta) ->
  find_of ERNum Sbeta fuel rng (config_map Some conf) = Ok (r, c') ->
  let m := (low_end Sbeta + 5) / 2 in
  (ednsty conf + eta < v m -> exists b, r = Some b /\ Rabs (b - 5) <= 1 / 2000) /\
  (v m + eta < ednsty conf -> exists b, r = Some b /\ Rabs (b - low_end Sbeta) <= 1 / 2000).
Proof.
  intros Hn w Hh Hw HJ HB Hv. pose proof (lt_0_INR n ltac:(lia)) as np. pose proof (low_range Sbeta) as Lq.
  set (K := (h + w) / (h * INR n)). assert (K0 : K < 0).
  { unfold K. replace ((h + w) / (h * INR n)) with (- ((h + w) / (- h * INR n))) by (field; lra). apply Ropp_lt_gt_0_contravar, Rdiv_lt_0_compat; [lra|nra]. }
  destruct (averages Estatic n n w c (ens_energy Estatic n n w) (reg_energy Estatic n n w c)) as [u Hu].
  assert (Ev : forall b, low_end Sbeta <= b <= 5 -> v b = K * u b).
  { intros b Hb. eapply UL_sequence; [exact (Hv b Hb)|]. pose proof (avg_scale n b _ c K _ _ (Hu b)) as Q.
    unfold is_boltzmann_avg in *. eapply Un_cv_ext; [|exact Q]. intros N. unfold boltzmann_avg, Rdiv. f_equal. apply gmean_ext. intros x _. f_equal. symmetry. apply free_density; auto; lra. }
  assert (Up : forall a b, low_end Sbeta <= a -> a < b -> b <= 5 -> v a < v b).
  { intros a b A L B. rewrite !Ev by lra. pose proof (avg_strict Estatic n n w c (free_two n w c h Hn ltac:(lra) HJ HB) a b _ _ ltac:(lra) L (Hu a) (Hu b)). nra. }
  split; [exact Up|]. intros eta fuel rng r c' He H m.
  destruct (find_unreachable Sbeta fuel rng (config_map Some conf) r c' H) as [FL FU].
  assert (Up' : forall a b, low_end Sbeta <= a -> a <= b -> b <= 5 -> v a <= v b) by (intros a b A [L| ->] B; [left; apply Up; lra|right; reflexivity]).
  change (ednsty (config_map Some conf)) with (Some (ednsty conf)) in *.
  split; intros Hm.
  - apply FU. 
    assert (All : forall k lo hi, bracket (fun k b => energy_at ERNum Sbeta (config_map Some conf) b (rng k)) (Some (ednsty conf)) (low_end Sbeta) k lo hi ->
      low_end Sbeta <= lo < 5 /\ hi = 5 /\ m <= (lo + hi) / 2 /\ forall e, energy_at ERNum Sbeta (config_map Some conf) (Some ((lo + hi) / 2)) (rng k) = Ok e -> er_ltb (Some (ednsty conf)) e = true).
    { assert (Dec : forall k lo hi, bracket (fun k b => energy_at ERNum Sbeta (config_map Some conf) b (rng k)) (Some (ednsty conf)) (low_end Sbeta) k lo hi -> hi = 5 -> m <= (lo + hi) / 2 ->
        forall e, energy_at ERNum Sbeta (config_map Some conf) (Some ((lo + hi) / 2)) (rng k) = Ok e -> er_ltb (Some (ednsty conf)) e = true).
      { intros k lo hi B E5 Hlo e Ee. destruct (He k ((lo + hi) / 2) e) as (x & -> & Dx); [exists lo, hi; auto|exact Ee|].
        destruct (bracket_in _ _ _ _ _ _ (proj2 Lq) B) as (_ & B1 & B2 & B3 & _).
        pose proof (Up' m ((lo + hi) / 2) ltac:(unfold m; lra) Hlo ltac:(lra)). pose proof (Rle_abs (- (x - v ((lo + hi) / 2)))) as D2. rewrite Rabs_Ropp in D2.
        cbn. apply Rltb_true. lra. }
      intros k lo hi B. pose proof B as B0. induction B as [|k lo hi e B IH D Ee C|k lo hi e B IH D Ee C].
      - split; [lra|]. split; [reflexivity|]. split; [unfold m; lra|]. apply (Dec _ _ _ B0); [reflexivity|unfold m; lra].
      - destruct (IH B) as (A1 & -> & A3 & A4). split; [lra|]. split; [reflexivity|]. split; [lra|]. apply (Dec _ _ _ B0); [reflexivity|lra].
      - destruct (IH B) as (A1 & -> & A3 & A4). rewrite (A4 e Ee) in C. discriminate. }
    intros k b e (lo & hi & B & ->) Ee. apply (All k lo hi B). exact Ee.
  - apply FL.
    assert (All : forall k lo hi, bracket (fun k b => energy_at ERNum Sbeta (config_map Some conf) b (rng k)) (Some (ednsty conf)) (low_end Sbeta) k lo hi ->
      lo = low_end Sbeta /\ low_end Sbeta < hi <= 5 /\ (lo + hi) / 2 <= m /\ forall e, energy_at ERNum Sbeta (config_map Some conf) (Some ((lo + hi) / 2)) (rng k) = Ok e -> er_ltb (Some (ednsty conf)) e = false).
    { assert (Dec : forall k lo hi, bracket (fun k b => energy_at ERNum Sbeta (config_map Some conf) b (rng k)) (Some (ednsty conf)) (low_end Sbeta) k lo hi -> (lo + hi) / 2 <= m ->
        forall e, energy_at ERNum Sbeta (config_map Some conf) (Some ((lo + hi) / 2)) (rng k) = Ok e -> er_ltb (Some (ednsty conf)) e = false).
      { intros k lo hi B Hlo e Ee. destruct (He k ((lo + hi) / 2) e) as (x & -> & Dx); [exists lo, hi; auto|exact Ee|].
        destruct (bracket_in _ _ _ _ _ _ (proj2 Lq) B) as (_ & B1 & B2 & B3 & _).
        pose proof (Up' ((lo + hi) / 2) m ltac:(lra) Hlo ltac:(unfold m; lra)). pose proof (Rle_abs (x - v ((lo + hi) / 2))) as D2.
        cbn. apply Rltb_false. lra. }
      intros k lo hi B. pose proof B as B0. induction B as [|k lo hi e B IH D Ee C|k lo hi e B IH D Ee C].
      - split; [reflexivity|]. split; [lra|]. split; [unfold m; lra|]. apply (Dec _ _ _ B0). unfold m; lra.
      - destruct (IH B) as (-> & A1 & A3 & A4). rewrite (A4 e Ee) in C. discriminate.
      - destruct (IH B) as (-> & A1 & A3 & A4). split; [reflexivity|]. split; [lra|]. split; [lra|]. apply (Dec _ _ _ B0). lra. }
    intros k b e (lo & hi & B & ->) Ee. apply (All k lo hi B). exact Ee.
Qed.
