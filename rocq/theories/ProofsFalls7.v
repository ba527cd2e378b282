(** Random numbers with which every estimate a search asks for is as good as wanted (C83). *)
From Coq Require Import Reals List ZArith Lra Lia Arith Psatz FunctionalExtensionality Classical.
From Verif Require Import Num Monad NumR Spin Config Chain Fit SpecVec SpecChain SpecMC SpecTotal SpecFit SpecSampling SpecMean SpecFalls
  ProofsEnergy ProofsFit ProofsTotal ProofsFitR ProofsSampling ProofsMean ProofsMean2 ProofsMean3 ProofsMean7 ProofsMean8 ProofsFalls ProofsFalls2 ProofsFalls3 ProofsFalls5.
Import ListNotations.
Local Open Scope R_scope.

(** A state whose density is close to the average *)
Lemma steps_cross (f : nat -> R) a e : forall K, f 0%nat <= a + e -> a - e <= f K -> (forall i, (i < K)%nat -> Rabs (f (S i) - f i) <= e) -> exists i, (i <= K)%nat /\ Rabs (f i - a) <= e.
Proof.
  induction K as [|K IH]; intros H0 HK St.
  - exists 0%nat. split; [lia|]. apply Rabs_le. lra.
  - destruct (Rle_dec (f (S K)) (a + e)) as [L|L].
    + exists (S K). split; [lia|]. apply Rabs_le. lra.
    + pose proof (St K ltac:(lia)) as D. pose proof (Rle_abs (f (S K) - f K)). destruct IH as (i & Hi & Q); [exact H0| |intros; apply St; lia|exists i; split; [lia|exact Q]].
      assert (0 <= e) by (eapply Rle_trans; [apply Rabs_pos|exact D]). lra.
Qed.
Definition inner (x : nat -> R * R) : Prop := forall i, unit_draw (fst (x i)) /\ unit_draw (snd (x i)).
Lemma inner_cube x : inner x -> in_cube x.
Proof. intros H i. destruct (H i) as [[A B] [C D]]. lra. Qed.
Lemma grid_inner n N x : (forall i, (i < n)%nat -> In (x i) (grid2 N)) -> inner (cube_of n x).
Proof.
  intros Hx i. unfold cube_of, unit_draw. destruct (Nat.ltb_spec i n) as [L|L]; [|cbn; lra].
  destruct (grid2_unit N _ (Hx i L)) as [[A B] [C D]]. lra.
Qed.
Definition line (x y : nat -> R * R) (t : R) : nat -> R * R := fun i => ((1 - t) * fst (x i) + t * fst (y i), (1 - t) * snd (x i) + t * snd (y i)).
Lemma convex a b t : unit_draw a -> unit_draw b -> 0 <= t <= 1 -> unit_draw ((1 - t) * a + t * b).
Proof.
  unfold unit_draw. intros Ha Hb Ht. split; [nra|]. destruct (Rle_dec a b) as [L|L].
  - apply Rle_lt_trans with b; [|lra]. assert (0 <= (1 - t) * (b - a)) by (apply Rmult_le_pos; lra). lra.
  - apply Rle_lt_trans with a; [|lra]. assert (0 <= t * (a - b)) by (apply Rmult_le_pos; lra). lra.
Qed.
Lemma line_inner x y t : inner x -> inner y -> 0 <= t <= 1 -> inner (line x y t).
Proof. intros Hx Hy Ht i. destruct (Hx i), (Hy i). unfold line. cbn [fst snd]. split; apply convex; assumption. Qed.
Lemma line_0 x y : line x y 0 = x.
Proof. apply functional_extensionality. intros i. unfold line. destruct (x i). cbn. f_equal; ring. Qed.
Lemma line_1 x y : line x y 1 = y.
Proof. apply functional_extensionality. intros i. unfold line. destruct (x i), (y i). cbn. f_equal; ring. Qed.

Lemma close_state n b H c (g : chain R -> R) v eta : regular (fun x => g (at_dirs c n x)) -> is_boltzmann_avg n b H c (fun _ => g) v -> 0 < eta ->
  exists x, inner x /\ Rabs (g (at_dirs c n x) - v) <= eta.
Proof.
  intros [_ Rg] Hv He. set (F := fun x => g (at_dirs c n x)). set (e := eta / 2).
  destruct (Hv e ltac:(unfold e; lra)) as [N0 HN]. specialize (HN N0 (le_n _)). unfold R_dist, boltzmann_avg in HN.
  set (l := grid2 (S N0)) in *. set (wt := fun x => exp (- (b * H (at_dirs c n x)))).
  set (Z := gmean (0, 0) l n (fun x => exp (- (b * H (at_dirs c n x))))) in *. set (A := gmean (0, 0) l n _) in HN at 1.
  assert (Zp : 0 < Z) by (apply gmean_pos; [apply grid2_not_nil; lia|intros; apply exp_pos]).
  set (a := A / Z) in *. assert (Ea : A = a * Z) by (unfold a; field; lra).
  assert (Lo : exists x, inner x /\ F x <= a).
  { apply NNPP. intros C. assert (Q : a * Z < A); [|lra]. unfold A, Z. rewrite <- gmean_scale.
    assert (P : 0 < gmean (0, 0) l n (fun x => wt x * (F x - a))).
    { apply gmean_pos; [apply grid2_not_nil; lia|]. intros x Hx. apply Rmult_lt_0_compat; [apply exp_pos|]. apply Rnot_le_lt. intros K. apply C.
      exists (cube_of n x). split; [eapply grid_inner, Hx|]. unfold F in *. rewrite cube_dirs. lra. }
    replace (fun x => wt x * (F x - a)) with (fun x => (exp (- (b * H (at_dirs c n x))) * g (at_dirs c n x)) + (-1) * (a * exp (- (b * H (at_dirs c n x))))) in P by (apply functional_extensionality; intros x; unfold wt, F; ring).
    rewrite gmean_plus, (gmean_scale (0, 0) l n (-1)) in P. lra. }
  assert (Hi : exists y, inner y /\ a <= F y).
  { apply NNPP. intros C. assert (Q : A < a * Z); [|lra]. unfold A, Z. rewrite <- gmean_scale.
    assert (P : 0 < gmean (0, 0) l n (fun x => wt x * (a - F x))).
    { apply gmean_pos; [apply grid2_not_nil; lia|]. intros x Hx. apply Rmult_lt_0_compat; [apply exp_pos|]. apply Rnot_le_lt. intros K. apply C.
      exists (cube_of n x). split; [eapply grid_inner, Hx|]. unfold F in *. rewrite cube_dirs. lra. }
    replace (fun x => wt x * (a - F x)) with (fun x => (a * exp (- (b * H (at_dirs c n x)))) + (-1) * (exp (- (b * H (at_dirs c n x))) * g (at_dirs c n x))) in P by (apply functional_extensionality; intros x; unfold wt, F; ring).
    rewrite gmean_plus, (gmean_scale (0, 0) l n (-1)) in P. lra. }
  destruct Lo as (x & Ix & Lx), Hi as (y & Iy & Ly).
  destruct (Rg e ltac:(unfold e; lra)) as (d & Hd & U). destruct (archimed_cor1 d Hd) as (K & HK & K0).
  assert (Kp : 0 < INR K) by (apply lt_0_INR; lia).
  assert (Ht : forall i, (i <= K)%nat -> 0 <= INR i / INR K <= 1).
  { intros i Hi. apply le_INR in Hi. pose proof (pos_INR i). split; [apply Rmult_le_pos; [lra|left; apply Rinv_0_lt_compat, Kp]|]. apply Rmult_le_reg_r with (INR K); [lra|]. replace (INR i / INR K * INR K) with (INR i) by (field; lra). lra. }
  destruct (steps_cross (fun i => F (line x y (INR i / INR K))) a e K) as (i & Hi & Q).
  - cbn [INR]. replace (0 / INR K) with 0 by (field; lra). rewrite line_0. unfold e. lra.
  - replace (INR K / INR K) with 1 by (field; lra). rewrite line_1. unfold e. lra.
  - intros i Hi. apply U; try (apply inner_cube, line_inner; auto; apply Ht; lia).
    assert (S1 : INR (S i) / INR K - INR i / INR K = / INR K) by (rewrite S_INR; field; lra).
    intros j. destruct (Ix j) as [[A1 A2] [A3 A4]], (Iy j) as [[B1 B2] [B3 B4]]. unfold line. cbn [fst snd]. pose proof (Rinv_0_lt_compat _ Kp) as Ip.
    set (t1 := INR (S i) / INR K) in *. set (t0 := INR i / INR K) in *. replace t1 with (t0 + / INR K) by lra.
    split; apply Rabs_le; split; nra.
  - exists (line x y (INR i / INR K)). split; [apply line_inner; auto|].
    change (g (at_dirs c n (line x y (INR i / INR K)))) with (F (line x y (INR i / INR K))).
    replace (F (line x y (INR i / INR K)) - v) with ((F (line x y (INR i / INR K)) - a) + (a - v)) by ring.
    eapply Rle_trans; [apply Rabs_triang|]. unfold e in *. lra.
Qed.

(** Moves that take the chain there *)
Definition to_dirs (n : nat) (y : nat -> R * R) (i : nat) : move := mkMove (i mod n) (fst (y (i mod n)%nat)) (snd (y (i mod n)%nat)) 0.
Lemma to_fair n y i : inner y -> fair (to_dirs n y i).
Proof. intros H. destruct (H (i mod n)%nat). unfold fair, to_dirs, unit_draw in *. cbn. lra. Qed.
Lemma path_to n H b y c0 : (1 <= n)%nat -> length (spins c0) = n -> forall j,
  mpath n H b (to_dirs n y) c0 j = set_spins c0 (map (fun i => if (i <? j)%nat then uniform_dir (fst (y i)) (snd (y i)) else S_ c0 i) (seq 0 n)).
Proof.
  intros Hn L. induction j as [|j IH].
  - cbn [mpath]. destruct c0 as [a e l t0 vr f]. unfold set_spins. cbn in L |- *. f_equal. subst n. clear. unfold S_, at_. cbn [spins].
    symmetry. apply nth_ext with vzero vzero; [rewrite map_length, seq_length; reflexivity|]. intros i Hi. pose proof Hi as Hi'. rewrite map_length, seq_length in Hi'.
    rewrite (nth_indep (map _ _) vzero (nth 0 l vzero)) by exact Hi. clear Hi. rename Hi' into Hi. rewrite (map_nth (fun i => nth i l vzero)), seq_nth by exact Hi. reflexivity.
  - cbn [mpath]. rewrite IH. set (c1 := set_spins c0 _).
    assert (Len : length (spins c1) = n) by (unfold c1; cbn; rewrite map_length, seq_length; reflexivity).
    rewrite mstep_yes; cbn [mv_site mv_1 mv_2 mv_u to_dirs]; [|right; apply exp_pos]. unfold moved. rewrite Len. unfold c1 at 1. unfold set_spins at 1. unfold set_spins at 1. cbn [j_couple static_h spins t vars has_file]. unfold set_spins. f_equal.
    apply map_ext_in. intros i Hi. apply in_seq in Hi. rewrite Nat.mod_mod by lia.
    assert (Sc : S_ c1 i = if (i <? j)%nat then uniform_dir (fst (y i)) (snd (y i)) else S_ c0 i).
    { unfold S_ at 1, at_, c1. cbn [spins set_spins]. set (F := fun i : nat => _). rewrite (nth_indep _ vzero (F 0%nat)) by (rewrite map_length, seq_length; lia). rewrite (map_nth F), seq_nth by lia. reflexivity. }
    destruct (Nat.eqb_spec i (j mod n)) as [E|E].
    + rewrite <- E. replace (i <? S j)%nat with true; [reflexivity|]. symmetry. apply Nat.ltb_lt. pose proof (Nat.mod_le j n ltac:(lia)). lia.
    + rewrite Sc. destruct (Nat.ltb_spec i j), (Nat.ltb_spec i (S j)); try reflexivity; [lia|].
      exfalso. apply E. replace j with i by lia. symmetry. apply Nat.mod_small. lia.
Qed.
Lemma path_there n H b y c0 j : (1 <= n)%nat -> length (spins c0) = n -> (n <= j)%nat -> mpath n H b (to_dirs n y) c0 j = at_dirs c0 n y.
Proof.
  intros Hn L Hj. rewrite path_to by assumption. unfold at_dirs. f_equal. apply map_ext_in. intros i Hi. apply in_seq in Hi. replace (i <? j)%nat with true; [reflexivity|]. symmetry. apply Nat.ltb_lt. lia.
Qed.
Lemma Rsum_same m k : Rsum m (fun _ => k) = INR m * k.
Proof. induction m as [|m IH]; [cbn; ring|]. rewrite S_INR. cbn [Rsum]. rewrite IH. ring. Qed.
Lemma mean_there n H b y c0 (f : chain R -> R) m g : (1 <= m)%nat -> (1 <= n <= g)%nat -> length (spins c0) = n -> path_mean m g f (mpath n H b (to_dirs n y) c0) = f (at_dirs c0 n y).
Proof.
  intros Hm Hg L. unfold path_mean. rewrite (Rsum_eq m _ (fun _ => f (at_dirs c0 n y))).
  - rewrite Rsum_same. pose proof (lt_0_INR m ltac:(lia)). field. lra.
  - intros i _. rewrite path_there; [reflexivity|lia|exact L|nia].
Qed.

(** Brackets only depend on the estimates before *)
Lemma bracket_agree est est' t low K : (forall j b, (j < K)%nat -> est j b = est' j b) -> forall k lo hi, bracket est t low k lo hi -> (k <= K)%nat -> bracket est' t low k lo hi.
Proof.
  intros E k lo hi B. induction B as [|k lo hi e B IH D Ee C|k lo hi e B IH D Ee C]; intros Hk; [apply first_bracket| |].
  - apply upper_half with e; auto; [apply IH; lia|]. rewrite <- E by lia. exact Ee.
  - apply lower_half with e; auto; [apply IH; lia|]. rewrite <- E by lia. exact Ee.
Qed.
Lemma bracket_unique est t low k lo hi : low < 5 -> bracket est t low k lo hi -> forall k' lo' hi', bracket est t low k' lo' hi' -> k = k' -> lo = lo' /\ hi = hi'.
Proof.
  intros Hl B. induction B as [|k lo hi e B IH D Ee C|k lo hi e B IH D Ee C]; intros k' lo' hi' B' Ek.
  - destruct B' as [|k' lo' hi' e' B' D' Ee' C'|k' lo' hi' e' B' D' Ee' C']; [auto|lia|lia].
  - destruct (bracket_in _ _ _ _ _ _ Hl B) as (K1 & _ & _ & _ & K3). destruct B' as [|k' lo' hi' e' B' D' Ee' C'|k' lo' hi' e' B' D' Ee' C']; [lia| |];
      destruct (bracket_in _ _ _ _ _ _ Hl B') as (K1' & _ & _ & _ & K3'); assert (k = k') by lia; subst k'; destruct (IH k lo' hi' B' eq_refl); subst lo' hi'; rewrite Ee in Ee'; injection Ee' as <-; [auto|congruence].
  - destruct (bracket_in _ _ _ _ _ _ Hl B) as (K1 & _ & _ & _ & K3). destruct B' as [|k' lo' hi' e' B' D' Ee' C'|k' lo' hi' e' B' D' Ee' C']; [lia| |];
      destruct (bracket_in _ _ _ _ _ _ Hl B') as (K1' & _ & _ & _ & K3'); assert (k = k') by lia; subst k'; destruct (IH k lo' hi' B' eq_refl); subst lo' hi'; rewrite Ee in Ee'; injection Ee' as <-; [congruence|auto].
Qed.
Lemma bracket_few est t low k lo hi : 0 < low < 5 -> bracket est t low k lo hi -> (k = 1%nat /\ hi - lo <= 5) \/ ((3 <= k <= 15)%nat /\ (hi - lo) * 2 ^ (k - 2) <= 5).
Proof.
  intros Hl B. induction B as [|k lo hi e B IH D Ee C|k lo hi e B IH D Ee C]; [left; split; [reflexivity|lra]| |]; right.
  - destruct IH as [[-> W]|[Hk W]]; [split; [lia|]; change (Nat.max 3 2 - 2)%nat with 1%nat; cbn [pow]; lra|].
    destruct (Nat.eq_dec k 15) as [->|Hne]; [cbn [Nat.sub pow] in W; lra|]. split; [lia|]. replace (Nat.max 3 (S k) - 2)%nat with (S (k - 2)) by lia. cbn [pow]. lra.
  - destruct IH as [[-> W]|[Hk W]]; [split; [lia|]; change (Nat.max 3 2 - 2)%nat with 1%nat; cbn [pow]; lra|].
    destruct (Nat.eq_dec k 15) as [->|Hne]; [cbn [Nat.sub pow] in W; lra|]. split; [lia|]. replace (Nat.max 3 (S k) - 2)%nat with (S (k - 2)) by lia. cbn [pow]. lra.
Qed.

Lemma good_draws q n s (conf : config R) d sc0 : 
  chain_new ERNum (config_map Some (fit_conf q conf)) d = Ok (fin sc0) -> vars sc0 = fit_conf q conf -> wf n s sc0 ->
  (2 <= n)%nat -> (n <= Z.to_nat (gap (fit_ensemble q)))%nat -> (1 <= s)%nat -> ens_ok (fit_ensemble q) n conf -> (q = Sbeta -> tau conf <> 0) ->
  let w := 2 * PI / tau conf in forall v eta,
  (forall b, low_end q <= b <= 5 -> is_boltzmann_avg n b (ens_energy (fit_ensemble q) n s w) sc0 (fun _ => fit_density q n s w) (v b)) -> 0 < eta ->
  exists mv : nat -> nat -> move, (forall k i, fair (mv k i)) /\
    forall k b, asked q (config_map Some conf) (fun k => with_moves d (mv k)) k b ->
      exists x, energy_at ERNum q (config_map Some conf) (Some b) (with_moves d (mv k)) = Ok (Some x) /\ Rabs (x - v b) <= eta.
Proof.
  intros Cn V W Hn Hg Hs Ho Ht w v eta Hv He. pose proof (low_range q) as Lq.
  assert (Len : length (spins sc0) = n) by (destruct W; assumption).
  assert (Pt : forall b, low_end q < b < 5 -> exists y, inner y /\ Rabs (one q n s conf sc0 b (to_dirs n y) - v b) <= eta).
  { intros b Hb. destruct (close_state n b _ sc0 _ (v b) eta (reg_fit q n s w sc0) (Hv b ltac:(lra)) He) as (y & Iy & Q). exists y. split; [exact Iy|].
    unfold one. rewrite mean_there; [|lia|lia|exact Len]. destruct q; exact Q. }
  assert (K : forall K, exists mv : nat -> nat -> move, (forall k i, fair (mv k i)) /\ forall k b, (k < K)%nat -> asked q (config_map Some conf) (fun k => with_moves d (mv k)) k b ->
      exists x, energy_at ERNum q (config_map Some conf) (Some b) (with_moves d (mv k)) = Ok (Some x) /\ Rabs (x - v b) <= eta).
  { induction K as [|K (mv & Fm & IH)]; [exists (fun _ _ => still); split; [intros; apply still_fair|lia]|].
    destruct (classic (exists lo hi, bracket (fun k b => energy_at ERNum q (config_map Some conf) b (with_moves d (mv k))) (ednsty (config_map Some conf)) (low_end q) K lo hi)) as [(lo & hi & B)|No].
    - destruct (bracket_in _ _ _ _ _ _ (proj2 Lq) B) as (_ & B1 & B2 & B3 & _).
      destruct (Pt ((lo + hi) / 2) ltac:(lra)) as (y & Iy & Q).
      exists (fun k => if (k =? K)%nat then to_dirs n y else mv k). split; [intros k i; destruct (k =? K)%nat; [apply to_fair, Iy|apply Fm]|].
      assert (Ag : forall j b, (j < K)%nat -> energy_at ERNum q (config_map Some conf) b (with_moves d (if (j =? K)%nat then to_dirs n y else mv j)) = energy_at ERNum q (config_map Some conf) b (with_moves d (mv j))) by (intros j b Hj; replace (j =? K)%nat with false by (symmetry; apply Nat.eqb_neq; lia); reflexivity).
      intros k b Hk (lo' & hi' & B' & ->).
      assert (B2' : bracket (fun k b => energy_at ERNum q (config_map Some conf) b (with_moves d (mv k))) (ednsty (config_map Some conf)) (low_end q) k lo' hi').
      { eapply bracket_agree; [|exact B'|exact (le_n k)]. intros j b Hj. apply Ag. lia. }
      destruct (Nat.eqb_spec k K) as [->|Hne].
      + destruct (bracket_unique _ _ _ _ _ _ (proj2 Lq) B _ _ _ B2' eq_refl) as [<- <-].
        exists (one q n s conf sc0 ((lo + hi) / 2) (to_dirs n y)). split; [|exact Q]. apply one_value; auto. intros i. apply to_fair, Iy.
      + apply IH; [lia|]. exists lo', hi'. auto.
    - exists mv. split; [exact Fm|]. intros k b Hk A. destruct (Nat.eq_dec k K) as [->|Hne]; [|apply IH; [lia|exact A]].
      exfalso. apply No. destruct A as (lo & hi & B & _). eauto. }
  destruct (K 16%nat) as (mv & Fm & Q). exists mv. split; [exact Fm|]. intros k b A. apply Q; [|exact A].
  destruct A as (lo & hi & B & _). destruct (bracket_few _ _ _ _ _ _ Lq B) as [[-> _]|[Hk _]]; lia.
Qed.
