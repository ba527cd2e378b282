(** Expansions to second order with a uniform remainder. *)
From Coq Require Import Reals Lra Lia List ZArith Arith.
From Verif Require Import Num NumR SpecVec.
Local Open Scope R_scope.

Section Jet.
Context (lo hi : R).
Definition at_time (r h : R) : Prop := lo <= r /\ 0 <= h <= 1 /\ r + h <= hi.
Definition poly (a b c h : R) : R := a + h * b + h * h * c.
(** f = a + h b + h^2 c + O(h^(m+1)), uniformly in the times r and the sites in Q *)
Definition jet (Q : nat -> Prop) (m : nat) (f : R -> nat -> R -> R) (a b c : R -> nat -> R) : Prop :=
  exists K, 0 <= K /\ forall r i h, Q i -> at_time r h ->
    Rabs (a r i) <= K /\ Rabs (b r i) <= K /\ Rabs (c r i) <= K /\
    Rabs (f r i h - poly (a r i) (b r i) (c r i) h) <= K * h ^ (m + 1).

Lemma pow_le1 h m k : 0 <= h <= 1 -> (m <= k)%nat -> h ^ k <= h ^ m.
Proof.
  intros H L. replace k with (m + (k - m))%nat by lia. rewrite pow_add.
  assert (0 <= h ^ m) by (apply pow_le; lra).
  assert (h ^ (k - m) <= 1) by (rewrite <- (pow1 (k - m)); apply pow_incr; exact H).
  rewrite <- (Rmult_1_r (h ^ m)) at 2. apply Rmult_le_compat_l; assumption.
Qed.
Lemma pow_ge0 h m : 0 <= h <= 1 -> 0 <= h ^ m.
Proof. intro H. apply pow_le. lra. Qed.

Lemma jet_weak Q m m' f a b c : (m' <= m)%nat -> jet Q m f a b c -> jet Q m' f a b c.
Proof.
  intros L (K & K0 & H). exists K. split; [exact K0|]. intros r i h Hi Ht. destruct (H r i h Hi Ht) as (A & B & C & D).
  repeat split; auto. eapply Rle_trans; [exact D|]. apply Rmult_le_compat_l; [exact K0|].
  apply pow_le1; [apply Ht|lia].
Qed.
Lemma jet_eq (Q : nat -> Prop) m f f' a a' b b' c c' : jet Q m f a b c ->
  (forall r i h, Q i -> at_time r h -> f' r i h = f r i h) ->
  (forall r i, Q i -> lo <= r <= hi -> a' r i = a r i) -> (forall r i, Q i -> lo <= r <= hi -> b' r i = b r i) ->
  (forall r i, Q i -> lo <= r <= hi -> c' r i = c r i) -> jet Q m f' a' b' c'.
Proof.
  intros (K & K0 & H) F A B C. exists K. split; [exact K0|]. intros r i h Hi Ht.
  assert (lo <= r <= hi) by (unfold at_time in Ht; lra).
  rewrite F, A, B, C by assumption. apply H; assumption.
Qed.
Lemma jet_sub (Q Q' : nat -> Prop) m f a b c (p : nat -> nat) : (forall i, Q i -> Q' (p i)) -> jet Q' m f a b c ->
  jet Q m (fun r i => f r (p i)) (fun r i => a r (p i)) (fun r i => b r (p i)) (fun r i => c r (p i)).
Proof. intros P (K & K0 & H). exists K. split; [exact K0|]. intros r i h Hi Ht. apply H; auto. Qed.

Lemma jet_const (Q : nat -> Prop) m g : (exists K, forall r i, Q i -> lo <= r <= hi -> Rabs (g r i) <= K) ->
  jet Q m (fun r i _ => g r i) g (fun _ _ => 0) (fun _ _ => 0).
Proof.
  intros (K & H). exists (Rmax K 0). split; [apply Rmax_r|]. intros r i h Hi Ht.
  assert (lo <= r <= hi) by (unfold at_time in Ht; lra).
  assert (0 <= Rmax K 0) by apply Rmax_r.
  assert (0 <= h ^ (m + 1)) by (apply pow_ge0; apply Ht).
  rewrite Rabs_R0. repeat split; auto.
  - eapply Rle_trans; [apply H; assumption|apply Rmax_l].
  - unfold poly. replace (g r i - (g r i + h * 0 + h * h * 0)) with 0 by ring. rewrite Rabs_R0. apply Rmult_le_pos; assumption.
Qed.
Lemma jet_num Q m k : jet Q m (fun _ _ _ => k) (fun _ _ => k) (fun _ _ => 0) (fun _ _ => 0).
Proof. apply (jet_const Q m (fun _ _ => k)). exists (Rabs k). intros; lra. Qed.
Lemma jet_small (Q : nat -> Prop) m f : (exists K, forall r i h, Q i -> at_time r h -> Rabs (f r i h) <= K * h ^ (m + 1)) ->
  jet Q m f (fun _ _ => 0) (fun _ _ => 0) (fun _ _ => 0).
Proof.
  intros (K & H). exists (Rmax K 0). split; [apply Rmax_r|]. intros r i h Hi Ht.
  assert (0 <= Rmax K 0) by apply Rmax_r. assert (0 <= h ^ (m + 1)) by (apply pow_ge0; apply Ht).
  rewrite Rabs_R0. repeat split; auto. unfold poly. replace (f r i h - (0 + h * 0 + h * h * 0)) with (f r i h) by ring.
  eapply Rle_trans; [apply H; assumption|]. apply Rmult_le_compat_r; [assumption|apply Rmax_l].
Qed.

Lemma jet_add Q m f a b c g a' b' c' : jet Q m f a b c -> jet Q m g a' b' c' ->
  jet Q m (fun r i h => f r i h + g r i h) (fun r i => a r i + a' r i) (fun r i => b r i + b' r i) (fun r i => c r i + c' r i).
Proof.
  intros (K & K0 & H) (K' & K0' & H'). exists (K + K'). split; [lra|]. intros r i h Hi Ht.
  destruct (H r i h Hi Ht) as (A & B & C & D). destruct (H' r i h Hi Ht) as (A' & B' & C' & D').
  repeat split; try (eapply Rle_trans; [apply Rabs_triang|lra]).
  unfold poly in *.
  match type of D with Rabs ?x <= _ => match type of D' with Rabs ?y <= _ =>
    replace (f r i h + g r i h - _) with (x + y) by ring end end.
  eapply Rle_trans; [apply Rabs_triang|]. rewrite Rmult_plus_distr_r. lra.
Qed.

Lemma rmul_le a b x y : Rabs a <= x -> Rabs b <= y -> Rabs (a * b) <= x * y.
Proof. intros. rewrite Rabs_mult. apply Rmult_le_compat; auto using Rabs_pos. Qed.
Lemma radd_le a b x y : Rabs a <= x -> Rabs b <= y -> Rabs (a + b) <= x + y.
Proof. intros. eapply Rle_trans; [apply Rabs_triang|lra]. Qed.

Lemma poly_le a b c h K : 0 <= h <= 1 -> Rabs a <= K -> Rabs b <= K -> Rabs c <= K -> Rabs (poly a b c h) <= 3 * K.
Proof.
  intros Hh A B C. unfold poly. assert (0 <= K) by (eapply Rle_trans; [apply Rabs_pos|exact A]).
  replace (3 * K) with (K + 1 * K + 1 * 1 * K) by ring.
  assert (Rabs h <= 1) by (rewrite Rabs_pos_eq; lra).
  repeat apply radd_le; auto; repeat apply rmul_le; auto.
Qed.
Lemma mul_est x y a b c a' b' c' h K e : 0 <= h <= 1 -> h * h * h <= e -> 0 <= e <= 1 -> Rabs a <= K -> Rabs b <= K -> Rabs c <= K ->
  Rabs a' <= K -> Rabs b' <= K -> Rabs c' <= K ->
  Rabs (x - poly a b c h) <= K * e -> Rabs (y - poly a' b' c' h) <= K * e ->
  Rabs (x * y - poly (a * a') (a * b' + b * a') (a * c' + b * b' + c * a') h) <= 10 * (K * K) * e.
Proof.
  intros Hh He He1 A B C A' B' C' D D'. assert (K0 : 0 <= K) by (eapply Rle_trans; [apply Rabs_pos|exact A]).
  assert (P : Rabs (poly a b c h) <= 3 * K) by (apply poly_le; auto).
  assert (P' : Rabs (poly a' b' c' h) <= 3 * K) by (apply poly_le; auto).
  assert (Y : Rabs y <= 4 * K).
  { replace y with ((y - poly a' b' c' h) + poly a' b' c' h) by ring.
    replace (4 * K) with (K * 1 + 3 * K) by ring. apply radd_le; auto.
    eapply Rle_trans; [exact D'|]. apply Rmult_le_compat_l; lra. }
  assert (Hr : Rabs h <= 1) by (rewrite Rabs_pos_eq; lra).
  assert (H3 : Rabs (h * h * h) <= e).
  { rewrite Rabs_pos_eq; auto. repeat apply Rmult_le_pos; lra. }
  replace (x * y - _) with ((x - poly a b c h) * y + poly a b c h * (y - poly a' b' c' h)
    + (h * h * h) * (b * c' + c * b' + h * (c * c'))) by (unfold poly; ring).
  replace (10 * (K * K) * e) with (K * e * (4 * K) + 3 * K * (K * e) + e * (K * K + K * K + 1 * (K * K))) by ring.
  apply radd_le; [apply radd_le; apply rmul_le; auto|].
  apply rmul_le; auto. repeat apply radd_le; repeat apply rmul_le; auto.
Qed.
Lemma pow3_le h m : 0 <= h <= 1 -> (m <= 2)%nat -> h * h * h <= h ^ (m + 1).
Proof. intros H L. replace (h * h * h) with (h ^ 3) by ring. apply pow_le1; [exact H|lia]. Qed.
Lemma pow_le_1 h m : 0 <= h <= 1 -> 0 <= h ^ m <= 1.
Proof. intro H. split; [apply pow_ge0; exact H|]. change 1 with (h ^ 0). apply pow_le1; [exact H|lia]. Qed.

Lemma jet_mul Q m f a b c g a' b' c' : (m <= 2)%nat -> jet Q m f a b c -> jet Q m g a' b' c' ->
  jet Q m (fun r i h => f r i h * g r i h) (fun r i => a r i * a' r i) (fun r i => a r i * b' r i + b r i * a' r i)
    (fun r i => a r i * c' r i + b r i * b' r i + c r i * a' r i).
Proof.
  intros Hm (K1 & K10 & H1) (K2 & K20 & H2). set (K := K1 + K2). assert (K0 : 0 <= K) by (unfold K; lra).
  exists (10 * (K * K)). assert (KK : 0 <= K * K) by (apply Rmult_le_pos; exact K0). split; [lra|].
  intros r i h Hi Ht. assert (Hh : 0 <= h <= 1) by apply Ht.
  assert (P : 0 <= h ^ (m + 1) <= 1) by (apply pow_le_1; exact Hh).
  destruct (H1 r i h Hi Ht) as (A & B & C & D). destruct (H2 r i h Hi Ht) as (A' & B' & C' & D').
  assert (L1 : K1 <= K) by (unfold K; lra). assert (L2 : K2 <= K) by (unfold K; lra).
  assert (E1 : Rabs (a r i) <= K) by lra. assert (E2 : Rabs (b r i) <= K) by lra. assert (E3 : Rabs (c r i) <= K) by lra.
  assert (E4 : Rabs (a' r i) <= K) by lra. assert (E5 : Rabs (b' r i) <= K) by lra. assert (E6 : Rabs (c' r i) <= K) by lra.
  split; [|split; [|split]].
  - eapply Rle_trans; [apply rmul_le; [exact E1|exact E4]|lra].
  - eapply Rle_trans; [apply radd_le; apply rmul_le; eassumption|lra].
  - eapply Rle_trans; [apply radd_le; [apply radd_le|]; apply rmul_le; eassumption|lra].
  - apply mul_est; auto.
    + apply pow3_le; auto.
    + eapply Rle_trans; [exact D|]. apply Rmult_le_compat_r; lra.
    + eapply Rle_trans; [exact D'|]. apply Rmult_le_compat_r; lra.
Qed.

(** a factor h raises the order by one *)
Lemma jet_h Q m f a b c : (m <= 1)%nat -> jet Q m f a b c ->
  jet Q (S m) (fun r i h => h * f r i h) (fun _ _ => 0) a b.
Proof.
  intros Hm (K & K0 & H). exists (2 * K). split; [lra|]. intros r i h Hi Ht. assert (Hh : 0 <= h <= 1) by apply Ht.
  destruct (H r i h Hi Ht) as (A & B & C & D). rewrite Rabs_R0. repeat split; try lra.
  replace (h * f r i h - poly 0 (a r i) (b r i) h) with (h * (f r i h - poly (a r i) (b r i) (c r i) h) + (h * h * h) * c r i) by (unfold poly; ring).
  assert (Hr : Rabs h <= h) by (rewrite Rabs_pos_eq; lra).
  assert (H3 : Rabs (h * h * h) <= h ^ (S m + 1)).
  { rewrite Rabs_pos_eq; [apply pow3_le; [exact Hh|lia]|]. repeat apply Rmult_le_pos; lra. }
  replace (2 * K * h ^ (S m + 1)) with (h * (K * h ^ (m + 1)) + h ^ (S m + 1) * K) by (simpl; ring).
  apply radd_le; apply rmul_le; auto.
Qed.

(** a smaller step *)
Lemma jet_step Q m f a b c k : (0 <= k <= 1) -> jet Q m f a b c ->
  jet Q m (fun r i h => f r i (k * h)) a (fun r i => k * b r i) (fun r i => k * k * c r i).
Proof.
  intros Hk (K & K0 & H). exists K. split; [exact K0|]. intros r i h Hi Ht. assert (Hh : 0 <= h <= 1) by apply Ht.
  assert (Hkh : 0 <= k * h <= h).
  { split; [apply Rmult_le_pos; lra|]. rewrite <- (Rmult_1_l h) at 2. apply Rmult_le_compat_r; lra. }
  assert (Ht' : at_time r (k * h)) by (unfold at_time in *; lra).
  destruct (H r i (k * h) Hi Ht') as (A & B & C & D).
  assert (Rk : Rabs k <= 1) by (rewrite Rabs_pos_eq; lra).
  split; [exact A|]. split; [|split].
  - rewrite <- (Rmult_1_l K). apply rmul_le; auto.
  - replace K with (1 * 1 * K) by ring. repeat apply rmul_le; auto.
  - replace (poly (a r i) (k * b r i) (k * k * c r i) h) with (poly (a r i) (b r i) (c r i) (k * h)) by (unfold poly; ring).
    eapply Rle_trans; [exact D|]. apply Rmult_le_compat_l; [exact K0|]. apply pow_incr. lra.
Qed.

(** at order m < 2 the coefficient c is idle *)
Lemma jet_idle (Q : nat -> Prop) m f a b c c' : (m <= 1)%nat -> jet Q m f a b c ->
  (exists K, forall r i, Q i -> lo <= r <= hi -> Rabs (c' r i) <= K) -> jet Q m f a b c'.
Proof.
  intros Hm (K & K0 & H) (K' & H'). exists (2 * (K + Rmax K' 0)). assert (0 <= Rmax K' 0) by apply Rmax_r. split; [lra|].
  intros r i h Hi Ht. assert (Hh : 0 <= h <= 1) by apply Ht. assert (Hr : lo <= r <= hi) by (unfold at_time in Ht; lra).
  destruct (H r i h Hi Ht) as (A & B & C & D).
  assert (C' : Rabs (c' r i) <= Rmax K' 0) by (eapply Rle_trans; [apply H'; assumption|apply Rmax_l]).
  repeat split; try lra.
  replace (f r i h - poly (a r i) (b r i) (c' r i) h) with ((f r i h - poly (a r i) (b r i) (c r i) h) + (h * h) * (c r i - c' r i)) by (unfold poly; ring).
  assert (P := pow_ge0 h (m + 1) Hh).
  assert (H2 : Rabs (h * h) <= h ^ (m + 1)).
  { rewrite Rabs_pos_eq; [|apply Rmult_le_pos; lra]. replace (h * h) with (h ^ 2) by ring. apply pow_le1; [exact Hh|lia]. }
  assert (CC : Rabs (c r i - c' r i) <= K + Rmax K' 0) by (unfold Rminus; apply radd_le; [|rewrite Rabs_Ropp]; assumption).
  eapply Rle_trans; [apply radd_le; [exact D|apply rmul_le; [exact H2|exact CC]]|].
  assert (0 <= Rmax K' 0 * h ^ (m + 1)) by (apply Rmult_le_pos; assumption). 
  assert (0 <= K * h ^ (m + 1)) by (apply Rmult_le_pos; assumption). lra.
Qed.

(** integrating a derivative *)
Lemma jet_int (Q : nat -> Prop) m f f' a b c : (m <= 1)%nat -> jet Q m f' a b c ->
  (forall r i h, Q i -> at_time r h -> derivable_pt_lim (f r i) h (f' r i h)) ->
  (exists K, forall r i, Q i -> lo <= r <= hi -> Rabs (f r i 0) <= K) ->
  jet Q (S m) f (fun r i => f r i 0) a (fun r i => / 2 * b r i).
Proof.
  intros Hm (K & K0 & H) Hd (K' & H').
  exists (2 * K + Rmax K' 0). assert (0 <= Rmax K' 0) by apply Rmax_r. split; [lra|]. intros r i h Hi Ht.
  assert (Hh : 0 <= h <= 1) by apply Ht. assert (Hr : lo <= r <= hi) by (unfold at_time in Ht; lra).
  destruct (H r i h Hi Ht) as (A & B & C & _).
  split; [eapply Rle_trans; [apply H'; assumption|]; assert (K' <= Rmax K' 0) by apply Rmax_l; lra|].
  split; [lra|]. split; [rewrite Rabs_mult, (Rabs_pos_eq (/ 2)) by lra; lra|].
  assert (P := pow_ge0 h (S m + 1) Hh).
  apply Rle_trans with (2 * K * h ^ (S m + 1));
    [|assert (0 <= Rmax K' 0 * h ^ (S m + 1)) by (apply Rmult_le_pos; assumption); rewrite Rmult_plus_distr_r; lra].
  set (g := fun x => f r i x - poly (f r i 0) (a r i) (/ 2 * b r i) x).
  set (g' := fun x => f' r i x - (a r i + x * b r i)).
  assert (G : forall x, 0 <= x <= h -> derivable_pt_lim g x (g' x)).
  { intros x Hx. unfold g, g'. apply derivable_pt_lim_minus; [apply Hd; [exact Hi|unfold at_time in *; lra]|].
    unfold poly. 
    replace (a r i + x * b r i) with (0 + (1 * a r i + 0 * 0) + ((1 * x + x * 1) * (/ 2 * b r i) + 0)) by field.
    apply derivable_pt_lim_plus.
    - apply derivable_pt_lim_plus; [apply derivable_pt_lim_const|].
      replace (1 * a r i + 0 * 0) with (1 * a r i + x * 0) by ring.
      apply (derivable_pt_lim_mult (fun y => y) (fun _ => a r i)); [apply derivable_pt_lim_id|apply derivable_pt_lim_const].
    - replace ((1 * x + x * 1) * (/ 2 * b r i) + 0) with ((1 * x + x * 1) * (/ 2 * b r i) + (x * x) * 0) by ring.
      apply (derivable_pt_lim_mult (fun y => y * y) (fun _ => / 2 * b r i)); [|apply derivable_pt_lim_const].
      apply (derivable_pt_lim_mult (fun y => y) (fun y => y)); apply derivable_pt_lim_id. }
  destruct (Req_dec h 0) as [Z|NZ].
  { subst h. unfold poly. replace (f r i 0 - _) with 0 by ring. rewrite Rabs_R0. apply Rmult_le_pos; lra. }
  assert (Hlt : 0 < h) by lra.
  assert (pr : forall x, 0 < x < h -> derivable_pt g x) by (intros x Hx; exists (g' x); apply G; lra).
  destruct (MVT_cor2 g g' 0 h Hlt) as (x & E & Hx); [intros; apply G; lra|].
  assert (g0 : g 0 = 0) by (unfold g, poly; ring).
  rewrite g0, !Rminus_0_r in E. fold (g h). change (f r i h - poly (f r i 0) (a r i) (/ 2 * b r i) h) with (g h). rewrite E.
  assert (Htx : at_time r x) by (unfold at_time in *; lra).
  destruct (H r i x Hi Htx) as (_ & _ & Cx & D).
  unfold g'. replace (f' r i x - (a r i + x * b r i)) with ((f' r i x - poly (a r i) (b r i) (c r i) x) + x * x * c r i) by (unfold poly; ring).
  assert (Hr' : Rabs h <= h) by (rewrite Rabs_pos_eq; lra).
  replace (2 * K * h ^ (S m + 1)) with ((K * h ^ (m + 1) + h ^ (m + 1) * K) * h) by (simpl; ring).
  apply rmul_le; auto. apply radd_le.
  - eapply Rle_trans; [exact D|]. apply Rmult_le_compat_l; [exact K0|]. apply pow_incr; lra.
  - apply rmul_le; auto. rewrite Rabs_pos_eq; [|apply Rmult_le_pos; lra].
    apply Rle_trans with (h ^ 2); [replace (x * x) with (x ^ 2) by ring; apply pow_incr; lra|]. apply pow_le1; [exact Hh|lia].
Qed.
(** the lowest rung: a bounded derivative *)
Lemma jet_int0 (Q : nat -> Prop) f f' :
  (forall r i h, Q i -> at_time r h -> derivable_pt_lim (f r i) h (f' r i h)) ->
  (exists K, forall r i h, Q i -> at_time r h -> Rabs (f' r i h) <= K) ->
  (exists K, forall r i, Q i -> lo <= r <= hi -> Rabs (f r i 0) <= K) ->
  jet Q 0 f (fun r i => f r i 0) (fun _ _ => 0) (fun _ _ => 0).
Proof.
  intros Hd (K & H) (K' & H').
  exists (Rmax K 0 + Rmax K' 0). assert (0 <= Rmax K' 0) by apply Rmax_r. assert (0 <= Rmax K 0) by apply Rmax_r. split; [lra|].
  intros r i h Hi Ht. assert (Hh : 0 <= h <= 1) by apply Ht. assert (Hr : lo <= r <= hi) by (unfold at_time in Ht; lra).
  rewrite Rabs_R0. split; [eapply Rle_trans; [apply H'; assumption|]; assert (K' <= Rmax K' 0) by apply Rmax_l; lra|].
  split; [lra|]. split; [lra|]. unfold poly. replace (f r i h - _) with (f r i h - f r i 0) by ring.
  replace (h ^ (0 + 1)) with h by (simpl; ring).
  destruct (Req_dec h 0) as [Z|NZ].
  { subst h. rewrite Rminus_diag_eq by reflexivity. rewrite Rabs_R0. lra. }
  destruct (MVT_cor2 (f r i) (f' r i) 0 h) as (x & E & Hx); [lra|intros; apply Hd; [exact Hi|unfold at_time in *; lra]|].
  rewrite E, Rminus_0_r. assert (Hr' : Rabs h <= h) by (rewrite Rabs_pos_eq; lra). apply rmul_le; auto.
  eapply Rle_trans; [apply H; [exact Hi|unfold at_time in *; lra]|]. assert (K <= Rmax K 0) by apply Rmax_l. lra.
Qed.
End Jet.
