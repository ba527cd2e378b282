(** Rotations depend on their axis as steadily as can be. *)
From Coq Require Import Reals Lra Lia Psatz.
From Verif Require Import Num NumR Spin SpecVec ProofsSpin ProofsEnergy ProofsDrive ProofsOrder ProofsLangR.
Local Open Scope R_scope.

(** The program's rotation before its last normalisation *)
Definition turn (s f : vec) (x : R) : vec := rodr s (nrm f) (norm f * x).

Lemma zero_or f : f = vzero \/ unit3 (nrm f).
Proof.
  destruct (Req_dec (norm f) 0) as [E|E].
  - left. apply dot_zero. rewrite <- norm_sq, E. ring.
  - right. apply nrm_unit. intros ->. apply E, norm_vzero.
Qed.
Lemma turn_zero s x : turn s vzero x = s.
Proof. unfold turn. rewrite norm_vzero, Rmult_0_l. apply rodr_0. Qed.
Lemma turn_0 s f : turn s f 0 = s.
Proof. unfold turn. rewrite Rmult_0_r. apply rodr_0. Qed.
Lemma turn_dot a b f x : dot (turn a f x) (turn b f x) = dot a b.
Proof.
  destruct (zero_or f) as [->|U]; [rewrite !turn_zero; reflexivity|]. unfold turn. now rewrite rodr_dot.
Qed.
Lemma turn_norm s f x : norm (turn s f x) = norm s.
Proof. unfold norm. now rewrite turn_dot. Qed.
Lemma turn_add s f x y : turn (turn s f x) f y = turn s f (x + y).
Proof.
  destruct (zero_or f) as [->|U]; [rewrite !turn_zero; reflexivity|]. unfold turn. rewrite rodr_add by exact U.
  f_equal. ring.
Qed.
Lemma turn_sub a b f x : vsub (turn a f x) (turn b f x) = turn (vsub a b) f x.
Proof. unfold turn. apply v3_ext; cbn; unfold dot; cbn; ring. Qed.
Lemma turn_vel s f x : has_velocity (fun r => turn s f r) x (cross (turn s f x) f).
Proof.
  destruct (zero_or f) as [->|U].
  - assert (E : forall p : vec -> R, derivable_pt_lim (fun r => p (turn s vzero r)) x 0).
    { intros p eps He. exists (mkposreal 1 Rlt_0_1). intros h Hh _. rewrite !turn_zero.
      replace ((p s - p s) / h - 0) with 0 by (field; exact Hh). now rewrite Rabs_R0. }
    rewrite turn_zero. replace (cross s vzero) with vzero by (apply v3_ext; cbn; ring).
    split; [apply (E (@vx R))|split; [apply (E (@vy R))|apply (E (@vz R))]].
  - pose proof (rodr_velocity s (nrm f) (norm f) x U) as H. rewrite nrm_back in H. exact H.
Qed.
Lemma dot_vel (a b : R -> vec) x a' b' : has_velocity a x a' -> has_velocity b x b' ->
  derivable_pt_lim (fun r => dot (a r) (b r)) x (dot a' (b x) + dot (a x) b').
Proof.
  intros (A1 & A2 & A3) (B1 & B2 & B3). unfold dot.
  pose proof (derivable_pt_lim_mult _ _ _ _ _ A1 B1) as C1. pose proof (derivable_pt_lim_mult _ _ _ _ _ A2 B2) as C2.
  pose proof (derivable_pt_lim_mult _ _ _ _ _ A3 B3) as C3.
  pose proof (derivable_pt_lim_plus _ _ _ _ _ (derivable_pt_lim_plus _ _ _ _ _ C1 C2) C3) as H.
  match type of H with derivable_pt_lim _ _ ?l => match goal with |- derivable_pt_lim _ _ ?l' => replace l' with l by ring end end.
  exact H.
Qed.

Lemma mvt_bound (f f' : R -> R) a b K : (forall c, derivable_pt_lim f c (f' c)) -> (forall c, Rabs (f' c) <= K) ->
  Rabs (f b - f a) <= K * Rabs (b - a).
Proof.
  intros Hd HK.
  assert (W : forall a b, a < b -> Rabs (f b - f a) <= K * Rabs (b - a)).
  { intros p q Hpq. destruct (MVT_cor2 f f' p q Hpq (fun c _ => Hd c)) as (c & E & _). rewrite E, Rabs_mult.
    apply Rmult_le_compat_r; [apply Rabs_pos|apply HK]. }
  destruct (Rtotal_order a b) as [H|[<-|H]].
  - now apply W.
  - rewrite !Rminus_diag_eq by reflexivity. rewrite Rabs_R0. lra.
  - rewrite (Rabs_minus_sym (f b)), (Rabs_minus_sym b). now apply W.
Qed.

Lemma turn_axis s f g x : norm (vsub (turn s f x) (turn s g x)) <= Rabs x * (norm s * norm (vsub f g)).
Proof.
  set (e := vsub (turn s f x) (turn s g x)). set (N := norm e).
  pose (a := fun r => turn (turn e f (- x)) f r). pose (b := fun r => turn s g r).
  assert (D : forall c, derivable_pt_lim (fun r => dot (a r) (b r)) c (dot (cross (a c) f) (b c) + dot (a c) (cross (b c) g))).
  { intro c. apply dot_vel; apply turn_vel. }
  assert (B : forall c, Rabs (dot (cross (a c) f) (b c) + dot (a c) (cross (b c) g)) <= N * (norm s * norm (vsub f g))).
  { intro c. replace (dot (cross (a c) f) (b c) + dot (a c) (cross (b c) g)) with (dot (a c) (cross (b c) (vsub g f))).
    2:{ generalize (a c), (b c). intros u v. unfold dot; cbn; ring. }
    eapply Rle_trans; [apply dot_norm|].
    assert (Ea : norm (a c) = N) by (unfold a; rewrite !turn_norm; reflexivity).
    assert (Eb : norm (b c) = norm s) by apply turn_norm.
    rewrite Ea. apply Rmult_le_compat_l; [apply norm_nonneg|]. eapply Rle_trans; [apply norm_cross|]. rewrite Eb.
    apply Rmult_le_compat_l; [apply norm_nonneg|]. right. unfold norm. f_equal. unfold dot; cbn; ring. }
  pose proof (mvt_bound _ _ 0 x _ D B) as M. cbv beta in M. rewrite Rminus_0_r in M.
  assert (E0 : dot (a 0) (b 0) = dot e (turn s f x)).
  { unfold a, b. rewrite !turn_0. rewrite <- (turn_dot (turn e f (- x)) s f x), turn_add.
    replace (- x + x) with 0 by ring. now rewrite turn_0. }
  assert (E1 : dot (a x) (b x) = dot e (turn s g x)).
  { unfold a, b. rewrite turn_add. replace (- x + x) with 0 by ring. now rewrite turn_0. }
  rewrite E0, E1 in M.
  assert (EE : dot e (turn s g x) - dot e (turn s f x) = - (N * N)).
  { unfold N. rewrite norm_sq. unfold e at 3 4. unfold dot; cbn; ring. }
  rewrite EE, Rabs_Ropp in M. pose proof (norm_nonneg e) as N0. fold N in N0.
  rewrite Rabs_pos_eq in M by nra.
  destruct (Req_dec N 0) as [Z|Z].
  - rewrite Z. apply Rmult_le_pos; [apply Rabs_pos|]. apply Rmult_le_pos; apply norm_nonneg.
  - apply Rmult_le_reg_l with N; [lra|]. lra.
Qed.

Lemma rotate_turn s f x : unit3 s -> rotate RNum s f x = turn s f x.
Proof. intro H. apply (rotate_R_unit_eq s f x H). Qed.
