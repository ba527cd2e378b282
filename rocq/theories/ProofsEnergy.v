(** Energies, magnetisations and drives in exact arithmetic. *)
From Coq Require Import Reals Lra Lia List ZArith Arith Bool Psatz.
From Coq Require Import ZifyBool ZifyNat.
From Verif Require Import Num Monad NumR Spin Config Chain SpecVec SpecChain ProofsSpin ProofsChain.
Import ListNotations.
Local Open Scope R_scope.

(** ** Sums *)
Lemma Rsum_ext n f g : (forall i, (i < n)%nat -> f i = g i) -> Rsum n f = Rsum n g.
Proof. induction n; cbn; intros H; [reflexivity|]. rewrite IHn, H; auto. Qed.
Lemma Rsum_plus n f g : Rsum n (fun i => f i + g i) = Rsum n f + Rsum n g.
Proof. induction n; cbn; [ring|]. rewrite IHn; ring. Qed.
Lemma Rsum_opp n f : Rsum n (fun i => - f i) = - Rsum n f.
Proof. induction n; cbn; [ring|]. rewrite IHn; ring. Qed.
Lemma Rsum_minus n f g : Rsum n (fun i => f i - g i) = Rsum n f - Rsum n g.
Proof. induction n; cbn; [ring|]. rewrite IHn; ring. Qed.
Lemma Rsum_scal n c f : Rsum n (fun i => c * f i) = c * Rsum n f.
Proof. induction n; cbn; [ring|]. rewrite IHn; ring. Qed.
Lemma Rsum_0 n : Rsum n (fun _ => 0) = 0.
Proof. induction n; cbn; [ring|]. rewrite IHn; ring. Qed.
Lemma Rsum_abs n f b : (forall i, (i < n)%nat -> Rabs (f i) <= b) -> Rabs (Rsum n f) <= INR n * b.
Proof.
  intro H. induction n; cbn [Rsum]. { rewrite Rabs_R0. cbn; lra. }
  rewrite S_INR. eapply Rle_trans; [apply Rabs_triang|].
  assert (Rabs (Rsum n f) <= INR n * b) by (apply IHn; auto).
  assert (Rabs (f n) <= b) by (apply H; lia). lra.
Qed.
Lemma Rsum_if n s f : (s <= n)%nat -> Rsum n (fun i => if i <? s then f i else 0) = Rsum s f.
Proof.
  induction n; intro H.
  - replace s with 0%nat by lia. reflexivity.
  - cbn [Rsum]. destruct (Nat.ltb_spec n s).
    + replace s with (S n) by lia. cbn [Rsum]. f_equal. apply Rsum_ext. intros i Hi.
      destruct (Nat.ltb_spec i (S n)); [reflexivity|lia].
    + rewrite IHn by lia. ring.
Qed.
Lemma Rsum_first n f : Rsum (S n) f = f 0%nat + Rsum n (fun i => f (S i)).
Proof. induction n; cbn [Rsum] in *; [ring|]. rewrite IHn; ring. Qed.
Lemma Rsum_split a b f : Rsum (a + b) f = Rsum a f + Rsum b (fun i => f (a + i)%nat).
Proof. induction b; cbn; [rewrite Nat.add_0_r; ring|]. rewrite Nat.add_succ_r; cbn. rewrite IHb; ring. Qed.

Lemma Rsum_ring n (f : nat -> nat -> R) : (1 <= n)%nat ->
  Rsum n (fun i => f i ((i + 1) mod n)%nat) = Rsum (n - 1) (fun i => f i (i + 1)%nat) + f (n - 1)%nat 0%nat.
Proof.
  intro Hn. destruct n as [|k]; [lia|]. replace (S k - 1)%nat with k by lia.
  change (Rsum (S k) ?g) with (Rsum k g + g k). cbv beta. f_equal.
  - apply Rsum_ext. intros i Hi. rewrite Nat.mod_small by lia. reflexivity.
  - f_equal. replace (k + 1)%nat with (S k) by lia. apply Nat.mod_same. lia.
Qed.

Lemma Vsum_dot n f v : dot (Vsum n f) v = Rsum n (fun i => dot (f i) v).
Proof.
  induction n; cbn [Vsum Rsum]; [unfold dot; cbn; ring|]. rewrite <- IHn. unfold dot; cbn; ring.
Qed.

(** ** Cauchy-Schwarz *)
Lemma dot_cs a b : Rabs (dot a b) <= norm a * norm b.
Proof.
  apply Rsqr_incr_0_var.
  - rewrite <- Rsqr_abs. unfold Rsqr.
    replace (norm a * norm b * (norm a * norm b)) with ((norm a * norm a) * (norm b * norm b)) by ring.
    rewrite !norm_sq.
    assert (E : dot (cross a b) (cross a b) = dot a a * dot b b - dot a b * dot a b)
      by (unfold dot, cross; cbn; ring).
    pose proof (dot_nonneg (cross a b)). lra.
  - apply Rmult_le_pos; apply norm_nonneg.
Qed.

Lemma norm_vhad_le j s c : 0 <= c -> Rabs (vx j) <= c -> Rabs (vy j) <= c -> Rabs (vz j) <= c ->
  norm (vhad j s) <= c * norm s.
Proof.
  intros Hc Hx Hy Hz. apply Rsqr_incr_0_var.
  - unfold Rsqr. rewrite norm_sq.
    replace (c * norm s * (c * norm s)) with (c * c * (norm s * norm s)) by ring.
    rewrite norm_sq. unfold dot, vhad; cbn.
    assert (Q : forall a, Rabs a <= c -> a * a <= c * c).
    { intros a Ha. rewrite <- (Rabs_pos_eq (a * a)) by nra. rewrite Rabs_mult.
      pose proof (Rabs_pos a). nra. }
    apply Q in Hx, Hy, Hz.
    assert (vx s * vx s * (vx j * vx j) <= vx s * vx s * (c * c)) by (apply Rmult_le_compat_l; nra).
    assert (vy s * vy s * (vy j * vy j) <= vy s * vy s * (c * c)) by (apply Rmult_le_compat_l; nra).
    assert (vz s * vz s * (vz j * vz j) <= vz s * vz s * (c * c)) by (apply Rmult_le_compat_l; nra).
    nra.
  - apply Rmult_le_pos; [assumption|apply norm_nonneg].
Qed.

(** ** Embedding *)
Lemma at3_fin l i : at3 ERNum (map (v3map Some) l) i = fin3 (at_ l i).
Proof. unfold at3, at_. change (z3 ERNum) with (v3map Some vzero). apply map_nth. Qed.

Lemma spins_fin sc i : at3 ERNum (spins (fin sc)) i = fin3 (S_ sc i).
Proof. apply at3_fin. Qed.
Lemma js_fin sc i : at3 ERNum (j_couple (fin sc)) i = fin3 (J_ sc i).
Proof. apply at3_fin. Qed.
Lemma hs_fin sc i : at3 ERNum (static_h (fin sc)) i = fin3 (h_ sc i).
Proof. apply at3_fin. Qed.

Lemma wf_fin n s sc : wf n s (fin sc) <-> wf n s sc.
Proof.
  split; intros [A B C D E F G]; constructor; cbn in *; rewrite ?map_length in *; auto.
Qed.
Lemma hs_ok_fin (c : config R) : hs_ok (config_map (@Some R) c) <-> hs_ok c.
Proof. unfold hs_ok; cbn. rewrite map_length. reflexivity. Qed.
Lemma drive_ok_hs c : drive_ok c -> hs_ok c.
Proof. unfold drive_ok, hs_ok. intros H E. rewrite E in H. exact H. Qed.

Lemma h_ext_fin c x : drive_ok c ->
  h_ext ERNum (config_map Some c) (Some x) = Ok (fin3 (drive_field c x)).
Proof.
  unfold drive_ok, h_ext, drive_field. cbn [config_map drive tau hs c_e].
  assert (A : tau c <> 0 -> ndiv ERNum (nmul ERNum (nmul ERNum (nofZ ERNum 2) (npi ERNum)) (Some x)) (Some (tau c))
              = Some (2 * PI / tau c * x)).
  { intro Ht. cbn [nmul nofZ npi ERNum er2 ndiv]. rewrite er_div_ok by assumption. f_equal. field. assumption. }
  destruct (drive c); intro H; cbv zeta.
  - rewrite A by assumption. reflexivity.
  - rewrite A by assumption. reflexivity.
  - rewrite A by assumption. reflexivity.
  - rewrite !(idx_ok _ _ (Some 0)) by (rewrite map_length; lia). cbn [bind].
    rewrite !(map_nth Some). reflexivity.
  - reflexivity.
Qed.

Lemma h_extP_fin c x : drive_ok c -> h_extP ERNum (config_map Some c) (Some x) = fin3 (drive_field c x).
Proof. intro H. unfold h_extP. rewrite h_ext_fin by assumption. reflexivity. Qed.

Lemma sum_vec_fin a b : sum_vec ERNum (fin3 a) (fin3 b) = fin3 (vadd a b).
Proof. reflexivity. Qed.

Lemma bond_field_fin e s1 j s2 h :
  bond_field ERNum (Some e) (fin3 s1) (fin3 j) (fin3 s2) (fin3 h)
  = Some (e + (- dot s1 (vhad j s2) + dot h s1)).
Proof. cbv [bond_field for3]. cbn. f_equal. unfold dot; cbn. ring. Qed.

Lemma loop_bf_fin sc h k :
  loop_bf ERNum (fin sc) (fun i => fin3 (h i)) k =
  Some (Rsum k (fun i => bond (S_ sc) (J_ sc) i (i + 1) + dot (h i) (S_ sc i))).
Proof.
  unfold loop_bf. induction k.
  - reflexivity.
  - rewrite seq_S, fold_left_app, IHk. cbn [fold_left Rsum plus].
    rewrite !spins_fin, js_fin, bond_field_fin. reflexivity.
Qed.

Lemma loop_bf_ext N sc h h' k : (forall i, h i = h' i) -> loop_bf N sc h k = loop_bf N sc h' k.
Proof.
  intro H. unfold loop_bf. induction k; [reflexivity|].
  rewrite seq_S, !fold_left_app, IHk. cbn. rewrite H. reflexivity.
Qed.

Lemma ring_bf_ext N sc h h' k : (forall i, h i = h' i) -> ring_bf N sc h k = ring_bf N sc h' k.
Proof. intro H. unfold ring_bf. rewrite H. erewrite loop_bf_ext by exact H. reflexivity. Qed.

Lemma ring_bf_fin sc h n : (1 <= n)%nat ->
  ring_bf ERNum (fin sc) (fun i => fin3 (h i)) n = Some (ring_energy n (S_ sc) (J_ sc) h).
Proof.
  intro Hn. unfold ring_bf. rewrite loop_bf_fin, !spins_fin, js_fin, bond_field_fin.
  unfold ring_energy.
  rewrite (Rsum_ring n (fun i k => bond (S_ sc) (J_ sc) i k + dot (h i) (S_ sc i))) by assumption.
  reflexivity.
Qed.

Lemma fieldP_fin sc s x i :
  fieldP ERNum (fin sc) s (fin3 (drive_field (vars sc) x)) i = fin3 (B_ sc s x i).
Proof. unfold fieldP, B_. rewrite hs_fin. destruct (i <? s); reflexivity. Qed.

Lemma fold_vadd (l : list vec) : fold_left vadd l vzero = Vsum (length l) (at_ l).
Proof.
  induction l as [|a l IH] using rev_ind; [reflexivity|].
  rewrite fold_left_app, IH, app_length. cbn [length fold_left].
  rewrite Nat.add_1_r. cbn [Vsum].
  assert (E : forall k, (k <= length l)%nat -> Vsum k (at_ (l ++ [a])) = Vsum k (at_ l)).
  { induction k; intro; [reflexivity|]. cbn. rewrite IHk by lia. unfold at_. rewrite app_nth1 by lia. reflexivity. }
  rewrite E by lia. f_equal. unfold at_. rewrite app_nth2, Nat.sub_diag by lia. reflexivity.
Qed.

Section E.
Context (n s : nat) (sc : chain R) (W : wf n s sc).
Let W' : wf n s (fin sc) := proj2 (wf_fin n s sc) W.

Lemma IZR_n_nonzero k : (1 <= k)%nat -> IZR (Z.of_nat k) <> 0.
Proof. intro H. apply not_0_IZR. lia. Qed.

Lemma total_energy2_value : (1 <= n)%nat -> drive_ok (vars sc) ->
  total_energy2 ERNum (fin sc) = Ok (Some (ring_energy n (S_ sc) (J_ sc) (B_ sc s (t sc)) / INR n)).
Proof.
  intros Hn Hd. rewrite (total_energy2_pure ERNum n s (fin sc) W' Hn).
  2:{ apply hs_ok_fin, drive_ok_hs, Hd. }
  change (vars (fin sc)) with (config_map (@Some R) (vars sc)). change (t (fin sc)) with (Some (t sc)).
  rewrite h_extP_fin by assumption.
  erewrite ring_bf_ext by (intro; apply fieldP_fin).
  rewrite ring_bf_fin by assumption.
  cbn [config_map hsize]. rewrite (wf_hsize _ _ _ W). cbn [nofZ ERNum ndiv].
  rewrite er_div_ok by (apply IZR_n_nonzero; assumption). rewrite INR_IZR_INZ. reflexivity.
Qed.

Lemma sjs_fin s1 s2 j : sjs_energy ERNum (fin3 s1) (fin3 s2) (fin3 j) = Some (dot s1 (vhad j s2)).
Proof. cbv [sjs_energy for3]. cbn. f_equal. unfold dot; cbn; ring. Qed.
Lemma sh_fin s1 h : sh_energy ERNum (fin3 s1) (fin3 h) = Some (dot h s1).
Proof. cbv [sh_energy for3]. cbn. f_equal. unfold dot; cbn; ring. Qed.

Lemma fold_sub_fin (f : nat -> ER) (g : nat -> R) k : forall a,
  (forall i, (i < k)%nat -> f i = Some (g i)) ->
  fold_left (fun a i => nsub ERNum a (f i)) (seq 0 k) (Some a) = Some (a - Rsum k g).
Proof.
  induction k; intros a H.
  - cbn. f_equal; ring.
  - rewrite seq_S, fold_left_app, IHk by (intros; apply H; lia). cbn [fold_left plus].
    rewrite H by lia. cbn. f_equal; ring.
Qed.
Lemma fold_add_fin (f : nat -> ER) (g : nat -> R) k : forall a,
  (forall i, (i < k)%nat -> f i = Some (g i)) ->
  fold_left (fun a i => nadd ERNum a (f i)) (seq 0 k) (Some a) = Some (a + Rsum k g).
Proof.
  induction k; intros a H.
  - cbn. f_equal; ring.
  - rewrite seq_S, fold_left_app, IHk by (intros; apply H; lia). cbn [fold_left plus].
    rewrite H by lia. cbn. f_equal; ring.
Qed.

Lemma ring_energy_split x : (s <= n)%nat ->
  ring_energy n (S_ sc) (J_ sc) (B_ sc s x) =
  Rsum n (fun i => bond (S_ sc) (J_ sc) i ((i + 1) mod n)) +
  Rsum n (fun i => dot (h_ sc i) (S_ sc i)) + Rsum s (fun i => dot (drive_field (vars sc) x) (S_ sc i)).
Proof.
  intro Hs. rewrite <- (Rsum_if n s) by assumption. rewrite <- !Rsum_plus. unfold ring_energy.
  apply Rsum_ext. intros i Hi. unfold B_. destruct (i <? s).
  - unfold dot; cbn; ring.
  - ring.
Qed.

Lemma total_energy_value : (1 <= n)%nat -> drive_ok (vars sc) ->
  total_energy ERNum (fin sc) = Ok (Some (ring_energy n (S_ sc) (J_ sc) (B_ sc s (t sc)) / INR n)).
Proof.
  intros Hn Hd. rewrite (total_energy_pure ERNum n s (fin sc) W' Hn).
  2:{ apply hs_ok_fin, drive_ok_hs, Hd. }
  unfold total_energyP.
  change (vars (fin sc)) with (config_map (@Some R) (vars sc)). change (t (fin sc)) with (Some (t sc)).
  rewrite h_extP_fin by assumption.
  change (nofZ ERNum 0) with (Some 0). cbv zeta.
  rewrite (fold_sub_fin _ (fun i => dot (S_ sc i) (vhad (J_ sc i) (S_ sc (i + 1)))))
    by (intros; rewrite !spins_fin, js_fin; apply sjs_fin).
  rewrite !spins_fin, js_fin, sjs_fin.
  rewrite (fold_add_fin _ (fun i => dot (h_ sc i) (S_ sc i)))
    by (intros; rewrite spins_fin, hs_fin; apply sh_fin).
  rewrite (fold_add_fin _ (fun i => dot (drive_field (vars sc) (t sc)) (S_ sc i)))
    by (intros; rewrite spins_fin; apply sh_fin).
  cbn [nsub nadd ERNum er2 nofZ ndiv]. rewrite er_div_ok by (apply IZR_n_nonzero; assumption).
  rewrite <- INR_IZR_INZ. f_equal. f_equal. f_equal.
  rewrite ring_energy_split by (apply (wf_sub _ _ _ W)).
  rewrite (Rsum_ring n (bond (S_ sc) (J_ sc))) by assumption. unfold bond. rewrite Rsum_opp. ring.
Qed.

Lemma mc_ring_value k : (1 <= k <= n)%nat ->
  mc_ring_energy ERNum (fin sc) k = Ok (Some (ring_energy k (S_ sc) (J_ sc) (h_ sc) / INR k)).
Proof.
  intro Hk. rewrite (mc_ring_pure ERNum n s (fin sc) W' k Hk).
  erewrite ring_bf_ext by (intro; apply hs_fin). rewrite ring_bf_fin by lia.
  cbn [nofZ ERNum ndiv]. rewrite er_div_ok by (apply IZR_n_nonzero; lia).
  rewrite <- INR_IZR_INZ. reflexivity.
Qed.

Lemma mc_total_value : (1 <= n)%nat ->
  mc_total_energy ERNum (fin sc) = Ok (Some (ring_energy n (S_ sc) (J_ sc) (h_ sc) / INR n)).
Proof. intro Hn. unfold mc_total_energy. rewrite (wf_n (T := num ERNum) W'). apply mc_ring_value. lia. Qed.
Lemma mc_system_value : (1 <= s)%nat ->
  mc_system_energy ERNum (fin sc) = Ok (Some (ring_energy s (S_ sc) (J_ sc) (h_ sc) / INR s)).
Proof.
  intro Hs. unfold mc_system_energy. rewrite (wf_s (T := num ERNum) W'). apply mc_ring_value.
  pose proof (wf_sub _ _ _ W). lia.
Qed.

Lemma system_energy_value : (2 <= s)%nat -> drive_ok (vars sc) ->
  system_energy ERNum (fin sc) =
  Ok (Some (Rsum (s - 1) (fun i => bond (S_ sc) (J_ sc) i (i + 1)
              + dot (vadd (h_ sc i) (drive_field (vars sc) (t sc))) (S_ sc i)) / INR (s - 1))).
Proof.
  intros Hs Hd. rewrite (system_energy_pure ERNum n s (fin sc) W').
  2: lia. 2:{ apply hs_ok_fin, drive_ok_hs, Hd. }
  change (vars (fin sc)) with (config_map (@Some R) (vars sc)). change (t (fin sc)) with (Some (t sc)).
  rewrite h_extP_fin by assumption.
  erewrite loop_bf_ext.
  2:{ intro i. rewrite hs_fin. apply sum_vec_fin. }
  rewrite loop_bf_fin.
  cbn [nofZ ERNum ndiv]. rewrite er_div_ok by (apply IZR_n_nonzero; lia).
  rewrite <- INR_IZR_INZ. reflexivity.
Qed.

Lemma system_energy_one : s = 1%nat -> hs_ok (vars sc) -> system_energy ERNum (fin sc) = Ok None.
Proof.
  intros Hs Hd. rewrite (system_energy_pure ERNum n s (fin sc) W').
  2: lia. 2:{ apply hs_ok_fin, Hd. }
  rewrite Hs. cbn [Nat.sub]. change (loop_bf ERNum (fin sc) _ 0) with (Some 0).
  cbn [nofZ ERNum ndiv Z.of_nat]. rewrite er_div_zero. reflexivity.
Qed.

Lemma sum_spins_fin l : sum_spins ERNum (map (v3map Some) l) = fin3 (Vsum (length l) (at_ l)).
Proof.
  unfold sum_spins.
  assert (G : forall l a, fold_left (fun acc x => sum_vec ERNum acc x) (map (v3map Some) l) (fin3 a)
                = fin3 (fold_left vadd l a)).
  { clear. induction l; intro b; [reflexivity|]. cbn [map fold_left]. rewrite <- IHl. reflexivity. }
  change (mk3 (nofZ ERNum 0) (nofZ ERNum 0) (nofZ ERNum 0)) with (fin3 vzero).
  etransitivity; [apply G|]. f_equal.
  apply fold_vadd.
Qed.

Lemma firstn_at k i : (i < k)%nat -> at_ (firstn k (spins sc)) i = S_ sc i.
Proof.
  unfold at_, S_. revert i. generalize (spins sc). induction k; intros l i H; [lia|].
  destruct l; [destruct i; reflexivity|]. destruct i; [reflexivity|]. cbn. apply IHk. lia.
Qed.

Lemma Vsum_ext k f g : (forall i, (i < k)%nat -> f i = g i) -> Vsum k f = Vsum k g.
Proof. induction k; intro H; cbn; [reflexivity|]. rewrite IHk, H; auto. Qed.

Lemma m_value : m ERNum (fin sc) = Ok (fin3 (Vsum s (S_ sc))).
Proof.
  rewrite (m_pure ERNum n s (fin sc) W'). cbn [fin chain_map spins].
  rewrite firstn_map, sum_spins_fin. do 2 f_equal.
  pose proof (wf_sub _ _ _ W). rewrite firstn_length, (wf_spins _ _ _ W), Nat.min_l by lia.
  apply Vsum_ext. intros; apply firstn_at; assumption.
Qed.
Lemma m_tot_value : m_tot ERNum (fin sc) = Ok (fin3 (Vsum n (S_ sc))).
Proof.
  rewrite (m_tot_pure ERNum n s (fin sc) W'). cbn [fin chain_map spins].
  rewrite firstn_map, sum_spins_fin. do 2 f_equal.
  rewrite firstn_length, (wf_spins _ _ _ W), Nat.min_l by lia.
  apply Vsum_ext. intros; apply firstn_at; assumption.
Qed.

End E.

(** ** Bounds *)
Lemma norm_triangle a b : norm (vadd a b) <= norm a + norm b.
Proof.
  apply Rsqr_incr_0_var.
  - unfold Rsqr. rewrite norm_sq.
    replace ((norm a + norm b) * (norm a + norm b)) with (norm a * norm a + norm b * norm b + 2 * (norm a * norm b)) by ring.
    rewrite !norm_sq. pose proof (dot_cs a b) as H. pose proof (Rle_abs (dot a b)).
    replace (dot (vadd a b) (vadd a b)) with (dot a a + dot b b + 2 * dot a b) by (unfold dot; cbn; ring). lra.
  - pose proof (norm_nonneg a); pose proof (norm_nonneg b); lra.
Qed.

Lemma unit_at sc i : unit_spins sc -> (i < length (spins sc))%nat -> unit3 (S_ sc i).
Proof. intros H Hi. unfold unit_spins in H. rewrite Forall_forall in H. apply H, nth_In, Hi. Qed.

Lemma Vsum_norm k f b : (forall i, (i < k)%nat -> norm (f i) <= b) -> norm (Vsum k f) <= INR k * b.
Proof.
  intro H. induction k; cbn [Vsum]. { rewrite norm_vzero; cbn; lra. }
  rewrite S_INR. eapply Rle_trans; [apply norm_triangle|].
  assert (norm (Vsum k f) <= INR k * b) by (apply IHk; auto).
  assert (norm (f k) <= b) by (apply H; lia). lra.
Qed.

Lemma comp_le_norm a : Rabs (vx a) <= norm a /\ Rabs (vy a) <= norm a /\ Rabs (vz a) <= norm a.
Proof.
  assert (H : forall x, x * x <= dot a a -> Rabs x <= norm a).
  { intros x Hx. apply Rsqr_incr_0_var; [|apply norm_nonneg]. rewrite <- Rsqr_abs.
    unfold Rsqr. rewrite norm_sq. exact Hx. }
  repeat split; apply H; unfold dot; nra.
Qed.

Lemma ring_energy_bound n (S J B : nat -> vec) Jm Bm :
  (1 <= n)%nat -> 0 <= Jm ->
  (forall i, (i < n)%nat -> norm (S i) = 1) ->
  (forall i, (i < n)%nat -> Rabs (vx (J i)) <= Jm /\ Rabs (vy (J i)) <= Jm /\ Rabs (vz (J i)) <= Jm) ->
  (forall i, (i < n)%nat -> norm (B i) <= Bm) ->
  Rabs (ring_energy n S J B / INR n) <= Jm + Bm.
Proof.
  intros Hn HJ HS HJm HB.
  assert (Hp : 0 < INR n) by (apply lt_0_INR; lia).
  unfold Rdiv. rewrite Rabs_mult, Rabs_inv, (Rabs_pos_eq (INR n)) by lra.
  apply (Rmult_le_reg_r (INR n)); [assumption|]. rewrite Rmult_assoc, Rinv_l, Rmult_1_r by lra.
  rewrite Rmult_comm. apply Rsum_abs. intros i Hi.
  assert (Hm : ((i + 1) mod n < n)%nat) by (apply Nat.mod_upper_bound; lia).
  eapply Rle_trans; [apply Rabs_triang|]. apply Rplus_le_compat.
  - unfold bond. rewrite Rabs_Ropp. eapply Rle_trans; [apply dot_cs|].
    rewrite HS, Rmult_1_l by assumption. destruct (HJm i Hi) as (A & B1 & C).
    eapply Rle_trans; [apply norm_vhad_le with (c := Jm); assumption|]. rewrite HS by assumption. lra.
  - eapply Rle_trans; [apply dot_cs|]. rewrite HS, Rmult_1_r by assumption. apply HB; assumption.
Qed.

Lemma ring_open n S J B : (1 <= n)%nat ->
  ring_energy n S J B = open_energy n S J B + bond S J (n - 1) 0.
Proof.
  intro H. unfold ring_energy, open_energy.
  rewrite Rsum_plus, (Rsum_ring n (fun i k => bond S J i k)) by assumption. ring.
Qed.

Lemma B_none sc s x : drive (vars sc) = Dnone -> forall i, B_ sc s x i = h_ sc i.
Proof.
  intros Hd i. unfold B_, drive_field. rewrite Hd. destruct (i <? s)%nat; [|reflexivity].
  destruct (h_ sc i) as [a b c]; unfold vadd, vzero; cbn; f_equal; ring.
Qed.

Lemma ring_energy_ext n S J B S' J' B' :
  (forall i, (i < n)%nat -> S i = S' i) -> (forall i, (i < n)%nat -> J i = J' i) ->
  (forall i, (i < n)%nat -> B i = B' i) -> ring_energy n S J B = ring_energy n S' J' B'.
Proof.
  intros HS HJ HB. unfold ring_energy. apply Rsum_ext. intros i Hi. unfold bond.
  assert (((i + 1) mod n) < n)%nat by (apply Nat.mod_upper_bound; lia).
  rewrite (HS i), (HS ((i + 1) mod n)%nat), (HJ i), (HB i) by assumption. reflexivity.
Qed.

Lemma mc_total_is_total n s sc : wf n s sc -> (1 <= n)%nat -> drive (vars sc) = Dnone ->
  mc_total_energy ERNum (fin sc) = total_energy ERNum (fin sc).
Proof.
  intros W Hn Hd. rewrite (mc_total_value n s sc W Hn), (total_energy_value n s sc W Hn).
  - do 3 f_equal. apply ring_energy_ext; auto. intros i _. symmetry; apply B_none; assumption.
  - unfold drive_ok. rewrite Hd. exact I.
Qed.

Lemma mc_system_open n s sc : wf n s sc -> (1 <= s)%nat ->
  mc_system_energy ERNum (fin sc) = Ok (Some
    ((open_energy s (S_ sc) (J_ sc) (h_ sc) + bond (S_ sc) (J_ sc) (s - 1) 0) / INR s)).
Proof. intros W Hs. rewrite (mc_system_value n s sc W Hs), ring_open by assumption. reflexivity. Qed.

Lemma m_bound n s sc : wf n s sc -> unit_spins sc ->
  exists v w, m ERNum (fin sc) = Ok (fin3 v) /\ norm v <= INR s /\
     Rabs (vx v) <= INR s /\ Rabs (vy v) <= INR s /\ Rabs (vz v) <= INR s /\
  m_tot ERNum (fin sc) = Ok (fin3 w) /\ norm w <= INR n /\
     Rabs (vx w) <= INR n /\ Rabs (vy w) <= INR n /\ Rabs (vz w) <= INR n.
Proof.
  intros W U. exists (Vsum s (S_ sc)), (Vsum n (S_ sc)).
  assert (A : norm (Vsum s (S_ sc)) <= INR s).
  { rewrite <- (Rmult_1_r (INR s)). apply Vsum_norm. intros i Hi. right. apply unit3_norm, unit_at; [assumption|].
    rewrite (wf_spins _ _ _ W). pose proof (wf_sub _ _ _ W). lia. }
  assert (B : norm (Vsum n (S_ sc)) <= INR n).
  { rewrite <- (Rmult_1_r (INR n)). apply Vsum_norm. intros i Hi. right. apply unit3_norm, unit_at; [assumption|].
    rewrite (wf_spins _ _ _ W). lia. }
  destruct (comp_le_norm (Vsum s (S_ sc))) as (a1 & a2 & a3).
  destruct (comp_le_norm (Vsum n (S_ sc))) as (b1 & b2 & b3).
  rewrite (m_value n s sc W), (m_tot_value n s sc W). repeat split; auto; lra.
Qed.

Lemma m_panics (N : NumOps) (sc : chain (num N)) :
  (length (spins sc) < as_usize (ssize (vars sc)))%nat -> m N sc = Panic IndexOOB.
Proof.
  intro H. unfold m, slice_to. destruct (Nat.ltb_spec (length (spins sc)) (as_usize (ssize (vars sc)))); [reflexivity|lia].
Qed.

Lemma mc_system_full n sc : wf n n sc -> (1 <= n)%nat ->
  mc_system_energy ERNum (fin sc) = mc_total_energy ERNum (fin sc).
Proof.
  intros W H. rewrite (mc_system_value n n sc W H), (mc_total_value n n sc W H). reflexivity.
Qed.
