(** Values of the output lines in exact arithmetic. *)
From Coq Require Import String Reals Lra Lia List ZArith Arith Bool.
From Verif Require Import Num Monad NumR NumF64 Spin Config Chain Langevin Fit Files Writers Runs SpecVec SpecChain SpecMC SpecTotal SpecRuns
  SpecColumns ProofsSpin ProofsChain ProofsEnergy ProofsDrive ProofsDyn ProofsMC ProofsNew ProofsTotal ProofsFrame ProofsLoop.
Import ListNotations.
Local Open Scope R_scope.

Lemma ok_inj {A} (a b : A) : Ok a = Ok b -> a = b.
Proof. intro H. injection H. auto. Qed.
Lemma quarter_nat s : (Z.to_nat (Z.of_nat s / 4) = s / 4)%nat /\ (Z.to_nat (3 * Z.of_nat s / 4) = 3 * s / 4)%nat.
Proof.
  split.
  - change 4%Z with (Z.of_nat 4). rewrite <- Nat2Z.inj_div. apply Nat2Z.id.
  - change 4%Z with (Z.of_nat 4). change 3%Z with (Z.of_nat 3). rewrite <- Nat2Z.inj_mul, <- Nat2Z.inj_div. apply Nat2Z.id.
Qed.
Lemma quarter_lt s : (1 <= s)%nat -> (s / 4 < s /\ 3 * s / 4 < s)%nat.
Proof. intro H. split; apply Nat.div_lt_upper_bound; lia. Qed.

(** the two watched spins, for both arithmetics *)
Lemma watched_idx (N : NumOps) n s (sc : chain (num N)) : quarter N -> wf n s sc -> (1 <= s)%nat ->
  idx (spins sc) (Z.to_nat (ntou64 N (ndiv N (nofZ N (ssize (vars sc))) (nofZ N 4)))) = Ok (at3 N (spins sc) (s / 4)) /\
  idx (spins sc) (Z.to_nat (ntou64 N (ndiv N (nmul N (nofZ N 3) (nofZ N (ssize (vars sc)))) (nofZ N 4)))) = Ok (at3 N (spins sc) (3 * s / 4)).
Proof.
  intros Q W Hs. destruct (Q (ssize (vars sc))) as [-> ->].
  { rewrite (wf_ssize _ _ _ W). pose proof (wf_i32 _ _ _ W). pose proof (wf_sub _ _ _ W). lia. }
  rewrite (wf_ssize _ _ _ W). destruct (quarter_nat s) as [-> ->]. destruct (quarter_lt s Hs). pose proof (wf_sub _ _ _ W).
  split; apply (spin_idx N n s sc W); lia.
Qed.

Section V.
Context (n s : nat) (sc : chain R) (W : wf n s sc).
Let W' : wf n s (fin sc) := proj2 (wf_fin n s sc) W.

Lemma div_n (a : num ERNum) v k : a = Some v -> (1 <= k)%nat -> ndiv ERNum a (nofZ ERNum (Z.of_nat k)) = Some (/ INR k * v).
Proof.
  intros -> H. cbn [ndiv nofZ ERNum]. rewrite er_div_ok by (apply IZR_n_nonzero; exact H). rewrite <- INR_IZR_INZ. f_equal. unfold Rdiv. ring.
Qed.
Lemma div_v v k : (1 <= k)%nat ->
  ndiv ERNum (@vx (num ERNum) (fin3 v)) (nofZ ERNum (Z.of_nat k)) = Some (vx (vscale (/ INR k) v)) /\
  ndiv ERNum (@vy (num ERNum) (fin3 v)) (nofZ ERNum (Z.of_nat k)) = Some (vy (vscale (/ INR k) v)) /\
  ndiv ERNum (@vz (num ERNum) (fin3 v)) (nofZ ERNum (Z.of_nat k)) = Some (vz (vscale (/ INR k) v)).
Proof. intro H. repeat split; apply div_n; auto. Qed.
Lemma sub_energy_value : (2 <= s)%nat -> drive_ok (vars sc) -> system_energy ERNum (fin sc) = Ok (Some (sub_energy s sc)).
Proof. apply (system_energy_value n s sc W). Qed.
Lemma watched_fin (c : chain (num ERNum)) : c = fin sc -> (1 <= s)%nat ->
  idx (spins c) (Z.to_nat (ntou64 ERNum (ndiv ERNum (nofZ ERNum (ssize (vars c))) (nofZ ERNum 4)))) = Ok (fin3 (S_ sc (s / 4))) /\
  idx (spins c) (Z.to_nat (ntou64 ERNum (ndiv ERNum (nmul ERNum (nofZ ERNum 3) (nofZ ERNum (ssize (vars c)))) (nofZ ERNum 4)))) = Ok (fin3 (S_ sc (3 * s / 4))).
Proof. intros -> Hs. rewrite <- !spins_fin. apply (watched_idx ERNum n s (fin sc) quarter_ER W' Hs). Qed.
Lemma ssize_fin (c : chain (num ERNum)) : c = fin sc -> ssize (vars c) = Z.of_nat s.
Proof. intros ->. exact (wf_ssize _ _ _ W'). Qed.
Lemma hsize_fin (c : chain (num ERNum)) : c = fin sc -> hsize (vars c) = Z.of_nat n.
Proof. intros ->. exact (wf_hsize _ _ _ W'). Qed.

Lemma fft_fin (b : bool) : exists u, (if b then log_fft ERNum (fin sc) else Ok tt) = Ok u.
Proof.
  destruct b; [|eexists; reflexivity]. unfold log_fft. destruct (spectrum_ok ERNum n s (fin sc) W') as [x ->]. eexists; reflexivity.
Qed.

Ltac dv := repeat match goal with |- context [ndiv ERNum (_ (fin3 (Vsum ?k ?f))) _] =>
    destruct (div_v (Vsum k f) k ltac:(lia)) as (Dx & Dy & Dz); rewrite ?Dx, ?Dy, ?Dz; clear Dx Dy Dz end.
Lemma log_value : (2 <= s)%nat -> drive_ok (vars sc) ->
  chain_log ERNum (fin sc) = Ok (if has_file sc then [map Some (log_row n s sc)] else []).
Proof.
  intros Hs Hd. pose proof (wf_sub _ _ _ W). unfold chain_log.
  rewrite (sub_energy_value Hs Hd). cbn [bind]. rewrite (total_energy2_value n s sc W) by (assumption || lia). cbn [bind].
  rewrite (m_value n s sc W), (m_tot_value n s sc W). cbn [bind]. cbv zeta.
  destruct (watched_fin (fin sc) eq_refl) as [-> ->]; [lia|]. cbn [bind].
  match goal with |- context [if ?b then log_fft _ _ else _] => destruct (fft_fin b) as [u ->] end. cbn [bind].
  rewrite (ssize_fin (fin sc) eq_refl), (hsize_fin (fin sc) eq_refl). change (has_file (fin sc)) with (has_file sc).
  destruct (has_file sc); [|reflexivity]. dv. reflexivity.
Qed.
Lemma mc_line_value : (1 <= s)%nat -> drive_ok (vars sc) -> mc_line ERNum (fin sc) = Ok (numbers (map Some (mc_row n s sc))).
Proof.
  intros Hs Hd. pose proof (wf_sub _ _ _ W). unfold mc_line.
  rewrite (m_value n s sc W), (m_tot_value n s sc W). cbn [bind]. cbv zeta.
  rewrite (total_energy2_value n s sc W) by (assumption || lia). cbn [bind]. rewrite (mc_system_value n s sc W) by assumption. cbn [bind].
  destruct (watched_fin (fin sc) eq_refl) as [-> ->]; [lia|]. cbn [bind].
  rewrite (ssize_fin (fin sc) eq_refl). dv. reflexivity.
Qed.
Lemma hist_head_value x : (2 <= s)%nat -> drive_ok (vars sc) -> hist_head ERNum (Some x) (fin sc) = Ok (map Some (hist_short x s sc)).
Proof.
  intros Hs Hd. unfold hist_head. rewrite (m_value n s sc W). cbn [bind]. cbv zeta. rewrite (sub_energy_value Hs Hd). cbn [bind].
  rewrite (ssize_fin (fin sc) eq_refl). dv. reflexivity.
Qed.
Lemma hist_line_value i : (2 <= s)%nat -> drive_ok (vars sc) ->
  hist_line ERNum i (fin sc) = Ok (numbers (map Some (hist_short (INR i) s sc ++ watched s sc))).
Proof.
  intros Hs Hd. unfold hist_line. change (nofZ ERNum (Z.of_nat i)) with (Some (IZR (Z.of_nat i))). rewrite <- INR_IZR_INZ.
  rewrite (hist_head_value (INR i) Hs Hd). cbn [bind]. cbv zeta.
  destruct (watched_fin (fin sc) eq_refl) as [-> ->]; [lia|]. reflexivity.
Qed.
Lemma llog_value g : (2 <= s)%nat -> drive_ok (vars sc) -> beta (vars sc) <> 0 -> tau (vars sc) <> 0 ->
  exists bt, lboundary_term ERNum (mkL (fin sc) (Some g)) = Ok (Some bt) /\
  lchain_log ERNum (mkL (fin sc) (Some g)) = Ok [map Some (langevin_row n s sc bt)].
Proof.
  intros Hs Hd Hb Ht. pose proof (wf_sub _ _ _ W). destruct (lboundary_value n s sc g W Hs Hb Ht Hd) as (P & _ & E). eexists. split; [exact E|].
  unfold lchain_log. cbn [base]. rewrite (sub_energy_value Hs Hd). cbn [bind]. cbv zeta. rewrite (m_value n s sc W). cbn [bind].
  rewrite E. cbn [bind]. rewrite (ssize_fin (fin sc) eq_refl), (hsize_fin (fin sc) eq_refl).
  assert (Et : lm_tot ERNum (mkL (fin sc) (Some g)) = fin3 (Vsum n (S_ sc))).
  { unfold lm_tot. cbn [base]. change (spins (fin sc)) with (map (v3map (@Some R)) (spins sc)). rewrite sum_spins_fin.
    rewrite (wf_spins _ _ _ W). reflexivity. }
  rewrite Et. dv. reflexivity.
Qed.

Lemma sites_mod i : (i < n)%nat -> lft n i = ((i + (n - 1)) mod n)%nat /\ rgt n i = ((i + 1) mod n)%nat.
Proof.
  intro H. unfold lft, rgt. split.
  - destruct (Nat.eqb_spec i 0) as [->|]; [rewrite Nat.mod_small by lia; lia|].
    replace (i + (n - 1))%nat with (i - 1 + 1 * n)%nat by lia. rewrite Nat.mod_add, Nat.mod_small by lia. reflexivity.
  - destruct (Nat.eqb_spec (i + 1) n) as [->|]; [rewrite Nat.mod_same by lia; reflexivity|rewrite Nat.mod_small by lia; reflexivity].
Qed.
Lemma snapshot_value : snapshot ERNum (fin sc) = Ok (map (fun i =>
   mkMsg (N := ERNum) i (Some (half_bonds n sc i)) (Some (vx (S_ sc i))) (Some (vy (S_ sc i))) (Some (vz (S_ sc i)))) (seq 0 n)).
Proof.
  unfold snapshot. cbv zeta. rewrite (wf_n (T := num ERNum) W'). rewrite range0.
  apply mapM_ok. intros i Hi. apply in_seq in Hi.
  rewrite i_l_ok by lia. cbn [bind]. destruct (sites_mod i ltac:(lia)) as [El Er].
  assert (Bl : (lft n i < n)%nat) by (rewrite El; apply Nat.mod_upper_bound; lia).
  assert (Br : (rgt n i < n)%nat) by (rewrite Er; apply Nat.mod_upper_bound; lia).
  rewrite (spin_idx ERNum n s (fin sc) W' _ Bl). cbn [bind]. rewrite (spin_idx ERNum n s (fin sc) W' i) by lia. cbn [bind].
  rewrite i_r_ok by lia. cbn [bind]. rewrite (spin_idx ERNum n s (fin sc) W' _ Br). cbn [bind].
  rewrite (j_idx ERNum n s (fin sc) W' _ Bl). cbn [bind]. rewrite (j_idx ERNum n s (fin sc) W' i) by lia. cbn [bind].
  rewrite !spins_fin, !js_fin. unfold half_bonds. rewrite <- El, <- Er. f_equal.
  cbv [for3]. cbn -[er_div]. rewrite er_div_ok by lra. f_equal. f_equal. unfold bond, dot. cbn. field.
Qed.
Lemma half_bonds_sum : (1 <= n)%nat -> Rsum n (half_bonds n sc) = exchange_energy n (S_ sc) (J_ sc).
Proof.
  clear W' W. intro Hn. unfold half_bonds, exchange_energy.
  set (f := fun i => bond (S_ sc) (J_ sc) i ((i + 1) mod n)).
  assert (E : Rsum n (fun i => bond (S_ sc) (J_ sc) ((i + (n - 1)) mod n) i) = Rsum n f).
  { destruct n as [|k]; [lia|]. rewrite Rsum_first. replace ((0 + (S k - 1)) mod S k)%nat with k by (rewrite Nat.mod_small; lia).
    cbn [Rsum]. rewrite Rplus_comm. unfold f at 2. rewrite Nat.add_1_r, Nat.mod_same by lia. f_equal.
    apply Rsum_ext. intros i Hi. unfold f. replace (S i + (S k - 1))%nat with (i + 1 * S k)%nat by lia.
    rewrite Nat.mod_add, !Nat.mod_small by lia. rewrite Nat.add_1_r. reflexivity. }
  transitivity (/ 2 * (Rsum n (fun i => bond (S_ sc) (J_ sc) ((i + (n - 1)) mod n) i) + Rsum n f)).
  - rewrite <- Rsum_plus, <- Rsum_scal. apply Rsum_ext. intros i _. unfold f. field.
  - rewrite E. field.
Qed.

Lemma ext_value : drive_ok (vars sc) ->
  log_ext ERNum (fin sc) = Ok (if has_file sc then map (fun j => map Some (ext_row sc j)) (seq 1 (Nat.min s (n - 1) - 1)) ++ [[]] else []).
Proof.
  intros Hd. pose proof (wf_sub _ _ _ W). unfold log_ext. rewrite (wf_s (T := num ERNum) W').
  change (vars (fin sc)) with (config_map (@Some R) (vars sc)). change (t (fin sc)) with (Some (t sc)).
  rewrite (h_ext_fin (vars sc) (t sc)) by assumption. cbn [bind]. rewrite range0.
  set (he := drive_field (vars sc) (t sc)).
  rewrite (mapM_ok _ (fun x => fin3 (vadd (h_ sc x) he))).
  2:{ intros x Hx. apply in_seq in Hx. rewrite (h_idx ERNum n s (fin sc) W' x) by lia. cbn [bind]. rewrite hs_fin. reflexivity. }
  cbn [bind]. rewrite map_length, seq_length, range0.
  change (hsize (config_map Some (vars sc))) with (hsize (vars sc)). rewrite (wf_hsize _ _ _ W).
  assert (R0 : skipn 1 (seq 0 (Nat.min s (as_usize (Z.of_nat n - 1)))) = seq 1 (Nat.min s (n - 1) - 1)).
  { destruct n as [|k].
    - replace s with 0%nat by lia. reflexivity.
    - replace (Z.of_nat (S k) - 1)%Z with (Z.of_nat k) by lia. rewrite as_usize_i32 by (pose proof (wf_i32 _ _ _ W); lia).
      replace (S k - 1)%nat with k by lia. destruct (Nat.min s k) as [|j]; [reflexivity|]. cbn [seq skipn]. f_equal. lia. }
  rewrite R0. clear R0.
  rewrite (mapM_ok _ (fun j => map Some (ext_row sc j))); [reflexivity|].
  intros j Hj. apply in_seq in Hj.
  rewrite (spin_idx ERNum n s (fin sc) W' (j - 1)) by lia. cbn [bind]. rewrite (j_idx ERNum n s (fin sc) W' (j - 1)) by lia. cbn [bind].
  rewrite (spin_idx ERNum n s (fin sc) W' j) by lia. cbn [bind]. rewrite (j_idx ERNum n s (fin sc) W' j) by lia. cbn [bind].
  rewrite (spin_idx ERNum n s (fin sc) W' (j + 1)) by lia. cbn [bind].
  rewrite (idx_ok _ _ (fin3 vzero)) by (rewrite map_length, seq_length; lia). cbn [bind]. rewrite nth_map_seq by lia.
  rewrite !spins_fin, !js_fin.
  replace (j <? s)%nat with true by (symmetry; apply Nat.ltb_lt; lia).
  f_equal. unfold ext_row. rewrite INR_IZR_INZ. cbv [for3 comps app map]. cbn. fold he. match goal with |- context [Some (?a - ?b + ?c)] => match goal with |- context [Some (?x + dot ?y ?z)] => replace (a - b + c) with (x + dot y z); [reflexivity|] end end. unfold bond, dot. cbn. field.
Qed.
End V.

Lemma tau_value n s fuel (d : draws ERNum) sc l0 o c0 st m c :
  tau_worker ERNum fuel d sc = Ok (l0, o) ->
  thermalise ERNum (dr_mc d) 20000000 sc = Ok c0 -> dynamics ERNum c0 st ->
  (forall k, (k < m)%nat -> nltb ERNum (t (st k)) (c_t (vars c0)) = true) -> nltb ERNum (t (st m)) (c_t (vars c0)) = false ->
  st m = fin c -> wf n s c -> (2 <= s)%nat -> drive_ok (vars c) -> o = numbers (map Some (tau_row n s c)).
Proof.
  intros E Th [D0 D] B Em Ec W Hs Hd. pose proof (wf_sub _ _ _ W). unfold tau_worker in E. rewrite Th in E. cbn [bind] in E.
  apply bind_ok in E. destruct E as (l & _ & E).
  assert (F : follows (plain_body ERNum) st (fun _ => []) m).
  { intros k _. unfold plain_body. rewrite D. reflexivity. }
  destruct (le_lt_dec m fuel) as [Hf|Hf].
  2:{ pose proof (loop_short ERNum t (c_t (vars c0)) _ st _ m F B fuel 0 ltac:(lia)) as X. rewrite D0 in X. rewrite X in E. discriminate E. }
  pose proof (loop_ok ERNum t (c_t (vars c0)) _ st _ m fuel F B Em Hf) as X. rewrite D0 in X. rewrite X in E. cbn [bind] in E.
  rewrite Ec in E. rewrite (sub_energy_value n s c W Hs Hd) in E. cbn [bind] in E. rewrite (total_energy2_value n s c W) in E by (assumption || lia). cbn [bind] in E.
  rewrite (m_value n s c W) in E. cbn [bind] in E. cbv zeta in E. rewrite (ssize_fin n s c W (fin c) eq_refl) in E. destruct (div_v (Vsum s (S_ c)) s ltac:(lia)) as (Dx & Dy & Dz). rewrite Dx, Dy, Dz in E.
  apply ok_inj in E. apply (f_equal snd) in E. cbn [snd] in E. rewrite <- E. reflexivity.
Qed.

(** binary64: the watched columns are the spins themselves *)
Lemma log_watched L n s (sc : chain (num (F64 L))) : wf n s sc -> hs_ok (vars sc) -> (1 <= s)%nat -> has_file sc = true ->
  exists e es mx my mz Mz a b, nth_error (spins sc) (s / 4) = Some a /\ nth_error (spins sc) (3 * s / 4) = Some b /\
  chain_log (F64 L) sc = Ok [[t sc; e; es; mx; my; mz; Mz; vx a; vy a; vz a; vx b; vy b; vz b]].
Proof.
  intros W Hh Hs Hf. pose proof (wf_sub _ _ _ W).
  destruct (chain_log_ok (F64 L) n s sc W Hh (quarter_F64 L) Hs) as [ls E].
  destruct (watched_idx (F64 L) n s sc (quarter_F64 L) W Hs) as [Ea Eb].
  assert (E' := E). unfold chain_log in E'.
  apply bind_ok in E'. destruct E' as (e & _ & E'). apply bind_ok in E'. destruct E' as (es & _ & E').
  apply bind_ok in E'. destruct E' as (m & _ & E'). apply bind_ok in E'. destruct E' as (mt & _ & E').
  cbv zeta in E'. rewrite Ea, Eb in E'. cbn [bind] in E'. apply bind_ok in E'. destruct E' as (u & _ & E'). apply ok_inj in E'.
  rewrite Hf in E'. destruct (quarter_lt s Hs).
  exists es, e, (ndiv (F64 L) (vx m) (nofZ (F64 L) (ssize (vars sc)))), (ndiv (F64 L) (vy m) (nofZ (F64 L) (ssize (vars sc)))),
   (ndiv (F64 L) (vz m) (nofZ (F64 L) (ssize (vars sc)))), (ndiv (F64 L) (vz mt) (nofZ (F64 L) (hsize (vars sc)))), (at3 (F64 L) (spins sc) (s / 4)), (at3 (F64 L) (spins sc) (3 * s / 4)).
  split; [|split; [|rewrite E, <- E'; reflexivity]]; apply nth_error_nth'; rewrite (wf_spins _ _ _ W); lia.
Qed.
