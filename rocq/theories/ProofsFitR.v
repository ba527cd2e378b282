(** Temperature fits and solve_beta in exact arithmetic. *)
From Coq Require Import Reals ZArith List Lia Lra Psatz Bool Arith.
From Verif Require Import Num Monad NumR Spin Config Chain Fit SpecVec SpecTotal SpecFit ProofsFit ProofsTotal.
Import ListNotations.
Local Open Scope R_scope.

Lemma Rltb_true a b : a < b -> Rltb a b = true.
Proof. intro H. unfold Rltb. destruct (Rlt_dec a b); [reflexivity|contradiction]. Qed.
Lemma Rltb_false a b : b <= a -> Rltb a b = false.
Proof. intro H. unfold Rltb. destruct (Rlt_dec a b); [lra|reflexivity]. Qed.
Lemma Rltb_inv a b : Rltb a b = true -> a < b.
Proof. unfold Rltb. destruct (Rlt_dec a b); [auto|discriminate]. Qed.
Lemma Rltb_inv_false a b : Rltb a b = false -> b <= a.
Proof. unfold Rltb. destruct (Rlt_dec a b); [discriminate|lra]. Qed.

Lemma half_mid lo hi : nmul ERNum (nlit ERNum 5 1) (nadd ERNum (Some lo) (Some hi)) = Some ((lo + hi) / 2).
Proof. cbn. f_equal. lra. Qed.

Lemma er_tree low n : forall lo hi, low <= lo -> lo < hi -> hi <= 5 -> hi - lo <= 1 / 1000 * 2 ^ n ->
  (1 <= n)%nat \/ True -> (forall k, n = S k -> 1 / 1000 * 2 ^ k < hi - lo) ->
  tree ERNum (Some low) n (Some lo) (Some hi) (Some ((lo + hi) / 2)).
Proof.
  induction n as [|n IH]; intros lo hi H1 H2 H3 H4 _ H5; cbn [tree].
  - cbn [nltb ERNum nlit nsub er2 er_ltb nofZ]. cbn in H4 |- *. split; [apply Rltb_false; lra|]. split; apply Rltb_true; lra.
  - specialize (H5 n eq_refl). cbn [pow] in H4. split.
    + cbn. apply Rltb_true. assert (1 <= 2 ^ n) by (apply pow_R1_Rle; lra). lra.
    + rewrite !half_mid. split; apply IH; try lra; intros k ->; cbn [pow] in H5; lra.
Qed.

Lemma tree_ER s : tree0 ERNum (nlit ERNum 1 (low_dec s)).
Proof.
  assert (E : nlit ERNum 1 (low_dec s) = Some (low_end s)).
  { destruct s; cbn; f_equal; lra. }
  unfold tree0. rewrite E. change (nofZ ERNum 5) with (Some 5). rewrite half_mid.
  apply er_tree; try (destruct s; cbn; lra). intros k Hk. injection Hk as <-. destruct s; cbn; lra.
Qed.

Lemma bracket_in est tgt low k lo hi : low < 5 -> bracket est tgt low k lo hi -> (1 <= k)%nat /\ low <= lo /\ lo < hi /\ hi <= 5 /\ (k <> 1%nat -> (3 <= k)%nat).
Proof. intros Hl H. induction H as [|k lo hi e _ IH D _ _|k lo hi e _ IH D _ _]; repeat split; try lia; try lra. Qed.
Lemma next_index k : (1 <= k)%nat -> (k <> 1%nat -> (3 <= k)%nat) -> Nat.max 3 (S (Nat.max 3 (S k))) = S (Nat.max 3 (S k)).
Proof. lia. Qed.

Section Acc.
Context (est : nat -> ER -> res ER) (tgt : ER) (low bstar d : R).
Context (Hdec : forall k lo hi e, bracket est tgt low k lo hi -> est k (Some ((lo + hi) / 2)) = Ok e ->
  (er_ltb tgt e = true -> (lo + hi) / 2 <= bstar + d) /\ (er_ltb tgt e = false -> bstar - d <= (lo + hi) / 2)).

Lemma loop_acc fuel : forall k lo hi e r, low <= lo -> lo < hi -> hi <= 5 -> lo <= bstar + d -> bstar - d <= hi ->
  bracket est tgt low k lo hi -> est k (Some ((lo + hi) / 2)) = Ok e ->
  bisect_loop ERNum est tgt fuel (Nat.max 3 (S k)) (Some lo) (Some hi) (Some ((lo + hi) / 2)) e = Ok r ->
  exists b, r = Some b /\ low < b < 5 /\ Rabs (b - bstar) <= 1 / 2000 + d.
Proof.
  induction fuel as [|fuel IH]; intros k lo hi e r H1 H2 H3 H4 H5 Br Ee0 H; cbn [bisect_loop] in H;
    destruct (Hdec k lo hi e Br Ee0) as [D1 D2].
  - change (nltb ERNum (nlit ERNum 1 3) (nsub ERNum (Some hi) (Some lo))) with (Rltb (1 / 1000) (hi - lo)) in H.
    destruct (Rltb _ _) eqn:E; [discriminate|]. apply Rltb_inv_false in E. injection H as <-.
    exists ((lo + hi) / 2). split; [reflexivity|]. split; [lra|]. unfold Rabs. destruct (Rcase_abs _); lra.
  - change (nltb ERNum (nlit ERNum 1 3) (nsub ERNum (Some hi) (Some lo))) with (Rltb (1 / 1000) (hi - lo)) in H.
    destruct (Rltb _ _) eqn:E.
    + change (nltb ERNum tgt e) with (er_ltb tgt e) in H. cbv zeta in H. apply Rltb_inv in E.
      destruct (bracket_in est tgt low k lo hi ltac:(lra) Br) as (K1 & _ & _ & _ & K3).
      assert (N := next_index k K1 K3).
      destruct (er_ltb tgt e) eqn:C.
      * rewrite half_mid in H. destruct (est (Nat.max 3 (S k)) _) as [e'|p|] eqn:Ee; cbn [bind] in H; try discriminate.
        pose proof (upper_half est tgt low k lo hi e Br E Ee0 C) as B'.
        rewrite <- N in H. apply (IH (Nat.max 3 (S k))) in H; auto; lra.
      * rewrite half_mid in H. destruct (est (Nat.max 3 (S k)) _) as [e'|p|] eqn:Ee; cbn [bind] in H; try discriminate.
        pose proof (lower_half est tgt low k lo hi e Br E Ee0 C) as B'.
        rewrite <- N in H. apply (IH (Nat.max 3 (S k))) in H; auto; lra.
    + apply Rltb_inv_false in E. injection H as <-.
      exists ((lo + hi) / 2). split; [reflexivity|]. split; [lra|]. unfold Rabs. destruct (Rcase_abs _); lra.
Qed.

Lemma bisect_acc fuel r : low < 5 -> low <= bstar + d -> bstar - d <= 5 ->
  bisect ERNum est tgt (Some low) fuel = Ok r -> exists b, r = Some b /\ low < b < 5 /\ Rabs (b - bstar) <= 1 / 2000 + d.
Proof.
  intros Hl H1 H2 H. unfold bisect in H. cbv zeta in H. change (nofZ ERNum 5) with (Some 5) in H. rewrite half_mid in H.
  destruct (est 0%nat _) as [e0|p|]; cbn [bind] in H; try discriminate.
  destruct (est 1%nat _) as [e1|p|] eqn:E1; cbn [bind] in H; try discriminate.
  destruct (est 2%nat _) as [e2|p|]; cbn [bind] in H; try discriminate.
  apply (loop_acc fuel 1) in H; auto; try lra. apply first_bracket.
Qed.
End Acc.

Lemma asked_in s conf rng k b : asked s conf rng k b -> low_end s < b < 5.
Proof. intros (lo & hi & B & ->). apply bracket_in in B; [lra|destruct s; cbn; lra]. Qed.
Lemma find_acc s fuel rng (conf : config ER) bstar d r c' :
  (forall k b e, asked s conf rng k b -> energy_at ERNum s conf (Some b) (rng k) = Ok e ->
     (er_ltb (ednsty conf) e = true -> b <= bstar + d) /\ (er_ltb (ednsty conf) e = false -> bstar - d <= b)) ->
  low_end s <= bstar + d -> bstar - d <= 5 ->
  find_of ERNum s fuel rng conf = Ok (r, c') -> exists b, r = Some b /\ Rabs (b - bstar) <= 1 / 2000 + d.
Proof.
  intros Hd H1 H2 H. rewrite find_of_eq in H.
  assert (E : nlit ERNum 1 (low_dec s) = Some (low_end s)) by (destruct s; cbn; f_equal; lra).
  rewrite E in H. destruct (bisect _ _ _ _ _) as [b|p|] eqn:Eb; cbn [bind] in H; try discriminate.
  injection H as -> <-. apply (bisect_acc _ _ (low_end s) bstar d) in Eb; auto; try (destruct s; cbn; lra).
  - destruct Eb as (b & -> & _ & Hb). eauto.
  - intros k lo hi e B Ee. apply (Hd k); [exists lo, hi; auto|exact Ee].
Qed.

(** * solve_beta *)
Definition coth (x : R) : R := / tanh x.
Definition F (e x : R) : R := / (e + coth x).

Lemma tanh_pos x : 0 < x -> 0 < tanh x < 1.
Proof.
  intro H. unfold tanh. pose proof (sinh_lt 0 x H) as S. rewrite sinh_0 in S.
  assert (C : sinh x < cosh x) by (unfold sinh, cosh; pose proof (exp_pos (- x)); lra).
  assert (0 < cosh x) by lra. split.
  - apply Rdiv_lt_0_compat; lra.
  - apply Rmult_lt_reg_r with (cosh x); [lra|]. unfold Rdiv. rewrite Rmult_assoc, Rinv_l by lra. lra.
Qed.
Lemma tanh_mono x y : 0 < x -> x <= y -> tanh x <= tanh y.
Proof.
  intros H0 [H|<-]; [|lra]. unfold tanh, sinh, cosh.
  assert (A : 0 < exp x) by apply exp_pos. assert (B : 0 < exp (- x)) by apply exp_pos.
  assert (A' : 0 < exp y) by apply exp_pos. assert (B' : 0 < exp (- y)) by apply exp_pos.
  assert (C1 : exp x < exp y) by (apply exp_increasing; lra).
  assert (C2 : exp (- y) < exp (- x)) by (apply exp_increasing; lra).
  replace ((exp x - exp (- x)) / 2 / ((exp x + exp (- x)) / 2)) with (1 - 2 * exp (- x) / (exp x + exp (- x))) by (field; lra).
  replace ((exp y - exp (- y)) / 2 / ((exp y + exp (- y)) / 2)) with (1 - 2 * exp (- y) / (exp y + exp (- y))) by (field; lra).
  assert (exp (- y) / (exp y + exp (- y)) <= exp (- x) / (exp x + exp (- x))); [|lra].
  apply Rmult_le_reg_r with ((exp y + exp (- y)) * (exp x + exp (- x))); [nra|].
  replace (exp (- y) / (exp y + exp (- y)) * ((exp y + exp (- y)) * (exp x + exp (- x)))) with (exp (- y) * (exp x + exp (- x))) by (field; lra).
  replace (exp (- x) / (exp x + exp (- x)) * ((exp y + exp (- y)) * (exp x + exp (- x)))) with (exp (- x) * (exp y + exp (- y))) by (field; lra).
  nra.
Qed.
Lemma coth_gt1 x : 0 < x -> 1 < coth x.
Proof. intro H. pose proof (tanh_pos x H). unfold coth. rewrite <- Rinv_1 at 1. apply Rinv_lt_contravar; lra. Qed.
Lemma coth_anti x y : 0 < x -> x <= y -> coth y <= coth x.
Proof. intros H H'. unfold coth. pose proof (tanh_pos x H). apply Rinv_le_contravar; [lra|now apply tanh_mono]. Qed.

Section Solve.
Context (e : R) (He : -1 < e).
Lemma F_pos x : 0 < x -> 0 < F e x <= / (1 + e).
Proof.
  intro H. pose proof (coth_gt1 x H). unfold F. split; [apply Rinv_0_lt_compat; lra|]. apply Rinv_le_contravar; lra.
Qed.
Lemma F_mono x y : 0 < x -> x <= y -> F e x <= F e y.
Proof. intros H H'. unfold F. pose proof (coth_gt1 y ltac:(lra)). pose proof (coth_anti x y H H'). apply Rinv_le_contravar; lra. Qed.

Lemma step_ER x : 0 < x -> ndiv ERNum (nofZ ERNum 1) (nadd ERNum (Some e) (ndiv ERNum (nofZ ERNum 1) (ntanh ERNum (Some x)))) = Some (F e x).
Proof.
  intro H. cbn. pose proof (tanh_pos x H). unfold er_div. destruct (Req_EM_T (tanh x) 0); [lra|]. cbn.
  pose proof (coth_gt1 x H) as C. unfold coth in C. 
  destruct (Req_EM_T (e + 1 / tanh x) 0); [lra|]. f_equal. unfold F, coth. unfold Rdiv. rewrite !Rmult_1_l. reflexivity.
Qed.

(** from b2 to b = F b2 and on: decreasing case *)
Lemma loop_down n : forall b2, 0 < b2 -> F e b2 <= b2 -> b2 <= INR n / 100 ->
  exists b, (forall fuel, (S n <= fuel)%nat -> solve_beta_loop ERNum fuel (Some e) (Some (F e b2)) (Some b2) = Ok (Some b)) /\
    exists x, 0 < x /\ b = F e x /\ Rabs (b - x) <= 1 / 100.
Proof.
  induction n as [|n IH]; intros b2 H0 Hd Hn.
  - cbn in Hn. lra.
  - pose proof (F_pos b2 H0) as [P _].
    destruct (Rlt_dec (1 / 100) (b2 - F e b2)) as [L|L].
    + destruct (IH (F e b2)) as (b & Hb & Hx); auto.
      * apply F_mono; auto.
      * rewrite S_INR in Hn. lra.
      * exists b. split; [|exact Hx]. intros fuel Hf. destruct fuel as [|fuel]; [lia|]. cbn [solve_beta_loop].
        change (nltb ERNum (nlit ERNum 1 2) (nabs ERNum (nsub ERNum (Some (F e b2)) (Some b2)))) with (Rltb (1 / 100) (Rabs (F e b2 - b2))).
        rewrite Rltb_true by (rewrite Rabs_left1; lra). rewrite (step_ER _ P). apply Hb. lia.
    + exists (F e b2). split.
      * intros fuel Hf. destruct fuel as [|fuel]; [lia|]. cbn [solve_beta_loop].
        change (nltb ERNum (nlit ERNum 1 2) (nabs ERNum (nsub ERNum (Some (F e b2)) (Some b2)))) with (Rltb (1 / 100) (Rabs (F e b2 - b2))).
        rewrite Rltb_false by (rewrite Rabs_left1; lra). reflexivity.
      * exists b2. split; [exact H0|]. split; [reflexivity|]. rewrite Rabs_left1; lra.
Qed.

Lemma loop_up n : forall b2, 0 < b2 -> b2 <= F e b2 -> / (1 + e) - b2 <= INR n / 100 ->
  exists b, (forall fuel, (S n <= fuel)%nat -> solve_beta_loop ERNum fuel (Some e) (Some (F e b2)) (Some b2) = Ok (Some b)) /\
    exists x, 0 < x /\ b = F e x /\ Rabs (b - x) <= 1 / 100.
Proof.
  induction n as [|n IH]; intros b2 H0 Hd Hn; pose proof (F_pos b2 H0) as [P B].
  - exists (F e b2). cbn in Hn. split.
    + intros fuel Hf. destruct fuel as [|fuel]; [lia|]. cbn [solve_beta_loop].
      change (nltb ERNum (nlit ERNum 1 2) (nabs ERNum (nsub ERNum (Some (F e b2)) (Some b2)))) with (Rltb (1 / 100) (Rabs (F e b2 - b2))).
      rewrite Rltb_false by (rewrite Rabs_pos_eq; lra). reflexivity.
    + exists b2. split; [exact H0|]. split; [reflexivity|]. rewrite Rabs_pos_eq; lra.
  - destruct (Rlt_dec (1 / 100) (F e b2 - b2)) as [L|L].
    + destruct (IH (F e b2)) as (b & Hb & Hx); auto.
      * apply F_mono; auto.
      * rewrite S_INR in Hn. lra.
      * exists b. split; [|exact Hx]. intros fuel Hf. destruct fuel as [|fuel]; [lia|]. cbn [solve_beta_loop].
        change (nltb ERNum (nlit ERNum 1 2) (nabs ERNum (nsub ERNum (Some (F e b2)) (Some b2)))) with (Rltb (1 / 100) (Rabs (F e b2 - b2))).
        rewrite Rltb_true by (rewrite Rabs_pos_eq; lra). rewrite (step_ER _ P). apply Hb. lia.
    + exists (F e b2). split.
      * intros fuel Hf. destruct fuel as [|fuel]; [lia|]. cbn [solve_beta_loop].
        change (nltb ERNum (nlit ERNum 1 2) (nabs ERNum (nsub ERNum (Some (F e b2)) (Some b2)))) with (Rltb (1 / 100) (Rabs (F e b2 - b2))).
        rewrite Rltb_false by (rewrite Rabs_pos_eq; lra). reflexivity.
      * exists b2. split; [exact H0|]. split; [reflexivity|]. rewrite Rabs_pos_eq; lra.
Qed.

(** enough iterations *)

Lemma solve_beta_ok : exists b, (forall fuel, (solve_fuel e <= fuel)%nat -> solve_beta ERNum fuel (Some e) = Ok (Some b)) /\
  0 < b /\ exists x, 0 < x /\ Rabs (b - x) <= 1 / 100 /\ e = / b - coth x.
Proof.
  assert (P20 : 0 < 20) by lra.
  assert (Q : exists b, (forall fuel, (Nat.pred (solve_fuel e) <= fuel)%nat -> solve_beta_loop ERNum fuel (Some e) (Some (F e 20)) (Some 20) = Ok (Some b)) /\
    exists x, 0 < x /\ b = F e x /\ Rabs (b - x) <= 1 / 100).
  { destruct (Rle_dec (F e 20) 20) as [L|L].
    - destruct (loop_down 2000 20 P20 L) as (b & Hb & Hx).
      + rewrite INR_IZR_INZ. change (Z.of_nat 2000) with 2000%Z. lra.
      + exists b. split; [|exact Hx]. intros fuel Hf. apply Hb. unfold solve_fuel in Hf. lia.
    - destruct (loop_up (Z.to_nat (up (100 / (1 + e)))) 20 P20 ltac:(lra)) as (b & Hb & Hx).
      + destruct (archimed (100 / (1 + e))) as [A _].
        assert (I : 0 < / (1 + e)) by (apply Rinv_0_lt_compat; lra).
        assert (0 <= up (100 / (1 + e)))%Z.
        { apply le_IZR. assert (0 < 100 / (1 + e)) by (unfold Rdiv; lra). simpl. lra. }
        rewrite INR_IZR_INZ, Z2Nat.id by lia. unfold Rdiv in A. unfold Rdiv. unfold Rdiv in A. lra.
      + exists b. split; [|exact Hx]. intros fuel Hf. apply Hb. unfold solve_fuel in Hf. lia. }
  destruct Q as (b & Hb & x & Hx & -> & Hd).
  exists (F e x). split.
  - intros fuel Hf. assert (1 <= solve_fuel e)%nat by (unfold solve_fuel; lia).
    destruct fuel as [|fuel]; [lia|]. unfold solve_beta. cbn [solve_beta_loop].
    change (nltb ERNum (nlit ERNum 1 2) (nabs ERNum (nsub ERNum (nofZ ERNum 20) (nofZ ERNum 10)))) with (Rltb (1 / 100) (Rabs (20 - 10))).
    rewrite Rltb_true by (rewrite Rabs_pos_eq; lra).
    change (nofZ ERNum 20) with (Some 20). rewrite (step_ER _ P20). apply Hb. lia.
  - split; [apply F_pos, Hx|]. exists x. split; [exact Hx|]. split; [exact Hd|]. unfold F. rewrite Rinv_inv. ring.
Qed.
End Solve.

(** e = -1: the iteration runs away *)
Lemma solve_beta_diverges : forall fuel, solve_beta ERNum fuel (Some (-1)) = OutOfFuel.
Proof.
  assert (ex1 : forall x, 0 < x -> coth x - 1 = 2 / (exp (2 * x) - 1)).
  { intros x Hx. unfold coth, tanh, sinh, cosh.
    assert (E : exp (2 * x) = exp x * exp x) by (rewrite <- exp_plus; f_equal; ring).
    assert (E' : exp x * exp (- x) = 1) by (rewrite <- exp_plus, Rplus_opp_r; apply exp_0).
    pose proof (exp_pos x). assert (1 < exp x) by (rewrite <- exp_0; apply exp_increasing; lra).
    assert (E2 : exp (- x) = / exp x) by (apply exp_Ropp). rewrite E, E2.
    field. repeat split; nra. }
  assert (D : forall x, 20 <= x -> x + 1 < F (-1) x /\ -1 + coth x <> 0).
  { intros x Hx. unfold F. replace (-1 + coth x) with (coth x - 1) by ring. rewrite (ex1 x) by lra.
    assert (Hexp : 1 + 2 * x + (2 * x) * (2 * x) / 4 <= exp (2 * x)).
    { replace (exp (2 * x)) with (exp x * exp x) by (rewrite <- exp_plus; f_equal; ring). pose proof (exp_ineq1_le x). nra. }
    split.
    - rewrite Rinv_div. nra.
    - apply Rgt_not_eq. apply Rdiv_lt_0_compat; nra. }
  assert (St : forall x, 20 <= x -> ndiv ERNum (nofZ ERNum 1) (nadd ERNum (Some (-1)) (ndiv ERNum (nofZ ERNum 1) (ntanh ERNum (Some x)))) = Some (F (-1) x)).
  { intros x Hx. cbn. pose proof (tanh_pos x ltac:(lra)). unfold er_div. destruct (Req_EM_T (tanh x) 0); [lra|]. cbn.
    destruct (D x Hx) as [_ Dn]. unfold coth in Dn.
    destruct (Req_EM_T (-1 + 1 / tanh x) 0); [unfold Rdiv in *; lra|]. f_equal. unfold F, coth. unfold Rdiv. rewrite !Rmult_1_l. reflexivity. }
  assert (L : forall fuel x, 20 <= x -> solve_beta_loop ERNum fuel (Some (-1)) (Some (F (-1) x)) (Some x) = OutOfFuel).
  { induction fuel as [|fuel IH]; intros x Hx; [reflexivity|]. cbn [solve_beta_loop].
    change (nltb ERNum (nlit ERNum 1 2) (nabs ERNum (nsub ERNum (Some (F (-1) x)) (Some x)))) with (Rltb (1 / 100) (Rabs (F (-1) x - x))).
    destruct (D x Hx) as [D1 _]. rewrite Rltb_true by (rewrite Rabs_pos_eq; lra). rewrite St by lra. apply IH. lra. }
  intros [|fuel]; [reflexivity|]. unfold solve_beta. cbn [solve_beta_loop].
  change (nltb ERNum (nlit ERNum 1 2) (nabs ERNum (nsub ERNum (nofZ ERNum 20) (nofZ ERNum 10)))) with (Rltb (1 / 100) (Rabs (20 - 10))).
  rewrite Rltb_true by (rewrite Rabs_pos_eq; lra). change (nofZ ERNum 20) with (Some 20). rewrite St by lra. apply L. lra.
Qed.

(** * e = 0: the stopping rule is too loose *)
Lemma tanh_deriv c : derivable_pt_lim tanh c (1 - tanh c * tanh c).
Proof.
  assert (P : 0 < cosh c) by (unfold cosh; pose proof (exp_pos c); pose proof (exp_pos (- c)); lra).
  replace (1 - tanh c * tanh c) with ((cosh c * cosh c - sinh c * sinh c) / Rsqr (cosh c)) by (unfold tanh, Rsqr; field; lra).
  apply derivable_pt_lim_div; [apply derivable_pt_lim_sinh|apply derivable_pt_lim_cosh|lra].
Qed.
Lemma grow (f f' : R -> R) x : 0 <= x -> (forall c, derivable_pt_lim f c (f' c)) -> (forall c, 0 < c < x -> 0 <= f' c) -> f 0 <= f x.
Proof.
  intros [H|<-] D P; [|lra]. destruct (MVT_cor2 f f' 0 x H (fun c _ => D c)) as (c & E & Hc).
  specialize (P c Hc). nra.
Qed.
Lemma tanh_0 : tanh 0 = 0.
Proof. unfold tanh. rewrite sinh_0. unfold Rdiv. ring. Qed.
Lemma tanh_le x : 0 <= x -> tanh x <= x.
Proof.
  intro H. assert (G := grow (fun x => x - tanh x) (fun c => 1 - (1 - tanh c * tanh c)) x H).
  cbv beta in G. rewrite tanh_0 in G. enough (0 - 0 <= x - tanh x) by lra. apply G.
  - intro c. apply (derivable_pt_lim_minus id tanh); [apply derivable_pt_lim_id|apply tanh_deriv].
  - intros c Hc. nra.
Qed.
Lemma tanh_ge0 x : 0 <= x -> 0 <= tanh x.
Proof. intros [H|<-]; [pose proof (tanh_pos x H); lra|rewrite tanh_0; lra]. Qed.
Lemma cube_deriv c : derivable_pt_lim (fun x => x ^ 3 / 3) c (c ^ 2).
Proof.
  replace (c ^ 2) with (/ 3 * (INR 3 * c ^ 2)) by (simpl; field).
  eapply derivable_pt_lim_ext; [|apply (derivable_pt_lim_scal (fun x => x ^ 3) (/ 3) c), derivable_pt_lim_pow].
  intro y. unfold mult_real_fct. field.
Qed.
Lemma tanh_lo x : 0 <= x -> x - x ^ 3 / 3 <= tanh x.
Proof.
  intro H. assert (G := grow (fun x => tanh x - (x - x ^ 3 / 3)) (fun c => (1 - tanh c * tanh c) - (1 - c ^ 2)) x H).
  cbv beta in G. rewrite tanh_0 in G. enough (0 - (0 - 0 ^ 3 / 3) <= tanh x - (x - x ^ 3 / 3)) by lra. apply G.
  - intro c. apply (derivable_pt_lim_minus tanh (fun x => x - x ^ 3 / 3)); [apply tanh_deriv|].
    apply (derivable_pt_lim_minus id (fun x => x ^ 3 / 3)); [apply derivable_pt_lim_id|apply cube_deriv].
  - intros c Hc. pose proof (tanh_le c ltac:(lra)). pose proof (tanh_ge0 c ltac:(lra)). nra.
Qed.
Lemma quint_deriv c : derivable_pt_lim (fun x => 2 * x ^ 5 / 15) c (2 * c ^ 4 / 3).
Proof.
  replace (2 * c ^ 4 / 3) with (2 / 15 * (INR 5 * c ^ 4)) by (simpl; field).
  eapply derivable_pt_lim_ext; [|apply (derivable_pt_lim_scal (fun x => x ^ 5) (2 / 15) c), derivable_pt_lim_pow].
  intro y. unfold mult_real_fct. field.
Qed.
Lemma tanh_hi x : 0 <= x <= 1 -> tanh x <= x - x ^ 3 / 3 + 2 * x ^ 5 / 15.
Proof.
  intro H. assert (G := grow (fun x => (x - x ^ 3 / 3 + 2 * x ^ 5 / 15) - tanh x)
    (fun c => (1 - c ^ 2 + 2 * c ^ 4 / 3) - (1 - tanh c * tanh c)) x (proj1 H)).
  cbv beta in G. rewrite tanh_0 in G. enough (0 - 0 ^ 3 / 3 + 2 * 0 ^ 5 / 15 - 0 <= x - x ^ 3 / 3 + 2 * x ^ 5 / 15 - tanh x) by lra. apply G.
  - intro c. apply (derivable_pt_lim_minus (fun x => x - x ^ 3 / 3 + 2 * x ^ 5 / 15) tanh); [|apply tanh_deriv].
    apply (derivable_pt_lim_plus (fun x => x - x ^ 3 / 3) (fun x => 2 * x ^ 5 / 15)); [|apply quint_deriv].
    apply (derivable_pt_lim_minus id (fun x => x ^ 3 / 3)); [apply derivable_pt_lim_id|apply cube_deriv].
  - intros c Hc. pose proof (tanh_lo c ltac:(lra)) as T.
    assert (Q : 0 <= c - c ^ 3 / 3).
    { replace (c - c ^ 3 / 3) with (c * (1 - c * c / 3)) by field. apply Rmult_le_pos; [lra|]. nra. }
    assert ((c - c ^ 3 / 3) * (c - c ^ 3 / 3) <= tanh c * tanh c) by (apply Rmult_le_compat; auto).
    assert (0 <= c ^ 6) by (apply pow_le; lra).
    replace ((c - c ^ 3 / 3) * (c - c ^ 3 / 3)) with (c ^ 2 - 2 * c ^ 4 / 3 + c ^ 6 / 9) in * by field. lra.
Qed.

Lemma loop_zero fuel : forall b2 r, 3 / 10 <= b2 -> solve_beta_loop ERNum fuel (Some 0) (Some (F 0 b2)) (Some b2) = Ok r ->
  exists b, r = Some b /\ 29 / 100 <= b <= 1.
Proof.
  assert (F0 : forall x, F 0 x = tanh x) by (intro x; unfold F, coth; rewrite Rplus_0_l, Rinv_inv; reflexivity).
  induction fuel as [|fuel IH]; intros b2 r Hb H; cbn [solve_beta_loop] in H; [discriminate|].
  change (nltb ERNum (nlit ERNum 1 2) (nabs ERNum (nsub ERNum (Some (F 0 b2)) (Some b2)))) with (Rltb (1 / 100) (Rabs (F 0 b2 - b2))) in H.
  rewrite F0 in H. pose proof (tanh_le b2 ltac:(lra)) as T1. pose proof (tanh_pos b2 ltac:(lra)) as T2.
  rewrite Rabs_left1 in H by lra. destruct (Rltb _ _) eqn:E.
  - apply Rltb_inv in E. rewrite (step_ER 0 ltac:(lra)) in H by lra. apply (IH (tanh b2)); [|exact H].
    assert (L : 31 / 100 <= b2).
    { destruct (Rle_dec (31 / 100) b2) as [L|L]; [exact L|exfalso].
      pose proof (tanh_lo b2 ltac:(lra)) as T3. simpl in T3.
      assert (b2 * b2 <= 31 / 100 * (31 / 100)) by nra. assert (b2 * (b2 * b2) <= 31 / 100 * (31 / 100 * (31 / 100))) by nra. nra. }
    apply Rle_trans with (tanh (31 / 100)); [|apply tanh_mono; lra].
    pose proof (tanh_lo (31 / 100) ltac:(lra)) as T3. simpl in T3. lra.
  - injection H as <-. exists (tanh b2). split; [reflexivity|]. split; [|lra].
    apply Rle_trans with (tanh (3 / 10)); [|apply tanh_mono; lra].
    pose proof (tanh_lo (3 / 10) ltac:(lra)) as T3. simpl in T3. lra.
Qed.

Lemma solve_beta_zero : exists b, (forall fuel, (2002 <= fuel)%nat -> solve_beta ERNum fuel (Some 0) = Ok (Some b)) /\
  0 < b /\ / b - coth b < - (5 / 100).
Proof.
  destruct (solve_beta_ok 0 ltac:(lra)) as (b & Hb & Hp & _).
  assert (Hf : (solve_fuel 0 <= 2002)%nat).
  { unfold solve_fuel. assert (up (100 / (1 + 0)) = 101)%Z as ->; [|change (Z.to_nat 101) with 101%nat; apply Nat.max_lub; lia].
    replace (100 / (1 + 0)) with 100 by field. symmetry. apply tech_up; lra. }
  exists b. split; [intros fuel F1; apply Hb; lia|]. split; [exact Hp|].
  assert (Q : exists b', Some b = Some b' /\ 29 / 100 <= b' <= 1).
  { specialize (Hb 2002%nat Hf). assert (Hn : exists k, 2002%nat = S k) by (eexists; reflexivity).
    destruct Hn as (k & Hk). rewrite Hk in Hb. clear Hk Hf. unfold solve_beta in Hb. cbn [solve_beta_loop] in Hb.
    change (nltb ERNum (nlit ERNum 1 2) (nabs ERNum (nsub ERNum (nofZ ERNum 20) (nofZ ERNum 10)))) with (Rltb (1 / 100) (Rabs (20 - 10))) in Hb.
    rewrite Rltb_true in Hb by (rewrite Rabs_pos_eq; lra). change (nofZ ERNum 20) with (Some 20) in Hb.
    rewrite (step_ER 0 ltac:(lra) 20 ltac:(lra)) in Hb. exact (loop_zero k 20 (Some b) ltac:(lra) Hb). }
  destruct Q as (b' & E & B). injection E as <-.
  pose proof (tanh_hi b ltac:(lra)) as T. pose proof (tanh_pos b Hp) as T2. pose proof (tanh_le b ltac:(lra)) as T3.
  unfold coth. 
  assert (Q : tanh b - b < - (5 / 100) * (b * tanh b)).
  { assert (b * tanh b <= b * b) by (apply Rmult_le_compat_l; lra).
    assert (P3 : 0 < b ^ 3) by (apply pow_lt; lra). assert (P2 : 0 < b ^ 2) by (apply pow_lt; lra).
    assert (B2 : b ^ 2 <= 1) by (simpl; nra).
    assert (b ^ 5 <= b ^ 3) by (replace (b ^ 5) with (b ^ 3 * b ^ 2) by ring; nra).
    assert (b ^ 2 * (29 / 100) <= b ^ 3) by (replace (b ^ 3) with (b ^ 2 * b) by ring; nra).
    replace (b * b) with (b ^ 2) in * by ring. lra. }
  apply Rmult_lt_reg_r with (b * tanh b); [nra|].
  replace ((/ b - / tanh b) * (b * tanh b)) with (tanh b - b) by (field; lra). exact Q.
Qed.

(** the estimate is accurate when the result is not small *)
Lemma energy_close b x : 1 <= b -> 0 < x -> Rabs (b - x) <= 1 / 100 -> Rabs (coth b - coth x) <= 2 / 100.
Proof.
  intros Hb Hx Hd.
  assert (Hx9 : 99 / 100 <= x) by (unfold Rabs in Hd; destruct (Rcase_abs _); lra).
  assert (K : forall u v, 99 / 100 <= u -> u <= v -> v - u <= 1 / 100 -> 0 <= coth u - coth v <= 2 / 100).
  { intros u v Hu Huv Hvu. split; [pose proof (coth_anti u v ltac:(lra) Huv); lra|].
    pose proof (tanh_pos u ltac:(lra)) as Tu. pose proof (tanh_pos v ltac:(lra)) as Tv.
    pose proof (tanh_mono u v ltac:(lra) Huv) as Tm.
    pose proof (tanh_lo (99 / 100) ltac:(lra)) as T0. simpl in T0.
    assert (Tl : 66 / 100 <= tanh u) by (pose proof (tanh_mono (99 / 100) u ltac:(lra) Hu); lra).
    assert (D : tanh v - tanh u <= (1 - 66 / 100 * (66 / 100)) * (v - u)).
    { destruct Huv as [Huv| ->]; [|lra].
      destruct (MVT_cor2 tanh (fun c => 1 - tanh c * tanh c) u v Huv (fun c _ => tanh_deriv c)) as (c & E & Hc).
      rewrite E. pose proof (tanh_mono u c ltac:(lra) ltac:(lra)). apply Rmult_le_compat_r; [lra|]. assert (66 / 100 * (66 / 100) <= tanh c * tanh c) by (apply Rmult_le_compat; lra). lra. }
    unfold coth. replace (/ tanh u - / tanh v) with ((tanh v - tanh u) / (tanh u * tanh v)) by (field; lra).
    assert (P : 43 / 100 <= tanh u * tanh v) by nra.
    apply Rmult_le_reg_r with (tanh u * tanh v); [lra|]. unfold Rdiv at 1. rewrite Rmult_assoc, Rinv_l by lra. lra. }
  destruct (Rle_dec x b) as [L|L].
  - assert (b - x <= 1 / 100) by (rewrite Rabs_pos_eq in Hd; lra). destruct (K x b Hx9 L H). rewrite Rabs_left1; lra.
  - assert (x - b <= 1 / 100) by (rewrite Rabs_left1 in Hd; lra). destruct (K b x ltac:(lra) ltac:(lra) H). rewrite Rabs_pos_eq; lra.
Qed.
Lemma solve_beta_mono e f1 f2 r : forall b b2, solve_beta_loop ERNum f1 e b b2 = Ok r -> (f1 <= f2)%nat -> solve_beta_loop ERNum f2 e b b2 = Ok r.
Proof.
  revert f2. induction f1 as [|f1 IH]; intros f2 b b2 H L; [discriminate|]. destruct f2 as [|f2]; [lia|].
  cbn [solve_beta_loop] in *. destruct (nltb ERNum _ _); [|exact H]. apply IH; [exact H|lia].
Qed.
Lemma solve_beta_close e b fuel : -1 < e -> solve_beta ERNum fuel (Some e) = Ok (Some b) -> 1 <= b ->
  Rabs ((/ b - / tanh b) - e) <= 2 / 100.
Proof.
  intros He H Hb. destruct (solve_beta_ok e He) as (b' & Hf & Hp & x & Hx & Hd & Ee).
  assert (E : Ok (Some b) = Ok (Some b')).
  { rewrite <- (Hf (Nat.max (solve_fuel e) fuel)) by lia. symmetry. apply solve_beta_mono with fuel; [exact H|lia]. }
  injection E as <-. pose proof (energy_close b x Hb Hx Hd) as Q. fold (coth b). rewrite Ee.
  replace (/ b - coth b - (/ b - coth x)) with (- (coth b - coth x)) by ring. rewrite Rabs_Ropp. exact Q.
Qed.
Lemma find_total_ER s fuel rng conf : fit_ok ERNum s conf ->
  ((13 <= fuel)%nat -> exists b, find_of ERNum s fuel rng conf = Ok (Some b, fit_conf s conf) /\ low_end s < b < 5) /\
  ((fuel < 13)%nat -> find_of ERNum s fuel rng conf = OutOfFuel).
Proof.
  intro H. destruct (find_total ERNum s fuel rng conf quarter_ER (tree_ER s) H) as [A B]. split; [|exact B].
  intro F. destruct (A F) as (b & E & L & U). 
  assert (El : nlit ERNum 1 (low_dec s) = Some (low_end s)) by (destruct s; cbn; f_equal; lra).
  rewrite El in L. destruct b as [b|]; [|discriminate L]. exists b. split; [exact E|].
  split; [exact (Rltb_inv _ _ L)|exact (Rltb_inv _ _ U)].
Qed.
Lemma mono_dec (energy : R -> R) low bstar tgt : 
  (forall x y, low <= x <= 5 -> low <= y <= 5 -> x < y -> energy y < energy x) ->
  low <= bstar <= 5 -> energy bstar = tgt -> forall b, low < b < 5 ->
  (er_ltb (Some tgt) (Some (energy b)) = true -> b <= bstar + 0) /\ (er_ltb (Some tgt) (Some (energy b)) = false -> bstar - 0 <= b).
Proof.
  intros Hm Hb <- b Hr. split; intro E; cbn in E.
  - apply Rltb_inv in E. destruct (Rle_dec b bstar) as [L|L]; [lra|]. specialize (Hm bstar b Hb ltac:(lra) ltac:(lra)). lra.
  - apply Rltb_inv_false in E. destruct (Rle_dec bstar b) as [L|L]; [lra|]. specialize (Hm b bstar ltac:(lra) Hb ltac:(lra)). lra.
Qed.
Lemma find_unreachable s fuel rng (conf : config ER) r c' :
  find_of ERNum s fuel rng conf = Ok (r, c') ->
  ((forall k b e, asked s conf rng k b -> energy_at ERNum s conf (Some b) (rng k) = Ok e -> er_ltb (ednsty conf) e = false) ->
     exists b, r = Some b /\ Rabs (b - low_end s) <= 1 / 2000) /\
  ((forall k b e, asked s conf rng k b -> energy_at ERNum s conf (Some b) (rng k) = Ok e -> er_ltb (ednsty conf) e = true) ->
     exists b, r = Some b /\ Rabs (b - 5) <= 1 / 2000).
Proof.
  intros H. assert (L5 : low_end s <= 5) by (destruct s; cbn; lra). split; intro Hc.
  - destruct (find_acc s fuel rng conf (low_end s) 0 r c') as (b & E & B); try lra; [|exact H|exists b; split; [exact E|lra]].
    intros k b e Hr E. rewrite (Hc k b e Hr E). apply asked_in in Hr. split; [discriminate|lra].
  - destruct (find_acc s fuel rng conf 5 0 r c') as (b & E & B); try lra; [|exact H|exists b; split; [exact E|lra]].
    intros k b e Hr E. rewrite (Hc k b e Hr E). apply asked_in in Hr. split; [lra|discriminate].
Qed.
Lemma bisect_monotone s (energy : R -> R) tgt bstar fuel : (13 <= fuel)%nat ->
  (forall x y, low_end s <= x <= 5 -> low_end s <= y <= 5 -> x < y -> energy y < energy x) ->
  low_end s <= bstar <= 5 -> energy bstar = tgt ->
  exists b, bisect ERNum (fun _ b => match b with Some b => Ok (Some (energy b)) | None => Ok None end) (Some tgt) (Some (low_end s)) fuel = Ok (Some b) /\
    low_end s < b < 5 /\ Rabs (b - bstar) <= 1 / 2000.
Proof.
  intros Hf Hm Hb Hs. assert (El : nlit ERNum 1 (low_dec s) = Some (low_end s)) by (destruct s; cbn; f_equal; lra).
  pose proof (tree_ER s) as Ht. rewrite El in Ht.
  destruct (bisect_tree ERNum (fun _ b => match b with Some b => Ok (Some (energy b)) | None => Ok None end) (Some tgt) (Some (low_end s)) fuel) as [(b & E & B)|(p & k & b & E & E')].
  - intros k [b|]; discriminate.
  - exact Ht.
  - exact Hf.
  - change (num ERNum) with (option R) in *. rewrite E. 
    destruct (bisect_acc (fun _ b => match b with Some b => Ok (Some (energy b)) | None => Ok None end) (Some tgt) (low_end s) bstar 0) with (fuel := fuel) (r := b) as (b' & -> & B1 & B2).
    + intros k lo hi e Hr E'. injection E' as <-. apply bracket_in in Hr; [|destruct s; cbn; lra]. apply (mono_dec energy (low_end s) bstar tgt); auto; lra.
    + destruct s; cbn; lra.
    + lra.
    + lra.
    + exact E.
    + exists b'. split; [reflexivity|]. split; [exact B1|lra].
  - destruct b; discriminate E'.
Qed.
Lemma find_is_bisect s fuel rng (conf : config ER) :
  find_of ERNum s fuel rng conf =
  (let* b := bisect ERNum (fun k b => energy_at ERNum s conf b (rng k)) (ednsty conf) (Some (low_end s)) fuel in
   Ok (b, fit_conf s conf)).
Proof.
  rewrite find_of_eq. assert (El : nlit ERNum 1 (low_dec s) = Some (low_end s)) by (destruct s; cbn; f_equal; lra).
  rewrite El. reflexivity.
Qed.
