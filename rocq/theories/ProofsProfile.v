From Coq Require Import String Reals ZArith List Arith Lia Lra Bool.
From Verif Require Import Num Monad NumR Spin Config Chain SpecVec SpecChain ProofsChain ProofsEnergy
  Fit Files Writers Runs SpecWriters ProofsWriters.
Import ListNotations.
Local Open Scope R_scope.

Lemma site_message sl sc sr jl jr :
  ndiv ERNum (for3 (fun k sjs =>
      nsub ERNum (nsub ERNum sjs (nmul ERNum (nmul ERNum (k (fin3 sl)) (k (fin3 jl))) (k (fin3 sc))))
                 (nmul ERNum (nmul ERNum (k (fin3 sc)) (k (fin3 jr))) (k (fin3 sr)))) (nofZ ERNum 0)) (nofZ ERNum 2)
  = Some ((- dot sl (vhad jl sc) + - dot sc (vhad jr sr)) / 2).
Proof.
  destruct sl, sc, sr, jl, jr. unfold for3. cbn. unfold er_div. destruct (Req_EM_T 2 0); [lra|]. f_equal.
  unfold dot, vhad. cbn. field.
Qed.

Lemma snapshot_ok n s sc : wf n s sc -> (1 <= n)%nat -> snapshot ERNum (fin sc) = Ok (messages n (site_of n sc)).
Proof.
  intros W Hn. unfold snapshot, messages.
  assert (W' : @wf (num ERNum) n s (fin sc)) by (apply (proj2 (wf_fin n s sc)); exact W).
  cbn zeta. rewrite (wf_n W'), range0. apply ProofsChain.mapM_ok. intros i Hi. apply in_seq in Hi.
  assert (Hl : i_l n i = Ok ((i + (n - 1)) mod n)%nat).
  { unfold i_l. destruct (Nat.eqb_spec i 0) as [->|].
    - rewrite usub_ok by lia. rewrite Nat.mod_small by lia. f_equal.
    - replace (i + (n - 1))%nat with (i - 1 + 1 * n)%nat by lia. rewrite Nat.mod_add by lia. rewrite Nat.mod_small by lia. reflexivity. }
  assert (Hr : i_r n i = Ok ((i + 1) mod n)%nat).
  { unfold i_r. rewrite usub_ok by lia. cbn [bind]. destruct (Nat.eqb_spec i (n - 1)) as [->|].
    - replace (n - 1 + 1)%nat with n by lia. rewrite Nat.mod_same by lia. reflexivity.
    - rewrite Nat.mod_small by lia. reflexivity. }
  assert (Bl : ((i + (n - 1)) mod n < n)%nat) by (apply Nat.mod_upper_bound; lia).
  assert (Br : ((i + 1) mod n < n)%nat) by (apply Nat.mod_upper_bound; lia).
  rewrite Hl, Hr. cbn [bind].
  pose proof (wf_spins _ _ _ W') as L1. pose proof (wf_js _ _ _ W') as L2.
  rewrite (idx_ok (@spins (num ERNum) (fin sc)) ((i + (n - 1)) mod n) (z3 ERNum)) by (rewrite L1; exact Bl). cbn [bind].
  rewrite (idx_ok (@spins (num ERNum) (fin sc)) i (z3 ERNum)) by (rewrite L1; lia). cbn [bind].
  rewrite (idx_ok (@spins (num ERNum) (fin sc)) ((i + 1) mod n) (z3 ERNum)) by (rewrite L1; exact Br). cbn [bind].
  rewrite (idx_ok (@j_couple (num ERNum) (fin sc)) ((i + (n - 1)) mod n) (z3 ERNum)) by (rewrite L2; exact Bl). cbn [bind].
  rewrite (idx_ok (@j_couple (num ERNum) (fin sc)) i (z3 ERNum)) by (rewrite L2; lia). cbn [bind].
  change (nth ?k (spins (fin sc)) (z3 ERNum)) with (at3 ERNum (spins (fin sc)) k).
  change (nth ?k (j_couple (fin sc)) (z3 ERNum)) with (at3 ERNum (j_couple (fin sc)) k).
  rewrite !spins_fin, !js_fin, site_message. reflexivity.
Qed.

Lemma rsum_seq n f : rsum (map f (seq 0 n)) = Rsum n f.
Proof.
  assert (A : forall l1 l2, rsum (l1 ++ l2) = rsum l1 + rsum l2).
  { induction l1 as [|x l1 IH]; intros l2; unfold rsum in *; cbn [app fold_right]; [lra|]. rewrite IH. lra. }
  induction n as [|n IH]; [reflexivity|]. rewrite seq_S, map_app, A, IH. unfold rsum. cbn [map fold_right Rsum Nat.add]. lra.
Qed.

(** the site energies add up to the energy of the bonds *)
Lemma site_energy_sum n sc : (1 <= n)%nat ->
  Rsum n (fun i => s_e (site_of n sc i)) = ring_energy n (S_ sc) (J_ sc) (fun _ => vzero).
Proof.
  intros Hn. unfold site_of, ring_energy. cbn [s_e].
  set (b := bond (S_ sc) (J_ sc)).
  rewrite (Rsum_ext n _ (fun i => / 2 * b ((i + (n - 1)) mod n)%nat i + / 2 * b i ((i + 1) mod n)%nat)) by (intros; lra).
  rewrite Rsum_plus, !Rsum_scal.
  rewrite (Rsum_ext n (fun i => b i ((i + 1) mod n)%nat + dot vzero (S_ sc i)) (fun i => b i ((i + 1) mod n)%nat))
    by (intros; unfold dot; cbn; lra).
  assert (E : Rsum n (fun i => b ((i + (n - 1)) mod n)%nat i) = Rsum n (fun i => b i ((i + 1) mod n)%nat)).
  { rewrite (Rsum_ring n b) by exact Hn. destruct n as [|k]; [lia|]. rewrite Rsum_first.
    replace (S k - 1)%nat with k by lia. rewrite Nat.add_0_l, (Nat.mod_small k (S k)) by lia.
    rewrite (Rsum_ext k (fun i => b ((S i + k) mod S k)%nat (S i)) (fun i => b i (i + 1)%nat)); [lra|].
    intros i Hi. replace (S i + k)%nat with (i + 1 * S k)%nat by lia. rewrite Nat.mod_add by lia.
    rewrite Nat.mod_small by lia. f_equal. lia. }
  rewrite E. lra.
Qed.

(** * run_mc: number of lines *)
Lemma sample_loop_len N A upd (obs : chain (num N) -> res A) inner d n : forall k sc l,
  sample_loop N upd obs inner d n k sc = Ok l -> length l = n.
Proof.
  induction n as [|n IH]; intros k sc l; cbn [sample_loop]; [intros [= <-]; reflexivity|].
  destruct (iterMi _ k inner sc) as [sc'| |]; cbn [bind]; try discriminate.
  destruct (obs sc') as [o| |]; cbn [bind]; try discriminate.
  destruct (sample_loop N upd obs inner d n (k + inner) sc') as [r| |] eqn:E; cbn [bind]; try discriminate.
  intros [= <-]. cbn. f_equal. exact (IH _ _ _ E).
Qed.

Lemma foldM_app {A B} (f : B -> A -> res A) l1 l2 a :
  foldM f (l1 ++ l2) a = (let* b := foldM f l1 a in foldM f l2 b).
Proof.
  revert a. induction l1 as [|x l1 IH]; intros a; [reflexivity|]. cbn [app foldM].
  destruct (f x a); cbn [bind]; [apply IH|reflexivity|reflexivity].
Qed.

Lemma mc_frame_lens N {A} (upd : mcdraw N -> chain (num N) -> res (chain (num N))) inner (obs : chain (num N) -> res A) rg conf f l f' parts :
  mc_split (threads conf) (mc_points conf) = Ok parts -> Forall (fun z => (0 <= z)%Z) parts ->
  mc_frame N (mc_worker N upd inner obs) rg conf f = Ok (l, f') -> map (fun x => Z.of_nat (length x)) l = parts.
Proof.
  intros Hs Hp. unfold mc_frame. rewrite Hs. cbn [bind].
  match goal with |- foldM ?g _ _ = _ -> _ => set (step := g) end.
  rewrite range0.
  assert (H : forall k ls g, (k <= length parts)%nat -> foldM step (seq 0 k) ([], f) = Ok (ls, g) ->
     map (fun x => Z.of_nat (length x)) ls = firstn k parts).
  { induction k as [|k IH]; intros ls g Hk.
    - cbn. intros [= <- <-]. reflexivity.
    - rewrite seq_S, foldM_app. destruct (foldM step (seq 0 k) ([], f)) as [[l0 f0]| |] eqn:E; cbn [bind]; try discriminate.
      cbn [foldM]. unfold step at 1. destruct (new_logged N conf (0 + k) _ f0) as [[sc f1]| |]; cbn [bind]; try discriminate.
      destruct (idx parts (0 + k)) as [z| |] eqn:Ei; cbn [bind]; try discriminate.
      destruct (mc_worker N upd inner obs _ z sc) as [a| |] eqn:Ew; cbn [bind]; try discriminate.
      intros [= <- <-]. rewrite map_app. rewrite (IH _ _ ltac:(lia) eq_refl). cbn [map].
      apply sample_loop_len in Ew. rewrite Ew.
      unfold idx in Ei. cbn [Nat.add] in Ei. destruct (nth_error parts k) as [z'|] eqn:En; [|discriminate]. injection Ei as ->.
      rewrite Z2Nat.id by (eapply Forall_forall; [exact Hp|]; eapply nth_error_In; exact En).
      clear - En. revert k En. induction parts as [|p ps IHp]; intros [|k] En; cbn in *; try discriminate.
      + injection En as ->. reflexivity.
      + f_equal. apply IHp, En. }
  intros E. rewrite (H _ _ _ (Nat.le_refl _) E). apply firstn_all.
Qed.

Lemma zsum_lens {A} (l : list (list A)) : zsum (map (fun x => Z.of_nat (length x)) l) = Z.of_nat (length (concat l)).
Proof. unfold zsum. induction l as [|x l IH]; [reflexivity|]. cbn [map fold_right concat]. rewrite IH, app_length. lia. Qed.

Lemma run_mc_lines N upd rg conf f conf' f' :
  (1 <= threads conf)%Z -> (1 <= mc_points conf < 2 ^ 31)%Z ->
  run_mc_with N upd rg conf f = Ok (conf', f') ->
  exists work f1, conf' = conf /\ f' = append "mc_live.dat"%string (r_file N rg work) f1 /\
    Z.of_nat (length work) = Z.min (threads conf) (mc_points conf) /\
    Z.of_nat (length (concat work)) = mc_points conf.
Proof.
  intros H1 H2. unfold run_mc_with.
  destruct (mc_frame _ _ _ _ _) as [[l f1]| |] eqn:E; cbn [bind]; try discriminate. intros [= <- <-].
  destruct (mc_split_ok _ _ H1 H2) as (parts & Hs & Hl & Hf & Hz).
  assert (Hp : map (fun x => Z.of_nat (length x)) l = parts).
  { eapply mc_frame_lens; [exact Hs| |exact E]. eapply Forall_impl; [|exact Hf]. cbn. intros; lia. }
  exists l, f1. repeat split.
  - rewrite <- Hl, <- Hp, map_length. reflexivity.
  - rewrite <- zsum_lens, Hp. exact Hz.
Qed.
