(** Frame of the samplers; reported energies; closed loops. *)
From Coq Require Import Reals Lra Lia List ZArith Arith Bool.
From Verif Require Import Num Monad NumR Spin Config Chain Langevin SpecVec SpecChain SpecMC Samples
  ProofsSpin ProofsChain ProofsEnergy ProofsDyn ProofsDynR ProofsDyn2 ProofsMC ProofsMCR ProofsMCR2 ProofsMCR3 ProofsMCR4.
Import ListNotations.
Local Open Scope R_scope.

(** ** Frame *)
Lemma acceptP_frame (N : NumOps) n s (sc : chain (num N)) i v de u : wf n s sc -> (i < n)%nat ->
  exists sp', acceptP N sc i v de u = mkChain (j_couple sc) (static_h sc) sp' (t sc) (vars sc) (has_file sc)
    /\ length sp' = n /\ forall p, p <> i -> nth_error sp' p = nth_error (spins sc) p.
Proof.
  intros W Hi. unfold acceptP. destruct (_ || _).
  - exists (upd (spins sc) i v). split; [reflexivity|]. split.
    + rewrite upd_length. apply (wf_spins _ _ _ W).
    + intros p Hp. assert (G : forall (l : list (v3 (num N))) i p, p <> i -> nth_error (upd l i v) p = nth_error l p).
      { induction l as [|a l IH]; intros [|i0] [|p0] H; cbn; auto; try congruence. }
      apply G. exact Hp.
  - exists (spins sc). split; [destruct sc; reflexivity|]. split; [apply (wf_spins _ _ _ W)|reflexivity].
Qed.

Lemma sample_pure (N : NumOps) n s (sc : chain (num N)) k d : wf n s sc -> (2 <= n)%nat ->
  exists de, sample N k d sc = Ok (acceptP N sc (d_idx d mod n) (propose N (d_u1 d) (d_u2 d)) de (d_u3 d)).
Proof.
  intros W Hn. destruct k; cbn [sample]; eexists.
  - apply (plain_pure N n s); [exact W|lia].
  - apply (maglab_pure N n s); [exact W|lia].
  - apply (rot_pure N n s); [exact W|lia].
  - apply (magnus_pure N n s); [exact W|lia].
  - apply (magfull_pure N n s); [exact W|lia].
Qed.

Lemma sample_frame (N : NumOps) n s (sc : chain (num N)) k d : wf n s sc -> (2 <= n)%nat ->
  exists sp', sample N k d sc = Ok (mkChain (j_couple sc) (static_h sc) sp' (t sc) (vars sc) (has_file sc))
    /\ length sp' = n /\ forall p, p <> (d_idx d mod n)%nat -> nth_error sp' p = nth_error (spins sc) p.
Proof.
  intros W Hn. destruct (sample_pure N n s sc k d W Hn) as [de E].
  destruct (acceptP_frame N n s sc (d_idx d mod n) (propose N (d_u1 d) (d_u2 d)) de (d_u3 d) W) as [sp' [E' H]].
  { apply Nat.mod_upper_bound. lia. }
  exists sp'. rewrite E, E'. split; [reflexivity|exact H].
Qed.
Lemma wf_spins_change {T} n s (sc : chain T) sp' : wf n s sc -> length sp' = n ->
  wf n s (mkChain (j_couple sc) (static_h sc) sp' (t sc) (vars sc) (has_file sc)).
Proof. intros W H. destruct W. constructor; cbn; assumption. Qed.

Lemma samples_frame (N : NumOps) n s l : forall (sc : chain (num N)), wf n s sc -> (2 <= n)%nat ->
  exists sp', samples N l sc = Ok (mkChain (j_couple sc) (static_h sc) sp' (t sc) (vars sc) (has_file sc))
    /\ length sp' = n /\ forall p, (forall kd, In kd l -> p <> (d_idx (snd kd) mod n)%nat) -> nth_error sp' p = nth_error (spins sc) p.
Proof.
  induction l as [|[k d] l IH]; intros sc W Hn.
  - exists (spins sc). split; [destruct sc; reflexivity|]. split; [apply (wf_spins _ _ _ W)|reflexivity].
  - unfold samples in *. cbn [foldM fst snd].
    destruct (sample_frame N n s sc k d W Hn) as [sp1 [E [L F]]]. rewrite E. cbn [bind].
    destruct (IH _ (wf_spins_change n s sc sp1 W L) Hn) as [sp2 [E2 [L2 F2]]].
    cbn [j_couple static_h spins t vars has_file] in E2, F2.
    exists sp2. split; [exact E2|]. split; [exact L2|]. intros p Hp.
    rewrite F2 by (intros; apply Hp; right; assumption). apply F. apply (Hp (k, d)). left. reflexivity.
Qed.

Lemma acceptP_cases sc i v de u : (i < length (spins sc))%nat ->
  acceptP ERNum (fin sc) i (fin3 v) de u = fin sc \/ acceptP ERNum (fin sc) i (fin3 v) de u = fin (moved sc i v).
Proof.
  intro Hi. unfold acceptP. destruct (_ || _); [right|left; reflexivity].
  unfold fin, chain_map, moved, set_spins. cbn [spins j_couple static_h t vars has_file].
  f_equal. apply fin_upd. exact Hi.
Qed.
Lemma sample_unit n s sc k d u1 u2 u : wf n s sc -> (2 <= n)%nat -> unit_draw u2 ->
  sample ERNum k (draw d u1 u2 u) (fin sc) = Ok (fin sc) \/
  sample ERNum k (draw d u1 u2 u) (fin sc) = Ok (fin (moved sc (d mod n) (uniform_dir u1 u2))).
Proof.
  intros W Hn D2. assert (W' : @wf (num ERNum) n s (fin sc)) by (apply wf_fin; exact W).
  destruct (sample_pure ERNum n s (fin sc) k (draw d u1 u2 u) W' Hn) as [de E].
  cbn [d_idx d_u1 d_u2 d_u3 draw] in E. rewrite propose_ER in E by exact D2. rewrite E.
  destruct (acceptP_cases sc (d mod n) (uniform_dir u1 u2) de (Some u)) as [Q|Q].
  - rewrite (wf_spins _ _ _ W). apply Nat.mod_upper_bound. lia.
  - left. f_equal. exact Q.
  - right. f_equal. exact Q.
Qed.
Lemma samples_unit n s : forall (l : list (sampler * (nat * (R * R * R)))) sc, wf n s sc -> (2 <= n)%nat -> unit_spins sc ->
  Forall (fun x => let '(_, (_, (_, u2, _))) := x in unit_draw u2) l ->
  exists sc', samples ERNum (map (fun x => let '(k, (d, (u1, u2, u))) := x in (k, draw d u1 u2 u)) l) (fin sc) = Ok (fin sc')
     /\ wf n s sc' /\ unit_spins sc'.
Proof.
  induction l as [|[k [d [[u1 u2] u]]] l IH]; intros sc W Hn U F.
  - exists sc. auto.
  - inversion F; subst. unfold samples in *. cbn [map foldM fst snd].
    destruct (sample_unit n s sc k d u1 u2 u W Hn H1) as [E|E].
    + destruct (IH sc W Hn U H2) as [sc' Q]. exists sc'.
      destruct Q as [Q1 Q2]. split; [|exact Q2].
      etransitivity; [apply (f_equal (fun q => bind q _) E)|]. exact Q1.
    + destruct (IH _ (moved_wf n s sc (d mod n) (uniform_dir u1 u2) W) Hn
                  (moved_unit n s sc _ _ W U (uniform_dir_unit u1 u2 H1)) H2) as [sc' [Q1 Q2]].
      exists sc'. split; [|exact Q2].
      etransitivity; [apply (f_equal (fun q => bind q _) E)|]. exact Q1.
Qed.

(** Langevin samplers *)
Lemma lplain_frame (N : NumOps) n s (lc : lchain (num N)) (d : mcdraw N) : wf n s (base lc) -> (2 <= n)%nat ->
  forall f, f = lmetropolis_update N \/ f = lmetropolis_update_magnus N ->
  exists sp', f d lc = Ok (mkL (mkChain (j_couple (base lc)) (static_h (base lc)) sp' (t (base lc)) (vars (base lc)) (has_file (base lc))) (gamma lc))
    /\ length sp' = n /\ forall p, p <> (d_idx d mod n)%nat -> nth_error sp' p = nth_error (spins (base lc)) p.
Proof.
  intros W Hn f [-> | ->].
  - rewrite (lplain_pure N n s lc d W) by lia.
    edestruct (acceptP_frame N n s (base lc)) as [sp' [E' H]];
      [exact W|apply Nat.mod_upper_bound; lia|rewrite E'; exists sp'; split; [reflexivity|exact H]].
  - rewrite (lmagnus_pure N n s lc d W) by lia.
    edestruct (acceptP_frame N n s (base lc)) as [sp' [E' H]];
      [exact W|apply Nat.mod_upper_bound; lia|rewrite E'; exists sp'; split; [reflexivity|exact H]].
Qed.
Lemma lsample_unit n s sc g d u1 u2 u : wf n s sc -> (2 <= n)%nat -> unit_draw u2 -> unit_spins sc ->
  forall f, f = lmetropolis_update ERNum \/ f = lmetropolis_update_magnus ERNum ->
  exists sc', f (draw d u1 u2 u) (lfin sc g) = Ok (lfin sc' g) /\ unit_spins sc' /\ wf n s sc'.
Proof.
  intros W Hn D2 U f Hf. assert (W' : @wf (num ERNum) n s (base (lfin sc g))) by (apply wf_fin; exact W).
  assert (Hi : (d mod n < length (spins sc))%nat) by (rewrite (wf_spins _ _ _ W); apply Nat.mod_upper_bound; lia).
  assert (A : exists de, f (draw d u1 u2 u) (lfin sc g) = Ok (mkL (acceptP ERNum (fin sc) (d mod n) (fin3 (uniform_dir u1 u2)) de (Some u)) (Some g))).
  { destruct Hf as [-> | ->].
    - eexists. etransitivity; [apply (lplain_pure ERNum n s); [exact W'|lia]|].
      cbn [d_idx d_u1 d_u2 d_u3 draw base gamma lfin]. rewrite propose_ER by exact D2. reflexivity.
    - eexists. etransitivity; [apply (lmagnus_pure ERNum n s); [exact W'|lia]|].
      cbn [d_idx d_u1 d_u2 d_u3 draw base gamma lfin]. rewrite propose_ER by exact D2. reflexivity. }
  destruct A as [de E]. destruct (acceptP_cases sc (d mod n) (uniform_dir u1 u2) de (Some u) Hi) as [Q|Q].
  - exists sc. split; [|auto]. rewrite E. unfold lfin. do 2 f_equal. exact Q.
  - exists (moved sc (d mod n) (uniform_dir u1 u2)). split; [rewrite E; unfold lfin; do 2 f_equal; exact Q|].
    split; [apply (moved_unit n s); auto using uniform_dir_unit|apply moved_wf; exact W].
Qed.
Lemma lplain_step n s sc g : wf n s sc -> (2 <= n)%nat ->
  metropolis_for n (fun c => exchange_energy n (S_ c) (J_ c))
    (fun d c => bind (lmetropolis_update ERNum d (mkL c (Some g))) (fun lc => Ok (base lc))) sc.
Proof.
  intros W Hn d u1 u2 u D1 D2 D3. assert (W' : @wf (num ERNum) n s (base (lfin sc g))) by (apply wf_fin; exact W).
  assert (Hi : (d mod n < n)%nat) by (apply Nat.mod_upper_bound; lia).
  eapply (step_of n s); [exact W|lia| |reflexivity].
  assert (E : lmetropolis_update ERNum (draw d u1 u2 u) (lfin sc g) =
    Ok (mkL (acceptP ERNum (fin sc) (d mod n) (fin3 (uniform_dir u1 u2)) (dL ERNum n (fin sc) (d mod n) (fin3 (uniform_dir u1 u2))) (Some u)) (Some g))).
  { etransitivity; [apply (lplain_pure ERNum n s); [exact W'|lia]|].
    cbn [d_idx d_u1 d_u2 d_u3 draw base gamma lfin]. rewrite propose_ER by exact D2. reflexivity. }
  etransitivity; [apply (f_equal (fun q => bind q _) E)|]. cbn [bind base]. f_equal. f_equal.
  apply (dL_value n s); assumption.
Qed.
