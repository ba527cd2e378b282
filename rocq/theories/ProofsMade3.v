(** From the configuration to the end of a run, in binary64. *)
From Coq Require Import ZArith Reals List Lia Lra Psatz Bool Arith.
From Coq Require Import Floats.SpecFloat.
From Flocq Require Import Core.
From Verif Require Import Num Monad NumR NumF64 Spin Config Chain SpecVec SpecChain SpecRound SpecClose SpecKeep SpecMC SpecMade
  ProofsFlocq ProofsRound ProofsRound2 ProofsF64 ProofsChain ProofsSpin ProofsDyn ProofsMC ProofsMCR5 ProofsMCF64 ProofsClose ProofsClose3 ProofsClose4 ProofsTiny ProofsKeep ProofsKeep2 ProofsNew ProofsMade ProofsMade2.
Import ListNotations.
Local Open Scope R_scope.

Lemma noise z x : small (1 / 64) z -> is_number x -> Rabs (value x) <= 32 -> small (51 / 100) (f_add (f_ofZ 0) (f_mul z x)).
Proof.
  intros [Vz Bz] Vx Bx. unfold small. rewrite !value_fval in *. pose proof ee_small as E. destruct (ofZ_val 0 ltac:(lia)) as [V0 E0].
  assert (P1 : app (f_mul z x) (fval z * fval x) ee) by (apply (app_mul _ _ _ _ 0 0 (1 / 64) 32); auto using app_exact; lra).
  assert (Q1 := mul_bound _ _ _ _ Bz Bx).
  destruct (app_add _ _ _ _ _ _ (app_exact _ V0) P1 ltac:(rewrite E0, ?Rplus_0_l, ?Rabs_R0; lra)) as [V D]. split; [exact V|].
  rewrite E0, Rplus_0_l in D. apply Rabs_le_inv in D. apply Rabs_le_inv in Q1. apply Rabs_le. lra.
Qed.
Lemma small_sum x y B C D : small B x -> small C y -> B + C <= 7 -> B + C + / 1000 <= D -> small D (f_add x y).
Proof.
  intros [Vx Bx] [Vy By] H HD. rewrite value_fval in *. pose proof ee_small.
  destruct (app_add x y _ _ 0 0 (app_exact x Vx) (app_exact y Vy) ltac:(lra)) as [V E]. split; [exact V|]. rewrite value_fval.
  apply Rabs_le_inv in E. apply Rabs_le_inv in Bx. apply Rabs_le_inv in By. apply Rabs_le. lra.
Qed.
Lemma small_le B C x : small B x -> B <= C -> small C x. Proof. intros [A H] ?. split; [exact A|lra]. Qed.
Lemma nth_small B l i x : Forall (small B) l -> idx l i = Ok x -> small B x.
Proof. unfold idx. intros F H. destruct (nth_error l i) eqn:E; [|discriminate]. injection H as <-. rewrite Forall_forall in F. apply F. exact (nth_error_In _ _ E). Qed.
Lemma mapM_all {A B} (f : A -> res B) (P : B -> Prop) : forall l r, (forall a b, In a l -> f a = Ok b -> P b) -> mapM f l = Ok r -> Forall P r.
Proof.
  induction l as [|a l IH]; cbn; intros r H E.
  - injection E as <-. constructor.
  - destruct (f a) eqn:Ea; cbn in E; try discriminate. destruct (mapM f l) eqn:El; cbn in E; try discriminate. injection E as <-.
    constructor; [exact (H a _ (or_introl eq_refl) Ea)|apply IH; [intros x y Hx; exact (H x y (or_intror Hx))|reflexivity]].
Qed.

Section New.
Context (L : libm) (conf : config f64) (HC : mild_conf conf) (d : newdraw (F64 L)) (HD : plain_draws L d).
Lemma new_mild : exists c, chain_new (F64 L) conf d = Ok c /\ wf (Z.to_nat (hsize conf)) (Z.to_nat (ssize conf)) c /\ vars c = conf /\ rough_sites c /\ mild_drive c.
Proof.
  destruct HC as (Hh & Hs & Hj & Hv & Hl & Lf & Ff & Ls & Fs & Hdt & Vt & Bt & He & Hr).
  assert (Vj := proj1 Hj). assert (Vv := proj1 Hv).
  assert (OK : conf_ok (F64 L) conf).
  { split; [exact (conj (Z.le_trans 0 2 _ ltac:(lia) (proj1 Hh)) (proj2 Hh))|]. split; [apply Vj|]. split; [apply Vv|]. split; assumption. }
  destruct (chain_new_ok (F64 L) conf d OK) as (c & E & L1 & L2 & L3 & ET & EV & EF). exists c. split; [exact E|].
  split.
  { change (@vars (num (F64 L)) c = conf) in EV. constructor.
    - etransitivity; [exact (f_equal (@hsize f64) EV)|]. lia.
    - etransitivity; [exact (f_equal (@ssize f64) EV)|]. lia.
    - lia.
    - lia.
    - exact L1.
    - exact L2.
    - exact L3. }
  split; [exact EV|]. split.
  - unfold chain_new in E. cbv zeta in E.
    destruct (new_spins _ _ _ _ _ _ _ _) as [sp| |] eqn:ES; cbn [bind] in E; try discriminate.
    unfold normal_new in E. rewrite (proj2 Vj : nfinite (F64 L) (@jvar (num (F64 L)) conf) = true), (proj2 Vv : nfinite (F64 L) (@hvar (num (F64 L)) conf) = true) in E. cbn [bind] in E.
    destruct (mapM _ _) as [hh| |] eqn:EM in E; cbn [bind] in E; try discriminate. injection E as <-. split; cbn [j_couple static_h].
    + rewrite Forall_map. apply Forall_forall. intros x _. destruct (HD x) as (_ & ((A1 & A2 & A3) & (B1 & B2 & B3)) & _).
      assert (ONE : small 1 (f_ofZ 1)) by (destruct (ofZ_val 1 ltac:(lia)) as [V1 E1]; split; [exact V1|]; rewrite value_fval, E1, Rabs_R1; lra).
      assert (K : forall y z, small 1 y -> is_number z -> Rabs (value z) <= 32 -> small 2 (f_add y (f_add (f_ofZ 0) (f_mul (jvar conf) z)))).
      { intros y z Hy Hz Bz. apply (small_sum _ _ 1 (51 / 100)); [exact Hy|apply noise; auto|lra|lra]. }
      destruct (K _ _ ONE A1 B1) as [P1 Q1]. destruct (K _ _ ONE A2 B2) as [P2 Q2]. destruct (K _ _ Hl A3 B3) as [P3 Q3].
      split; [split; [exact P1|split; [exact P2|exact P3]]|split; [exact Q1|split; [exact Q2|exact Q3]]].
    + apply (mapM_all _ _ _ _) with (2 := EM). intros x b _ EB. destruct (HD x) as (_ & _ & ((A1 & A2 & A3) & (B1 & B2 & B3))).
      unfold new_field in EB.
      assert (K : forall y z, small (52 / 10) y -> is_number z -> Rabs (value z) <= 32 -> small 6 (f_add y (f_add (f_ofZ 0) (f_mul (hvar conf) z)))).
      { intros y z Hy Hz Bz. apply (small_sum _ _ (52 / 10) (51 / 100)); [exact Hy|apply noise; auto|lra|lra]. }
      assert (K2 : forall y z, small 3 y -> small 2 z -> small (52 / 10) (f_add y z)) by (intros y z Hy Hz; apply (small_sum _ _ 3 2); auto; lra).
      match type of EB with (if ?b then _ else _) = _ => destruct b end.
      * repeat match type of EB with bind (idx ?l ?i) _ = _ => let Q := fresh "Q" in destruct (idx l i) eqn:Q; cbn [bind] in EB; try discriminate;
          first [apply (nth_small _ _ _ _ Ff) in Q|apply (nth_small _ _ _ _ Fs) in Q] end.
        injection EB as <-.
        destruct (K _ _ (K2 _ _ Q Q0) A1 B1) as [P1 R1]. destruct (K _ _ (K2 _ _ Q1 Q2) A2 B2) as [P2 R2]. destruct (K _ _ (K2 _ _ Q3 Q4) A3 B3) as [P3 R3].
        split; [split; [exact P1|split; [exact P2|exact P3]]|split; [exact R1|split; [exact R2|exact R3]]].
      * repeat match type of EB with bind (idx ?l ?i) _ = _ => let Q := fresh "Q" in destruct (idx l i) eqn:Q; cbn [bind] in EB; try discriminate;
          apply (nth_small _ _ _ _ Ff) in Q end.
        injection EB as <-.
        destruct (K _ _ (small_le _ (52 / 10) _ Q ltac:(lra)) A1 B1) as [P1 R1]. destruct (K _ _ (small_le _ (52 / 10) _ Q0 ltac:(lra)) A2 B2) as [P2 R2]. destruct (K _ _ (small_le _ (52 / 10) _ Q1 ltac:(lra)) A3 B3) as [P3 R3].
        split; [split; [exact P1|split; [exact P2|exact P3]]|split; [exact R1|split; [exact R2|exact R3]]].
  - change (@vars f64 c = conf) in EV. unfold mild_drive. rewrite EV.
    assert (TT : is_number (t c) /\ Rabs (value (t c)) <= powerRZ 2 100).
    { destruct Hr as [Vr Br]. rewrite value_fval in Br. destruct (opp_val _ Vr) as [Vo Eo].
      assert (X : t c = SFopp (trel conf)) by exact ET. rewrite X, value_fval, Eo, Rabs_Ropp. split; [exact Vo|exact Br]. }
    destruct (drive conf); auto.
Qed.
Lemma whole_run l k : proper L -> Forall (fun kd => uniform_draw L (snd kd)) l ->
  exists c c1 c2, chain_new (F64 L) conf d = Ok c /\ unit_or_lost c /\
    samples (F64 L) l c = Ok c1 /\ Forall (made (powerRZ 2 (-44))) (spins c1) /\ (none_lost c -> none_lost c1) /\
    iterM (update (F64 L)) k c1 = Ok c2 /\ Forall (made (powerRZ 2 (-44))) (spins c2) /\ ((1 <= k)%nat -> on_ring c2 (made (powerRZ 2 (-50)))).
Proof.
  intros HL HU. destruct new_mild as (c & E & W & EV & MS & MD). change (@vars f64 c = conf) in EV. set (n := Z.to_nat (hsize conf)) in *. set (s := Z.to_nat (ssize conf)) in *.
  assert (Hn : (2 <= n)%nat) by (unfold n; destruct HC; lia).
  assert (UL := new_made L conf d c HL E).
  assert (E45 : powerRZ 2 (-50) <= powerRZ 2 (-44)) by (rewrite !pow_bpow; apply bpow_le; lia).
  assert (E48 : powerRZ 2 (-44) <= 1 / 8) by (rewrite p44, u_val; lra).
  assert (M44 : Forall (made (powerRZ 2 (-44))) (spins c)).
  { eapply Forall_impl; [|exact UL]. intros v [H|H]; [left; exact (near_weak _ _ _ H E45)|right; exact H]. }
  destruct (samples_made L l n s (powerRZ 2 (-44)) HL Hn ltac:(lra) c W HU M44) as (sp & E1 & L1 & M1 & _ & N1).
  assert (W1 : wf n s (set_spins c sp)) by (destruct W; constructor; cbn; auto).
  assert (Hdt : plain_dt (c_dt (vars (set_spins c sp)))) by (change (plain_dt (c_dt (@vars f64 c))); rewrite EV; destruct HC as (_ & _ & _ & _ & _ & _ & _ & _ & _ & Q & _); exact Q).
  destruct (updates_rough L (proj1 HL) n s (set_spins c sp) W1 Hn MS MD Hdt (powerRZ 2 (-44)) sp (conj E45 E48) L1 (proj1 (forall_at L n sp _ L1) M1) k)
    as (sp2 & E2 & L2 & G2 & R2).
  exists c, (set_spins c sp), (at_step (set_spins c sp) k sp2). split; [exact E|]. split; [exact UL|]. split; [exact E1|]. split; [exact M1|]. split; [exact N1|].
  split; [refine (eq_trans (f_equal (iterM (update (F64 L)) k) _) E2); symmetry; exact (at_step0 (set_spins c sp))|]. split.
  - apply (forall_at L n sp2 _ L2). intros p Hp. apply (G2 p Hp).
  - intros H1 i Hi. cbn [spins at_step] in Hi. rewrite L2 in Hi. rewrite (fspin_at L n) by (auto; pose proof (Nat.div_mod n 2 ltac:(lia)); lia). apply R2; auto.
Qed.
Lemma cold_run l k : proper L -> Forall (fun kd => uniform_draw L (snd kd)) l ->
  no_temperature L (beta conf) ->
  exists c c2, chain_new (F64 L) conf d = Ok c /\ Forall lost (spins c) /\ samples (F64 L) l c = Ok c /\ iterM (update (F64 L)) k c = Ok c2 /\ Forall lost (spins c2).
Proof.
  intros HL HU HX. destruct new_mild as (c & E & W & EV & MS & MD). change (@vars f64 c = conf) in EV. set (n := Z.to_nat (hsize conf)) in *. set (s := Z.to_nat (ssize conf)) in *.
  assert (Hn : (2 <= n)%nat) by (unfold n; destruct HC; lia). assert (LS : length (spins c) = n) by apply (wf_spins _ _ _ W).
  assert (AL : Forall lost (spins c)).
  { apply (cold_new L conf d c HL HX); [|exact E]. intro j. apply (HD j). }
  assert (M8 : Forall (made (1 / 8)) (spins c)) by (eapply Forall_impl; [|exact AL]; intros v H; right; exact H).
  assert (E58 : powerRZ 2 (-50) <= 1 / 8 <= 1 / 8) by (split; [exact eps_small|lra]).
  assert (ES : samples (F64 L) l c = Ok c).
  { destruct (samples_made L l n s (1 / 8) HL Hn ltac:(rewrite p44, u_val; lra) c W HU M8) as (sp & E1 & L1 & _ & K1 & _). rewrite E1. f_equal.
    assert (sp = spins c) as ->; [|destruct c; reflexivity].
    apply (nth_ext _ _ (mk3 S754_nan S754_nan S754_nan) (mk3 S754_nan S754_nan S754_nan)); [exact (eq_trans L1 (eq_sym LS))|]. intros i Hi. apply K1.
    rewrite Forall_nth in AL. apply AL. exact (Nat.lt_le_trans _ _ _ Hi (Nat.eq_le_incl _ _ (eq_trans L1 (eq_sym LS)))). }
  assert (Hdt : plain_dt (c_dt (vars c))) by (change (plain_dt (c_dt (@vars f64 c))); rewrite EV; destruct HC as (_ & _ & _ & _ & _ & _ & _ & _ & _ & Q & _); exact Q).
  destruct (updates_rough L (proj1 HL) n s c W Hn MS MD Hdt (1 / 8) (spins c) E58 LS (proj1 (forall_at L n (spins c) _ LS) M8) k)
    as (sp2 & E2 & L2 & G2 & R2). rewrite at_step0 in E2.
  exists c, (at_step c k sp2). split; [exact E|]. split; [exact AL|]. split; [exact ES|]. split; [exact E2|].
  apply (forall_at L n sp2 _ L2). intros p Hp. apply (G2 p Hp). apply (proj1 (forall_at L n (spins c) _ LS) AL p Hp).
Qed.
End New.
