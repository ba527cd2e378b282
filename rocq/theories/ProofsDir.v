(** Directory operations. *)
From Coq Require Import String Reals ZArith List Lra Lia Permutation Bool.
From Verif Require Import Num Monad NumR Config Files Toml Average Main Samples SpecWriters SpecAverage ProofsAverage ProofsTotal.
Import ListNotations.

Section Dir.
Context {T : Type}.
Implicit Types (f : fs T).

Lemma lookup_filter_other {A} n m (l : list (string * A)) : n <> m ->
  lookup n (filter (fun p => negb (String.eqb m (fst p))) l) = lookup n l.
Proof.
  intros H. induction l as [|[k a] l IH]; [reflexivity|]. cbn [filter fst]. destruct (String.eqb_spec m k) as [<-|E]; cbn [negb lookup].
  - rewrite IH. destruct (String.eqb_spec n m); [contradiction|reflexivity].
  - rewrite IH. reflexivity.
Qed.
Lemma lookup_put {A} n m (a : A) l : lookup n (put m a l) = if String.eqb n m then Some a else lookup n l.
Proof.
  unfold put. cbn [lookup]. destruct (String.eqb_spec n m) as [E|E]; [reflexivity|]. apply lookup_filter_other, E.
Qed.
Lemma contents_create n m f : contents (create m f) n = if String.eqb n m then Some [] else contents f n.
Proof. apply lookup_put. Qed.
Lemma contents_append n m ls f : contents (append m ls f) n
  = if String.eqb n m then Some (match contents f m with Some l => l ++ ls | None => ls end) else contents f n.
Proof. apply lookup_put. Qed.
Lemma contents_conf n c f : contents (put_conf c f) n = contents f n.
Proof. reflexivity. Qed.
End Dir.

Lemma filter_perm {A} (p : A -> bool) l l' : Permutation l l' -> Permutation (filter p l) (filter p l').
Proof.
  induction 1 as [|x l l' H IH|x y l|l l' l'' H1 IH1 H2 IH2]; cbn.
  - constructor.
  - destruct (p x); [constructor|]; exact IH.
  - destruct (p x), (p y); try reflexivity. apply perm_swap.
  - etransitivity; eassumption.
Qed.
Lemma glob_perm (n : string) (f f' : fs ER) : Permutation (f_dat f) (f_dat f') -> Permutation (glob n f) (glob n f').
Proof. apply filter_perm. Qed.

Lemma run_average_order : forall conf (f f' : fs ER),
  Permutation (f_dat f) (f_dat f') ->
  match run_average ERNum conf f, run_average ERNum conf f' with
  | Ok (_, g), Ok (_, g') => contents g "avg.dat" = contents g' "avg.dat" /\
      (forall n, n <> "avg.dat"%string -> contents g n = contents f n /\ contents g' n = contents f' n)
  | Panic p, Panic p' => p = p'
  | OutOfFuel, OutOfFuel => True
  | _, _ => False
  end.
Proof.
  intros conf f f' H. unfold run_average.
  pose proof (average_order conf _ _ (Permutation_map snd (glob_perm (c_file conf) f f' H))) as E.
  change (@c_file (num ERNum) conf) with (@c_file ER conf). cbn [num ERNum] in *. rewrite E.
  clear E. match goal with |- context [bind ?x _] => destruct x as [ls| |] end; cbn [bind]; try exact I; try reflexivity.
  split.
  - rewrite !contents_append, !contents_create, String.eqb_refl. reflexivity.
  - intros n Hn. apply String.eqb_neq in Hn. rewrite !contents_append, !contents_create, Hn. split; reflexivity.
Qed.

Lemma two_point_nozero h rows r (files : list (list (line ER))) :
  In (as_file h rows) files ->
  Forall (fun r => r <> []) rows -> ~ Exists is_zero_row rows -> In r rows -> (2 <= length r)%nat ->
  exists p, two_point_average ERNum files = Panic p.
Proof.
  intros Hin H1 H2 H3 H4. apply (two_point_panics files _ Hin). intros s. eexists. eapply two_point_file_nozero; eassumption.
Qed.
Lemma two_point_blank (h : line ER) before after (files : list (list (line ER))) :
  In (h :: before ++ [] :: after) files -> exists p, two_point_average ERNum files = Panic p.
Proof.
  intros Hin. apply (two_point_panics files _ Hin). intros s. eexists. apply two_point_file_blank.
  cbn [skipn]. rewrite map_app. apply in_or_app. right. left. reflexivity.
Qed.
Lemma ex_conf_fits : (24 * ntou64 ERNum (ndiv ERNum (c_t (config_map Some (ex_conf 4 2 Dnone))) (c_dt (config_map Some (ex_conf 4 2 Dnone)))) <= 2 ^ 63 - 1)%Z.
Proof.
  cbn [config_map ex_conf c_t c_dt]. cbn [ndiv ERNum]. unfold er_div. destruct (Req_EM_T (2 / 100) 0); [lra|]. cbn [ntou64 ERNum].
  replace (256 / (2 / 100))%R with (IZR 12800 / IZR 1)%R by lra.
  change (ntou64 ERNum (Some ?x)) with (Rto_u64 x). rewrite Rto_u64_div by lia. cbn. lia.
Qed.
