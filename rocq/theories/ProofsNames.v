(** File names. *)
From Coq Require Import String Ascii ZArith List Lia Arith Bool Decimal DecimalString DecimalNat DecimalFacts.
From Verif Require Import Num Monad Config Files Runs.
Import ListNotations.
Local Open Scope string_scope.

Lemma append_cancel_l a : forall x y, a ++ x = a ++ y -> x = y.
Proof. induction a as [|c a IH]; intros x y H; [exact H|]. cbn in H. injection H as H. apply IH, H. Qed.
Lemma append_length a b : String.length (a ++ b) = (String.length a + String.length b)%nat.
Proof. induction a as [|c a IH]; [reflexivity|]. cbn. f_equal. exact IH. Qed.
Lemma append_cancel_r a : forall x y, x ++ a = y ++ a -> x = y.
Proof.
  induction x as [|c x IH]; intros [|d y] H; [reflexivity| | |].
  - apply (f_equal String.length) in H. cbn [String.append String.length] in H. rewrite append_length in H. lia.
  - apply (f_equal String.length) in H. cbn [String.append String.length] in H. rewrite append_length in H. lia.
  - cbn in H. injection H as -> H. f_equal. apply IH, H.
Qed.
Lemma append_assoc a b c : (a ++ b) ++ c = a ++ (b ++ c).
Proof. induction a as [|x a IH]; [reflexivity|]. cbn. f_equal. exact IH. Qed.

Lemma to_uint_not_nil n : Nat.to_uint n <> Nil.
Proof.
  intros H. assert (E : unorm (Nat.to_uint n) = Nat.to_uint n).
  { rewrite <- (DecimalNat.Unsigned.to_of (Nat.to_uint n)). rewrite DecimalNat.Unsigned.of_to. reflexivity. }
  rewrite H in E. discriminate.
Qed.
Lemma dec_inj n m : dec n = dec m -> n = m.
Proof.
  unfold dec. intros H. apply DecimalNat.Unsigned.to_uint_inj.
  pose proof (NilZero.usu (Nat.to_uint n) (to_uint_not_nil n)) as A.
  pose proof (NilZero.usu (Nat.to_uint m) (to_uint_not_nil m)) as B. rewrite H in A. congruence.
Qed.
Lemma log_name_inj file n m : log_name file n = log_name file m -> n = m.
Proof. unfold log_name. intros H. apply append_cancel_l, append_cancel_r in H. apply dec_inj, H. Qed.

(** The last character before ".dat" is a digit *)
Fixpoint last_char (s : string) : option ascii :=
  match s with EmptyString => None | String c s => match last_char s with Some d => Some d | None => Some c end end.
Lemma last_char_app a b : last_char (a ++ b) = match last_char b with Some d => Some d | None => last_char a end.
Proof.
  induction a as [|c a IH]; cbn; [destruct (last_char b); reflexivity|]. rewrite IH.
  destruct (last_char b); reflexivity.
Qed.
Definition digit (c : ascii) : bool := existsb (Ascii.eqb c) ["0"; "1"; "2"; "3"; "4"; "5"; "6"; "7"; "8"; "9"]%char.
Lemma last_uint d : match last_char (NilEmpty.string_of_uint d) with Some c => digit c = true | None => d = Nil end.
Proof.
  induction d as [|d IH|d IH|d IH|d IH|d IH|d IH|d IH|d IH|d IH|d IH]; cbn [NilEmpty.string_of_uint last_char]; [reflexivity|..];
    destruct (last_char (NilEmpty.string_of_uint d)); solve [exact IH|reflexivity].
Qed.
Lemma last_dec n : exists c, last_char (dec n) = Some c /\ digit c = true.
Proof.
  unfold dec. pose proof (last_uint (Nat.to_uint n)) as H. pose proof (to_uint_not_nil n) as H1.
  destruct (Nat.to_uint n) eqn:E; [contradiction|..]; cbn [NilZero.string_of_uint]; 
  match goal with |- context [last_char ?x] => change x with (NilEmpty.string_of_uint (Nat.to_uint n)) || (rewrite <- E in H; idtac) end.
  all: unfold NilZero.string_of_uint in *; rewrite ?E in *; destruct (last_char _); [eauto|congruence].
Qed.
Lemma log_name_not file n s c : last_char s = Some c -> digit c = false -> log_name file n <> s ++ ".dat".
Proof.
  intros H1 H2 H. unfold log_name in H. rewrite <- append_assoc in H. apply append_cancel_r in H.
  apply (f_equal last_char) in H. rewrite last_char_app, H1 in H. destruct (last_dec n) as (d & E & D). rewrite E in H. congruence.
Qed.
Lemma log_not_profile file n z : log_name file n <> profile_name z.
Proof.
  unfold profile_name. rewrite <- (append_assoc "dyn_profile-"). change "-tau.dat" with ("-tau" ++ ".dat"). rewrite <- append_assoc.
  apply (log_name_not file n _ "u"%char); [|reflexivity]. rewrite last_char_app. reflexivity.
Qed.
