(** Averages of files with words in them. *)
From Coq Require Import String Bool List Arith Lia.
From Verif Require Import Num Monad Config Files Average SpecWords.
Import ListNotations.
Local Open Scope nat_scope.

Section W.
Context (N : NumOps).
Notation T := (num N).
Lemma parse_filter (l : line T) : parse_line N l = parse_line N (filter a_number l).
Proof. induction l as [|[x|w] l IH]; [reflexivity| |exact IH]. cbn. f_equal. exact IH. Qed.
Lemma parse_same (l l' : line T) : same_numbers l l' -> parse_line N l = parse_line N l'.
Proof. intros H. rewrite parse_filter, H, <- parse_filter. reflexivity. Qed.
Lemma rows_same (f f' : list (line T)) : Forall2 same_numbers f f' -> map (parse_line N) (skipn 1 f) = map (parse_line N) (skipn 1 f').
Proof.
  intros H. destruct H as [|l l' f f' _ H]; [reflexivity|]. cbn [skipn]. induction H as [|k k' f f' Hk H IH]; [reflexivity|]. cbn [map]. rewrite (parse_same _ _ Hk), IH. reflexivity.
Qed.
Lemma fold_same {S} (g : list (line T) -> S -> res S) fs fs' : (forall f f' s, Forall2 same_numbers f f' -> g f s = g f' s) ->
  Forall2 (Forall2 same_numbers) fs fs' -> forall s, foldM g fs s = foldM g fs' s.
Proof. intros Hg H. induction H as [|f f' fs fs' Hf H IH]; intros s; [reflexivity|]. cbn [foldM]. rewrite (Hg _ _ s Hf). destruct (g f' s); cbn [bind]; auto. Qed.
Lemma average_words conf fs fs' : Forall2 (Forall2 same_numbers) fs fs' -> average N conf fs = average N conf fs'.
Proof.
  intros H. unfold average. rewrite (fold_same (avg_file N) fs fs'); [reflexivity| |exact H]. intros f f' s Hf. unfold avg_file. rewrite (rows_same _ _ Hf). reflexivity.
Qed.
Lemma two_words fs fs' : Forall2 (Forall2 same_numbers) fs fs' -> two_point_average N fs = two_point_average N fs'.
Proof.
  intros H. unfold two_point_average. rewrite (fold_same (two_point_file N) fs fs'); [reflexivity| |exact H]. intros f f' s Hf. unfold two_point_file. cbv zeta. rewrite (rows_same _ _ Hf). reflexivity.
Qed.
Lemma words_case (x y : T) : Forall2 (Forall2 same_numbers) [[[Tword "#t"%string]; [Tword "t"%string; Tnum x; Tword ""%string; Tnum y]]] [[[]; [Tnum x; Tnum y]]].
Proof. repeat constructor. Qed.
End W.
