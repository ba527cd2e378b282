(** C47, C48: words in the files averaged. *)
From Coq Require Import String Bool List Arith.
From Verif Require Import Num Monad Config Files Average SpecWords ProofsWords.
Import ListNotations.

(** * C47 *)
(** What is not a number does not count: files that differ in words only have the same averages *)
Theorem C47_words : forall N conf fs fs', Forall2 (Forall2 same_numbers) fs fs' -> average N conf fs = average N conf fs'.
Proof. exact average_words. Qed.
Print Assumptions C47_words.
(** a line with words and empty fields among its numbers, and the same line without *)
Example C47_words_case : forall N (x y : num N),
  Forall2 (Forall2 same_numbers) [[[Tword "#t"%string]; [Tword "t"%string; Tnum x; Tword ""%string; Tnum y]]] [[[]; [Tnum x; Tnum y]]].
Proof. exact words_case. Qed.

(** * C48 *)
Theorem C48_words : forall N fs fs', Forall2 (Forall2 same_numbers) fs fs' -> two_point_average N fs = two_point_average N fs'.
Proof. exact two_words. Qed.
Print Assumptions C48_words.
Example C48_words_case : forall N (x y : num N),
  Forall2 (Forall2 same_numbers) [[[Tword "#t"%string]; [Tword "t"%string; Tnum x; Tword ""%string; Tnum y]]] [[[]; [Tnum x; Tnum y]]].
Proof. exact words_case. Qed.
