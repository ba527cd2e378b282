(** Specification vocabulary: lines with the same numbers (C47, C48). *)
From Coq Require Import Bool List.
From Verif Require Import Files.
Import ListNotations.

Definition a_number {T} (k : tok T) : bool := match k with Tnum _ => true | Tword _ => false end.
(** The lines differ in words only *)
Definition same_numbers {T} (l l' : line T) : Prop := filter a_number l = filter a_number l'.
