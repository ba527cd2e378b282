(** Vocabulary for config.toml (C53-C55): the keys, the values they take, the documented defaults. *)
From Coq Require Import String ZArith List.
From Verif Require Import Num Config Files.
Import ListNotations.
Local Open Scope string_scope.

Inductive kind : Set := Ki32 | Ku32 | Kusize | Kreal | Kreals | Kbool | Kstring | Kdrive.
(** The keys of /repo/src/config.rs:22-65 and the README, with their kinds *)
Definition keys : list (string * kind) :=
  [("hsize", Ki32); ("ssize", Ki32); ("t", Kreal); ("dt", Kreal); ("runs", Ki32); ("trel", Kreal);
   ("threads", Kusize); ("tau", Kreal); ("lambda", Kreal); ("hfield", Kreals); ("hs", Kreals);
   ("jvar", Kreal); ("hvar", Kreal); ("method", Ki32); ("ednsty", Kreal); ("file", Kstring);
   ("strob", Kbool); ("offset", Ku32); ("beta", Kreal); ("mc_points", Kusize); ("e", Kreal);
   ("drive", Kdrive); ("log", Kbool)].

(** Values allowed for a kind; TOML integers do not exceed 2^63 - 1; integers may stand for reals *)
Definition allowed {T} (k : kind) (v : tval T) : Prop :=
  match k, v with
  | Ki32, Vint z => (- 2 ^ 31 <= z < 2 ^ 31)%Z
  | Ku32, Vint z => (0 <= z < 2 ^ 32)%Z
  | Kusize, Vint z => (0 <= z < 2 ^ 63)%Z
  | Kreal, Vint _ => True
  | Kreal, Vfloat _ => True
  | Kreals, Varr l => Forall (fun v => match v with Vint _ | Vfloat _ => True | _ => False end) l
  | Kbool, Vbool _ => True
  | Kstring, Vstr _ => True
  | Kdrive, Vstr s => In s ["xyplane"; "xyelliptic"; "uniaxial"; "staticfield"; "none"]
  | _, _ => False
  end.

(** The configuration that a list of lines denotes: [denotes l c] says for each key that the field
    has the value given, or its default (config.rs:67-95) if the key is missing. *)
Inductive real_is (N : NumOps) : tval (num N) -> num N -> Prop :=
| real_float x : real_is N (Vfloat x) x
| real_int z : real_is N (Vint z) (nofZ N z).
Inductive drive_is : string -> drive_type -> Prop :=
| is_xyplane : drive_is "xyplane" Dxyplane
| is_xyelliptic : drive_is "xyelliptic" Dxyelliptic
| is_uniaxial : drive_is "uniaxial" Duniaxial
| is_staticfield : drive_is "staticfield" Dstaticfield
| is_none : drive_is "none" Dnone.

Section Denotes.
Context (N : NumOps) (l : list (string * tval (num N))).
Definition given {A} (k : string) (is_ : tval (num N) -> A -> Prop) (x dflt : A) : Prop :=
  (exists v, In (k, v) l /\ is_ v x) \/ (~ In k (map fst l) /\ x = dflt).
Definition int_is (v : tval (num N)) (z : Z) : Prop := v = Vint z.
Definition reals_are (v : tval (num N)) (xs : list (num N)) : Prop := exists vs, v = Varr vs /\ Forall2 (real_is N) vs xs.
Definition bool_is (v : tval (num N)) (b : bool) : Prop := v = Vbool b.
Definition string_is (v : tval (num N)) (s : string) : Prop := v = Vstr s.
Definition drive_v (v : tval (num N)) (d : drive_type) : Prop := exists s, v = Vstr s /\ drive_is s d.

Definition denotes (c : config (num N)) : Prop :=
  given "hsize" int_is (hsize c) 512%Z /\ given "ssize" int_is (ssize c) 8%Z /\
  given "t" (real_is N) (c_t c) (nofZ N 256) /\ given "dt" (real_is N) (c_dt c) (nlit N 2 2) /\
  given "runs" int_is (runs c) 2%Z /\ given "trel" (real_is N) (trel c) (nofZ N 0) /\
  given "threads" int_is (threads c) 2%Z /\ given "tau" (real_is N) (tau c) (nofZ N 10) /\
  given "lambda" (real_is N) (lambda c) (nofZ N 1) /\
  given "hfield" reals_are (hfield c) [nofZ N 0; nofZ N 0; nofZ N 0] /\
  given "hs" reals_are (hs c) [nofZ N 0; nofZ N 0; nofZ N 0] /\
  given "jvar" (real_is N) (jvar c) (nlit N 1 3) /\ given "hvar" (real_is N) (hvar c) (nofZ N 0) /\
  given "method" int_is (method c) 2%Z /\ given "ednsty" (real_is N) (ednsty c) (nopp N (nlit N 66 2)) /\
  given "file" string_is (c_file c) "log" /\ given "strob" bool_is (strob c) false /\
  given "offset" int_is (offset c) 0%Z /\ given "beta" (real_is N) (beta c) (nlit N 288 2) /\
  given "mc_points" int_is (mc_points c) 1000%Z /\ given "e" (real_is N) (c_e c) (nlit N 9 1) /\
  given "drive" drive_v (drive c) Dxyplane /\ given "log" bool_is (c_log c) true.
End Denotes.

(** The integer fields are in the ranges of their Rust types, and the two usize ones below 2^63 *)
Definition in_range {T} (c : config T) : Prop :=
  (- 2 ^ 31 <= hsize c < 2 ^ 31)%Z /\ (- 2 ^ 31 <= ssize c < 2 ^ 31)%Z /\ (- 2 ^ 31 <= runs c < 2 ^ 31)%Z /\
  (- 2 ^ 31 <= method c < 2 ^ 31)%Z /\ (0 <= offset c < 2 ^ 32)%Z /\
  (0 <= threads c < 2 ^ 63)%Z /\ (0 <= mc_points c < 2 ^ 63)%Z.
