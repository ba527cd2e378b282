(** Transcription of /repo/src/config.rs (data only; reading and writing of
    config.toml is in Toml.v). *)
From Coq Require Import ZArith List String.
From Verif Require Import Num.
Import ListNotations.

(** config.rs:3-17 *)
Inductive drive_type : Type := Dxyplane | Dxyelliptic | Duniaxial | Dstaticfield | Dnone.

(** config.rs:19-65.  [i32], [u32] and [usize] fields are integers; the ranges
    are enforced where values enter (Toml.v) and where arithmetic is done. *)
Record config (T : Type) : Type := mkConfig {
  hsize : Z; ssize : Z; c_t : T; c_dt : T; runs : Z; trel : T; threads : Z;
  tau : T; lambda : T; hfield : list T; hs : list T; jvar : T; hvar : T;
  method : Z; ednsty : T; c_file : string; strob : bool; offset : Z; beta : T;
  mc_points : Z; c_e : T; drive : drive_type; c_log : bool
}.
Arguments mkConfig {T}.
Arguments hsize {T}. Arguments ssize {T}. Arguments c_t {T}. Arguments c_dt {T}.
Arguments runs {T}. Arguments trel {T}. Arguments threads {T}. Arguments tau {T}.
Arguments lambda {T}. Arguments hfield {T}. Arguments hs {T}. Arguments jvar {T}.
Arguments hvar {T}. Arguments method {T}. Arguments ednsty {T}. Arguments c_file {T}.
Arguments strob {T}. Arguments offset {T}. Arguments beta {T}. Arguments mc_points {T}.
Arguments c_e {T}. Arguments drive {T}. Arguments c_log {T}.

(** Functional field updates used by obs.rs and main.rs. *)
Definition set_hsize {T} (c : config T) (v : Z) : config T :=
  mkConfig v (ssize c) (c_t c) (c_dt c) (runs c) (trel c) (threads c) (tau c) (lambda c)
    (hfield c) (hs c) (jvar c) (hvar c) (method c) (ednsty c) (c_file c) (strob c) (offset c)
    (beta c) (mc_points c) (c_e c) (drive c) (c_log c).
Definition set_ssize {T} (c : config T) (v : Z) : config T :=
  mkConfig (hsize c) v (c_t c) (c_dt c) (runs c) (trel c) (threads c) (tau c) (lambda c)
    (hfield c) (hs c) (jvar c) (hvar c) (method c) (ednsty c) (c_file c) (strob c) (offset c)
    (beta c) (mc_points c) (c_e c) (drive c) (c_log c).
Definition set_ct {T} (c : config T) (v : T) : config T :=
  mkConfig (hsize c) (ssize c) v (c_dt c) (runs c) (trel c) (threads c) (tau c) (lambda c)
    (hfield c) (hs c) (jvar c) (hvar c) (method c) (ednsty c) (c_file c) (strob c) (offset c)
    (beta c) (mc_points c) (c_e c) (drive c) (c_log c).
Definition set_dt {T} (c : config T) (v : T) : config T :=
  mkConfig (hsize c) (ssize c) (c_t c) v (runs c) (trel c) (threads c) (tau c) (lambda c)
    (hfield c) (hs c) (jvar c) (hvar c) (method c) (ednsty c) (c_file c) (strob c) (offset c)
    (beta c) (mc_points c) (c_e c) (drive c) (c_log c).
Definition set_tau {T} (c : config T) (v : T) : config T :=
  mkConfig (hsize c) (ssize c) (c_t c) (c_dt c) (runs c) (trel c) (threads c) v (lambda c)
    (hfield c) (hs c) (jvar c) (hvar c) (method c) (ednsty c) (c_file c) (strob c) (offset c)
    (beta c) (mc_points c) (c_e c) (drive c) (c_log c).
Definition set_beta {T} (c : config T) (v : T) : config T :=
  mkConfig (hsize c) (ssize c) (c_t c) (c_dt c) (runs c) (trel c) (threads c) (tau c) (lambda c)
    (hfield c) (hs c) (jvar c) (hvar c) (method c) (ednsty c) (c_file c) (strob c) (offset c)
    v (mc_points c) (c_e c) (drive c) (c_log c).
Definition set_offset {T} (c : config T) (v : Z) : config T :=
  mkConfig (hsize c) (ssize c) (c_t c) (c_dt c) (runs c) (trel c) (threads c) (tau c) (lambda c)
    (hfield c) (hs c) (jvar c) (hvar c) (method c) (ednsty c) (c_file c) (strob c) v
    (beta c) (mc_points c) (c_e c) (drive c) (c_log c).
Definition set_drive {T} (c : config T) (v : drive_type) : config T :=
  mkConfig (hsize c) (ssize c) (c_t c) (c_dt c) (runs c) (trel c) (threads c) (tau c) (lambda c)
    (hfield c) (hs c) (jvar c) (hvar c) (method c) (ednsty c) (c_file c) (strob c) (offset c)
    (beta c) (mc_points c) (c_e c) v (c_log c).
Definition set_log {T} (c : config T) (v : bool) : config T :=
  mkConfig (hsize c) (ssize c) (c_t c) (c_dt c) (runs c) (trel c) (threads c) (tau c) (lambda c)
    (hfield c) (hs c) (jvar c) (hvar c) (method c) (ednsty c) (c_file c) (strob c) (offset c)
    (beta c) (mc_points c) (c_e c) (drive c) v.

(** Change of number type (used to state theorems). *)
Definition config_map {A B} (f : A -> B) (c : config A) : config B :=
  mkConfig (hsize c) (ssize c) (f (c_t c)) (f (c_dt c)) (runs c) (f (trel c)) (threads c)
    (f (tau c)) (f (lambda c)) (map f (hfield c)) (map f (hs c)) (f (jvar c)) (f (hvar c))
    (method c) (f (ednsty c)) (c_file c) (strob c) (offset c) (f (beta c)) (mc_points c)
    (f (c_e c)) (drive c) (c_log c).

(** impl Default for Config, config.rs:67-95 *)
Definition config_default (N : NumOps) : config (num N) :=
  mkConfig 512 8 (nofZ N 256) (nlit N 2 2) 2 (nofZ N 0) 2 (nofZ N 10) (nofZ N 1)
    [nofZ N 0; nofZ N 0; nofZ N 0] [nofZ N 0; nofZ N 0; nofZ N 0]
    (nlit N 1 3) (nofZ N 0) 2 (nopp N (nlit N 66 2)) "log"%string false 0
    (nlit N 288 2) 1000 (nlit N 9 1) Dxyplane true.
