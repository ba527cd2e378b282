(** config.toml: transcription of the serde derives on /repo/src/config.rs:19-65 and of
    `read_config`, spinchain.rs:82-104 (= spinchain_langevin.rs:73-95).

    toml 0.8 / serde 1.0 behaviour at the level of key/value lines: `to_string` writes the fields
    in declaration order; `from_str` rejects duplicate keys, ignores unknown keys, takes missing
    ones from `Config::default()` (`#[serde(default)]` on the struct), accepts integers for f64
    fields, and rejects values of another kind or out of range. *)
From Coq Require Import ZArith List String Bool Arith.
From Verif Require Import Num Monad Config Files.
Import ListNotations.
Local Open Scope string_scope.

(** Names of the drives, config.rs:7-17 *)
Definition drive_name (d : drive_type) : string :=
  match d with
  | Dxyplane => "xyplane" | Dxyelliptic => "xyelliptic" | Duniaxial => "uniaxial"
  | Dstaticfield => "staticfield" | Dnone => "none"
  end.
Definition drive_of (s : string) : option drive_type :=
  if s =? "xyplane" then Some Dxyplane else if s =? "xyelliptic" then Some Dxyelliptic
  else if s =? "uniaxial" then Some Duniaxial else if s =? "staticfield" then Some Dstaticfield
  else if s =? "none" then Some Dnone else None.

Section Toml.
Context (N : NumOps).
Notation T := (num N).

(** `toml::to_string(&conf)`, one entry per line; integers above i64::MAX are refused (unwrap) *)
Definition to_toml (c : config T) : res (list (string * tval T)) :=
  if (2 ^ 63 <=? threads c)%Z || (2 ^ 63 <=? mc_points c)%Z then Panic Unwrap else
  Ok [("hsize", Vint (hsize c)); ("ssize", Vint (ssize c)); ("t", Vfloat (c_t c)); ("dt", Vfloat (c_dt c));
      ("runs", Vint (runs c)); ("trel", Vfloat (trel c)); ("threads", Vint (threads c)); ("tau", Vfloat (tau c));
      ("lambda", Vfloat (lambda c)); ("hfield", Varr (map Vfloat (hfield c))); ("hs", Varr (map Vfloat (hs c)));
      ("jvar", Vfloat (jvar c)); ("hvar", Vfloat (hvar c)); ("method", Vint (method c)); ("ednsty", Vfloat (ednsty c));
      ("file", Vstr (c_file c)); ("strob", Vbool (strob c)); ("offset", Vint (offset c)); ("beta", Vfloat (beta c));
      ("mc_points", Vint (mc_points c)); ("e", Vfloat (c_e c)); ("drive", Vstr (drive_name (drive c))); ("log", Vbool (c_log c))].

(** Deserialisation of single values; [None] is an error *)
Definition de_int (lo hi : Z) (v : tval T) : option Z :=
  match v with Vint z => if (lo <=? z)%Z && (z <=? hi)%Z then Some z else None | _ => None end.
Definition de_i32 : tval T -> option Z := de_int (- 2 ^ 31) (2 ^ 31 - 1).
Definition de_u32 : tval T -> option Z := de_int 0 (2 ^ 32 - 1).
(** TOML integers are i64 *)
Definition de_usize : tval T -> option Z := de_int 0 (2 ^ 63 - 1).
Definition de_f64 (v : tval T) : option T :=
  match v with Vfloat x => Some x | Vint z => Some (nofZ N z) | _ => None end.
Fixpoint de_seq (l : list (tval T)) : option (list T) :=
  match l with
  | [] => Some []
  | v :: r => match de_f64 v, de_seq r with Some x, Some xs => Some (x :: xs) | _, _ => None end
  end.
Definition de_vec (v : tval T) : option (list T) := match v with Varr l => de_seq l | _ => None end.
Definition de_bool (v : tval T) : option bool := match v with Vbool b => Some b | _ => None end.
Definition de_str (v : tval T) : option string := match v with Vstr s => Some s | _ => None end.
Definition de_drive (v : tval T) : option drive_type := match v with Vstr s => drive_of s | _ => None end.

(** One field: the value under the key if present, otherwise the default *)
Definition field {A} (l : list (string * tval T)) (k : string) (de : tval T -> option A) (dflt : A) : option A :=
  match lookup k l with Some v => de v | None => Some dflt end.

Fixpoint distinct (l : list string) : bool :=
  match l with [] => true | k :: r => negb (existsb (String.eqb k) r) && distinct r end.

Notation "'some' x ':=' e 'in' k" := (match e with Some x => k | None => None end)
  (at level 200, x name, e at level 100, k at level 200, right associativity).

(** `toml::from_str` *)
Definition from_toml (l : list (string * tval T)) : option (config T) :=
  let d := config_default N in
  if negb (distinct (map fst l)) then None else
  some a1 := field l "hsize" de_i32 (hsize d) in
  some a2 := field l "ssize" de_i32 (ssize d) in
  some a3 := field l "t" de_f64 (c_t d) in
  some a4 := field l "dt" de_f64 (c_dt d) in
  some a5 := field l "runs" de_i32 (runs d) in
  some a6 := field l "trel" de_f64 (trel d) in
  some a7 := field l "threads" de_usize (threads d) in
  some a8 := field l "tau" de_f64 (tau d) in
  some a9 := field l "lambda" de_f64 (lambda d) in
  some a10 := field l "hfield" de_vec (hfield d) in
  some a11 := field l "hs" de_vec (hs d) in
  some a12 := field l "jvar" de_f64 (jvar d) in
  some a13 := field l "hvar" de_f64 (hvar d) in
  some a14 := field l "method" de_i32 (method d) in
  some a15 := field l "ednsty" de_f64 (ednsty d) in
  some a16 := field l "file" de_str (c_file d) in
  some a17 := field l "strob" de_bool (strob d) in
  some a18 := field l "offset" de_u32 (offset d) in
  some a19 := field l "beta" de_f64 (beta d) in
  some a20 := field l "mc_points" de_usize (mc_points d) in
  some a21 := field l "e" de_f64 (c_e d) in
  some a22 := field l "drive" de_drive (drive d) in
  some a23 := field l "log" de_bool (c_log d) in
  Some (mkConfig a1 a2 a3 a4 a5 a6 a7 a8 a9 a10 a11 a12 a13 a14 a15 a16 a17 a18 a19 a20 a21 a22 a23).

(** `fs::write("config.toml", toml::to_string(&conf).unwrap()).unwrap()`, e.g. obs.rs:1074 *)
Definition save_config (c : config T) (d : fs T) : res (fs T) :=
  let* l := to_toml c in Ok (put_conf (Table l) d).

(** `SpinChain::read_config("config.toml")`, spinchain.rs:82-104 *)
Definition read_config (d : fs T) : res (config T * fs T) :=
  match f_conf d with
  | Table l => match from_toml l with Some c => Ok (c, d) | None => Panic Explicit end
  | Garbage => Panic Explicit
  | Missing => let* d := save_config (config_default N) d in Ok (config_default N, d)
  end.
End Toml.
