(** The working directory of the program: config.toml and the data files.

    Text is kept at the level of tokens.  A printed line is a list of tokens separated by blanks; a
    number printed with `{}` and parsed again with `parse::<f64>` is the same number (Rust prints the
    shortest decimal that reads back, so formatting and parsing are not modelled byte by byte).
    config.toml is missing, unparsable, or a table of key/value lines (Toml.v).  I/O errors other
    than a missing or unreadable config.toml do not occur in the model. *)
From Coq Require Import ZArith List String Decimal DecimalString Bool Arith.
From Verif Require Import Num Monad.
Import ListNotations.
Local Open Scope string_scope.

(** A token of a data file: a number, or a word that does not parse as f64 *)
Inductive tok (T : Type) : Type := Tnum (x : T) | Tword (s : string).
Arguments Tnum {T}. Arguments Tword {T}.
Definition line (T : Type) : Type := list (tok T).
Definition numbers {T} (l : list T) : line T := map Tnum l.

(** Values of a TOML file (datetimes and tables are [Vother]) *)
Inductive tval (T : Type) : Type :=
| Vint (z : Z) | Vfloat (x : T) | Vbool (b : bool) | Vstr (s : string) | Varr (l : list (tval T)) | Vother.
Arguments Vint {T}. Arguments Vfloat {T}. Arguments Vbool {T}. Arguments Vstr {T}. Arguments Varr {T}.
Arguments Vother {T}.

Inductive cfile (T : Type) : Type :=
| Missing                                  (* cannot be read *)
| Garbage                                  (* not TOML *)
| Table (l : list (string * tval T)).      (* the `key = value` lines, in order *)
Arguments Missing {T}. Arguments Garbage {T}. Arguments Table {T}.

Record fs (T : Type) : Type := mkFs { f_conf : cfile T; f_dat : list (string * list (line T)) }.
Arguments mkFs {T}. Arguments f_conf {T}. Arguments f_dat {T}.

Fixpoint lookup {A} (n : string) (l : list (string * A)) : option A :=
  match l with
  | [] => None
  | (m, a) :: r => if String.eqb n m then Some a else lookup n r
  end.
(** Contents of a data file; [None] if there is no such file *)
Definition contents {T} (d : fs T) (n : string) : option (list (line T)) := lookup n (f_dat d).

Definition put {A} (n : string) (a : A) (l : list (string * A)) : list (string * A) :=
  (n, a) :: filter (fun p => negb (String.eqb n (fst p))) l.

(** `File::create(n)`: the file is empty afterwards *)
Definition create {T} (n : string) (d : fs T) : fs T := mkFs (f_conf d) (put n [] (f_dat d)).
(** `OpenOptions::new().create(true).append(true).open(n)` followed by `writeln!` of the lines *)
Definition append {T} (n : string) (ls : list (line T)) (d : fs T) : fs T :=
  mkFs (f_conf d) (put n (match contents d n with Some l => l ++ ls | None => ls end)%list (f_dat d)).
(** `fs::write("config.toml", ..)` *)
Definition put_conf {T} (c : cfile T) (d : fs T) : fs T := mkFs c (f_dat d).

(** `num.to_string()` for num : usize *)
Definition dec (n : nat) : string := NilZero.string_of_uint (Nat.to_uint n).
(** `[file, num.to_string(), ".dat"].join("")`, spinchain.rs:197-198 *)
Definition log_name (file : string) (n : nat) : string := file ++ dec n ++ ".dat".

(** glob(file + "*.dat"): names that start with [file] and end with ".dat" (obs.rs:1330, 1439).
    Metacharacters in [file] and sub-directories are not modelled. *)
Definition ends_with (suf s : string) : bool :=
  (String.length suf <=? String.length s)%nat &&
  String.eqb (substring (String.length s - String.length suf) (String.length suf) s) suf.
Definition glob {T} (file : string) (d : fs T) : list (string * list (line T)) :=
  filter (fun p => prefix file (fst p) && ends_with ".dat" (substring (String.length file) (String.length (fst p) - String.length file) (fst p)))
         (f_dat d).
