(** The command line: the option table of `struct Args`, /repo/src/main.rs:33-127, and what the clap
    crate (4.5.16) makes of it (`Args::parse()`, main.rs:140).

    clap itself is not part of the repository; [parse] transcribes the rules of its parser that this
    table can reach: long options `--name`, `--name=value`, `--name value`; clusters of short options
    `-abc`, `-tvalue`, `-t=value`, `-t value`; `--`; values that begin with a hyphen only where
    allow_hyphen_values is set; an option or flag given twice is an error unless it collects
    (`Vec`); help and version.  Simplifications: words are ASCII strings; a value is read when it is
    met (clap reads it before it handles the next option, so that only the text of the error
    message can differ); all errors are one outcome. *)
From Coq Require Import ZArith List Bool Ascii String.
From Verif Require Import Num Monad Config Files Fit Runs Main.
Import ListNotations.
Local Open Scope string_scope.
Local Open Scope list_scope.

(** The fields of Args, main.rs:34-126, and the two options clap adds *)
Inductive opt : Type :=
| Otau | Oavg | Obeta | Omc | Omc_profile | Odyn_profile | Omc_full | Ohist | Odynhist | Osingletraj
| Olangevin | Omagnus_hist | Oconfig_desc | On_steps | Oadiabatic | Oadiab2 | Orot | Oext | Omaglab | Osteps
| Ofit | Ofit_effective | Oresponse | Otwo_point | Ohigh_freq | Ohelp | Oversion.
Definition all_opts : list opt :=
  [Otau; Oavg; Obeta; Omc; Omc_profile; Odyn_profile; Omc_full; Ohist; Odynhist; Osingletraj;
   Olangevin; Omagnus_hist; Oconfig_desc; On_steps; Oadiabatic; Oadiab2; Orot; Oext; Omaglab; Osteps;
   Ofit; Ofit_effective; Oresponse; Otwo_point; Ohigh_freq; Ohelp; Oversion].
Definition opt_eqb (a b : opt) : bool :=
  match a, b with
  | Otau, Otau | Oavg, Oavg | Obeta, Obeta | Omc, Omc | Omc_profile, Omc_profile | Odyn_profile, Odyn_profile
  | Omc_full, Omc_full | Ohist, Ohist | Odynhist, Odynhist | Osingletraj, Osingletraj | Olangevin, Olangevin
  | Omagnus_hist, Omagnus_hist | Oconfig_desc, Oconfig_desc | On_steps, On_steps | Oadiabatic, Oadiabatic
  | Oadiab2, Oadiab2 | Orot, Orot | Oext, Oext | Omaglab, Omaglab | Osteps, Osteps | Ofit, Ofit
  | Ofit_effective, Ofit_effective | Oresponse, Oresponse | Otwo_point, Otwo_point | Ohigh_freq, Ohigh_freq
  | Ohelp, Ohelp | Oversion, Oversion => true
  | _, _ => false
  end.

(** What a field type means to clap: bool; Option<T>; Option<Vec<T>>; Option<Option<T>>; help and version *)
Inductive kind : Type := Flag | One | Many | Maybe | Info.
(** short = '..', main.rs:36-126; `short` alone takes the first letter of the field's name *)
Definition short_of (o : opt) : option ascii :=
  match o with
  | Otau => Some "t" | Oavg => Some "a" | Obeta => Some "b" | Omc => Some "m" | Omc_profile => Some "p"
  | Odyn_profile => Some "P" | Odynhist => Some "d" | Osingletraj => Some "s" | Olangevin => Some "l"
  | On_steps => Some "n" | Oadiabatic => Some "A" | Oadiab2 => Some "D" | Orot => Some "r" | Oext => Some "e"
  | Omaglab => Some "E" | Ofit => Some "f" | Ofit_effective => Some "F" | Ohigh_freq => Some "H"
  | Ohelp => Some "h" | Oversion => Some "V" | _ => None
  end%char.
(** long = "..", main.rs:36-126; `long` alone takes the field's name in kebab case *)
Definition long_of (o : opt) : option string :=
  match o with
  | Otau => Some "tau" | Oavg => Some "avg" | Obeta => Some "beta" | Omc => Some "monte-carlo"
  | Omc_profile => Some "monte-carlo-profile" | Odyn_profile => Some "dynamic-profile"
  | Omc_full => Some "monte-carlo-magnus" | Ohist => Some "histogram" | Odynhist => Some "dynamic-histogram"
  | Osingletraj => Some "trajectory" | Olangevin => Some "langevin" | Omagnus_hist => Some "magnus-hist"
  | Oconfig_desc => Some "config-desc" | On_steps => Some "n-steps" | Oadiabatic => Some "adiabatic"
  | Oadiab2 => Some "adiab_full" | Orot => Some "rot-frame" | Oext => Some "ext" | Omaglab => Some "magnus-fit"
  | Osteps => Some "steps" | Oresponse => Some "response" | Otwo_point => Some "two-point"
  | Ohigh_freq => Some "high-freq" | Ohelp => Some "help" | Oversion => Some "version"
  | Ofit | Ofit_effective => None
  end.
(** the types of the fields, main.rs:37-126 *)
Definition kind_of (o : opt) : kind :=
  match o with
  | Oavg | Omc | Omc_profile | Odyn_profile | Omc_full | Oconfig_desc | Oext | Oresponse | Otwo_point => Flag
  | Ohist | Odynhist | Osingletraj | Olangevin | Omagnus_hist => Maybe
  | On_steps => Many
  | Ohelp | Oversion => Info
  | _ => One
  end.
(** allow_hyphen_values = true, main.rs:92, 109, 113, 125 *)
Definition hyphen_ok (o : opt) : bool :=
  match o with Orot | Ofit | Ofit_effective | Ohigh_freq => true | _ => false end.
(** value_name = "..", main.rs:59-125; otherwise the field's name in capitals *)
Definition value_name (o : opt) : string :=
  match o with
  | Otau => "TAU" | Obeta => "BETA" | Ohist | Odynhist | Osingletraj | Omagnus_hist => "POINTS" | Olangevin => "GAMMA"
  | On_steps => "TAU1,TAU2,..." | Oadiabatic | Oadiab2 => "TAU" | Orot | Omaglab | Ofit | Ofit_effective | Ohigh_freq => "E"
  | Osteps => "STEPS" | _ => ""
  end.

Definition find_short (c : ascii) : option opt :=
  find (fun o => match short_of o with Some d => Ascii.eqb c d | None => false end) all_opts.
Definition find_long (s : string) : option opt :=
  find (fun o => match long_of o with Some l => String.eqb s l | None => false end) all_opts.
(** `s.split_once('=')` *)
Fixpoint split_eq (s : string) : string * option string :=
  match s with
  | EmptyString => (EmptyString, None)
  | String c r => if Ascii.eqb c "=" then (EmptyString, Some r)
                  else let '(n, v) := split_eq r in (String c n, v)
  end.

Section Cli.
Context (N : NumOps).
Notation T := (num N).

(** str::parse::<f64>, ::<usize> and ::<u32>; [None] is an error *)
Record readers : Type := mkReaders { rd_f64 : string -> option T; rd_usize : string -> option Z; rd_u32 : string -> option Z }.
Context (rd : readers).

(** The record with nothing given *)
Definition no_args : args T :=
  mkArgs None false None false false false false None None None None None false None None None None false None None
    None None false false None.

(** Options met so far and the record made of them *)
Definition pst : Type := list opt * args T.
Definition seen (o : opt) (l : list opt) : bool := existsb (opt_eqb o) l.

(** Storing an occurrence of [o] with the word [v], if there is one; [None] is an error *)
Definition store (o : opt) (v : option string) (a : args T) : option (args T) :=
  let num {X} (r : string -> option X) (f : X -> args T) : option (args T) :=
    match v with Some s => match r s with Some x => Some (f x) | None => None end | None => None end in
  let maybe {X} (r : string -> option X) (f : option X -> args T) : option (args T) :=
    match v with Some s => match r s with Some x => Some (f (Some x)) | None => None end | None => Some (f None) end in
  let '(mkArgs x1 x2 x3 x4 x5 x6 x7 x8 x9 x10 x11 x12 x13 x14 x15 x16 x17 x18 x19 x20 x21 x22 x23 x24 x25) := a in
  match o with
  | Otau => num (rd_f64 rd) (fun x => mkArgs (Some x) x2 x3 x4 x5 x6 x7 x8 x9 x10 x11 x12 x13 x14 x15 x16 x17 x18 x19 x20 x21 x22 x23 x24 x25)
  | Oavg => Some (mkArgs x1 true x3 x4 x5 x6 x7 x8 x9 x10 x11 x12 x13 x14 x15 x16 x17 x18 x19 x20 x21 x22 x23 x24 x25)
  | Obeta => num (rd_f64 rd) (fun x => mkArgs x1 x2 (Some x) x4 x5 x6 x7 x8 x9 x10 x11 x12 x13 x14 x15 x16 x17 x18 x19 x20 x21 x22 x23 x24 x25)
  | Omc => Some (mkArgs x1 x2 x3 true x5 x6 x7 x8 x9 x10 x11 x12 x13 x14 x15 x16 x17 x18 x19 x20 x21 x22 x23 x24 x25)
  | Omc_profile => Some (mkArgs x1 x2 x3 x4 true x6 x7 x8 x9 x10 x11 x12 x13 x14 x15 x16 x17 x18 x19 x20 x21 x22 x23 x24 x25)
  | Odyn_profile => Some (mkArgs x1 x2 x3 x4 x5 true x7 x8 x9 x10 x11 x12 x13 x14 x15 x16 x17 x18 x19 x20 x21 x22 x23 x24 x25)
  | Omc_full => Some (mkArgs x1 x2 x3 x4 x5 x6 true x8 x9 x10 x11 x12 x13 x14 x15 x16 x17 x18 x19 x20 x21 x22 x23 x24 x25)
  | Ohist => maybe (rd_usize rd) (fun x => mkArgs x1 x2 x3 x4 x5 x6 x7 (Some x) x9 x10 x11 x12 x13 x14 x15 x16 x17 x18 x19 x20 x21 x22 x23 x24 x25)
  | Odynhist => maybe (rd_usize rd) (fun x => mkArgs x1 x2 x3 x4 x5 x6 x7 x8 (Some x) x10 x11 x12 x13 x14 x15 x16 x17 x18 x19 x20 x21 x22 x23 x24 x25)
  | Osingletraj => maybe (rd_usize rd) (fun x => mkArgs x1 x2 x3 x4 x5 x6 x7 x8 x9 (Some x) x11 x12 x13 x14 x15 x16 x17 x18 x19 x20 x21 x22 x23 x24 x25)
  | Olangevin => maybe (rd_f64 rd) (fun x => mkArgs x1 x2 x3 x4 x5 x6 x7 x8 x9 x10 (Some x) x12 x13 x14 x15 x16 x17 x18 x19 x20 x21 x22 x23 x24 x25)
  | Omagnus_hist => maybe (rd_usize rd) (fun x => mkArgs x1 x2 x3 x4 x5 x6 x7 x8 x9 x10 x11 (Some x) x13 x14 x15 x16 x17 x18 x19 x20 x21 x22 x23 x24 x25)
  | Oconfig_desc => Some (mkArgs x1 x2 x3 x4 x5 x6 x7 x8 x9 x10 x11 x12 true x14 x15 x16 x17 x18 x19 x20 x21 x22 x23 x24 x25)
  | On_steps => num (rd_f64 rd) (fun x => mkArgs x1 x2 x3 x4 x5 x6 x7 x8 x9 x10 x11 x12 x13
                  (Some (match x14 with Some l => l ++ [x] | None => [x] end)) x15 x16 x17 x18 x19 x20 x21 x22 x23 x24 x25)
  | Oadiabatic => num (rd_f64 rd) (fun x => mkArgs x1 x2 x3 x4 x5 x6 x7 x8 x9 x10 x11 x12 x13 x14 (Some x) x16 x17 x18 x19 x20 x21 x22 x23 x24 x25)
  | Oadiab2 => num (rd_f64 rd) (fun x => mkArgs x1 x2 x3 x4 x5 x6 x7 x8 x9 x10 x11 x12 x13 x14 x15 (Some x) x17 x18 x19 x20 x21 x22 x23 x24 x25)
  | Orot => num (rd_f64 rd) (fun x => mkArgs x1 x2 x3 x4 x5 x6 x7 x8 x9 x10 x11 x12 x13 x14 x15 x16 (Some x) x18 x19 x20 x21 x22 x23 x24 x25)
  | Oext => Some (mkArgs x1 x2 x3 x4 x5 x6 x7 x8 x9 x10 x11 x12 x13 x14 x15 x16 x17 true x19 x20 x21 x22 x23 x24 x25)
  | Omaglab => num (rd_f64 rd) (fun x => mkArgs x1 x2 x3 x4 x5 x6 x7 x8 x9 x10 x11 x12 x13 x14 x15 x16 x17 x18 (Some x) x20 x21 x22 x23 x24 x25)
  | Osteps => num (rd_u32 rd) (fun x => mkArgs x1 x2 x3 x4 x5 x6 x7 x8 x9 x10 x11 x12 x13 x14 x15 x16 x17 x18 x19 (Some x) x21 x22 x23 x24 x25)
  | Ofit => num (rd_f64 rd) (fun x => mkArgs x1 x2 x3 x4 x5 x6 x7 x8 x9 x10 x11 x12 x13 x14 x15 x16 x17 x18 x19 x20 (Some x) x22 x23 x24 x25)
  | Ofit_effective => num (rd_f64 rd) (fun x => mkArgs x1 x2 x3 x4 x5 x6 x7 x8 x9 x10 x11 x12 x13 x14 x15 x16 x17 x18 x19 x20 x21 (Some x) x23 x24 x25)
  | Oresponse => Some (mkArgs x1 x2 x3 x4 x5 x6 x7 x8 x9 x10 x11 x12 x13 x14 x15 x16 x17 x18 x19 x20 x21 x22 true x24 x25)
  | Otwo_point => Some (mkArgs x1 x2 x3 x4 x5 x6 x7 x8 x9 x10 x11 x12 x13 x14 x15 x16 x17 x18 x19 x20 x21 x22 x23 true x25)
  | Ohigh_freq => num (rd_f64 rd) (fun x => mkArgs x1 x2 x3 x4 x5 x6 x7 x8 x9 x10 x11 x12 x13 x14 x15 x16 x17 x18 x19 x20 x21 x22 x23 x24 (Some x))
  | Ohelp | Oversion => None
  end.

(** Usage: error message, exit code 2; Shown: help or version printed, exit code 0 *)
Inductive outcome (A : Type) : Type := Parsed (a : A) | Usage | Shown.
Arguments Parsed {A}. Arguments Usage {A}. Arguments Shown {A}.

(** One occurrence of an option *)
Definition react (o : opt) (v : option string) (st : pst) : outcome pst :=
  match kind_of o with
  | Info => Shown
  | k =>
      if (match k with Many => false | _ => seen o (fst st) end) then Usage else
      match store o v (snd st) with Some a => Parsed (o :: fst st, a) | None => Usage end
  end.

(** The rest of a cluster of short options; the result may leave an option waiting for its value *)
Fixpoint cluster (s : string) (st : pst) : outcome (pst * option opt) :=
  match s with
  | EmptyString => Parsed (st, None)
  | String c r =>
      match find_short c with
      | None => Usage
      | Some o =>
          match kind_of o with
          | Flag | Info => match react o None st with Parsed st => cluster r st | Usage => Usage | Shown => Shown end
          | _ =>
              match r with
              | EmptyString => Parsed (st, Some o)
              | String d r' =>
                  match react o (Some (if Ascii.eqb d "=" then r' else r)) st with
                  | Parsed st => Parsed (st, None) | Usage => Usage | Shown => Shown
                  end
              end
          end
      end
  end.
(** A long option without its two hyphens *)
Definition long_opt (s : string) (st : pst) : outcome (pst * option opt) :=
  let '(n, v) := split_eq s in
  match find_long n with
  | None => Usage
  | Some o =>
      match kind_of o, v with
      | Flag, Some _ | Info, Some _ => Usage
      | Flag, None | Info, None | _, Some _ =>
          match react o v st with Parsed st => Parsed (st, None) | Usage => Usage | Shown => Shown end
      | _, None => Parsed (st, Some o)
      end
  end.

(** The words of the command line; [w] is the option that waits for a value *)
Fixpoint words (l : list string) (w : option opt) (st : pst) : outcome (args T) :=
  let bare (w : option opt) (k : pst -> outcome (args T)) : outcome (args T) :=
    match w with
    | None => k st
    | Some o => match react o None st with Parsed st => k st | Usage => Usage | Shown => Shown end
    end in
  match l with
  | [] => bare w (fun st => Parsed (snd st))
  | t :: l =>
      let value o := match react o (Some t) st with Parsed st => words l None st | Usage => Usage | Shown => Shown end in
      let go f st := match f st with Parsed (st, w) => words l w st | Usage => Usage | Shown => Shown end in
      if (match w with Some o => hyphen_ok o | None => false end)
      then match w with Some o => value o | None => Usage end
      else match t with
      | String "-" (String "-" EmptyString) =>
          bare w (fun st => match l with [] => Parsed (snd st) | _ :: _ => Usage end)
      | String "-" (String "-" s) => bare w (go (long_opt s))
      | String "-" (String c s) => bare w (go (cluster (String c s)))
      | _ => match w with Some o => value o | None => Usage end
      end
  end.

(** `Args::parse()`, main.rs:140 *)
Definition parse (l : list string) : outcome (args T) := words l None ([], no_args).

(** The program from its command line: an error or a help request ends it before the directory is touched *)
Definition program (fuel : nat) (w : world N) (l : list string) (f : fs T) : outcome (res (state N)) :=
  match parse l with Parsed a => Parsed (main N fuel w a f) | Usage => Usage | Shown => Shown end.
End Cli.
Arguments Parsed {A}. Arguments Usage {A}. Arguments Shown {A}.
Arguments mkReaders {N}. Arguments rd_f64 {N}. Arguments rd_usize {N}. Arguments rd_u32 {N}.
