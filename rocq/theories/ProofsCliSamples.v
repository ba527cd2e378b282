(** A reader of decimal numbers and a command line with eighteen modes (C82). *)
From Coq Require Import ZArith List Bool Ascii String.
From Verif Require Import Num Monad Config Main Cli SpecCli ProofsReadySamples.
Import ListNotations.
Local Open Scope string_scope.
Local Open Scope list_scope.

Definition digit (c : ascii) : option Z :=
  let n := Z.of_nat (nat_of_ascii c) in if ((48 <=? n) && (n <=? 57))%Z then Some (n - 48)%Z else None.
(** digits, with a point among them if [p] is not [None]: the number without its point and the number of decimals *)
Fixpoint digits (s : string) (acc : Z) (p : option nat) : option (Z * option nat) :=
  match s with
  | EmptyString => Some (acc, p)
  | String c r =>
      if Ascii.eqb c "." then match p with None => digits r acc (Some 0) | Some _ => None end
      else match digit c with Some d => digits r (10 * acc + d)%Z (option_map S p) | None => None end
  end.
Definition ex_natural (s : string) : option Z :=
  match s with EmptyString => None | _ => match digits s 0%Z None with Some (n, None) => Some n | _ => None end end.
Definition ex_unsigned (N : NumOps) (s : string) : option (num N) :=
  match s with
  | EmptyString => None
  | _ => match digits s 0%Z None with Some (n, None) => Some (nofZ N n) | Some (n, Some k) => Some (nlit N n k) | None => None end
  end.
Definition ex_reader (N : NumOps) : readers N :=
  mkReaders (fun s => match s with String "-" r => option_map (nopp N) (ex_unsigned N r) | _ => ex_unsigned N s end) ex_natural ex_natural.

Definition ex_line : list string :=
  ["-t8"; "-b"; "2"; "-mp"; "--monte-carlo-magnus"; "-d3"; "-s"; "2"; "--magnus-hist=7"; "--config-desc"; "-n"; "4"; "-l"; "-n"; "20"; "-A6"; "-D"; "5";
   "-r"; "-0.66"; "-e"; "-E=-0.66"; "--steps"; "2"; "-f"; "-0.66"; "-F-0.66"; "--response"; "-H"; "-0.66"].
Definition ex_settings : list setting :=
  [(Otau, Some "8"); (Obeta, Some "2"); (Omc, None); (Omc_profile, None); (Omc_full, None); (Odynhist, Some "3"); (Osingletraj, Some "2");
   (Omagnus_hist, Some "7"); (Oconfig_desc, None); (On_steps, Some "4"); (Olangevin, None); (On_steps, Some "20"); (Oadiabatic, Some "6"); (Oadiab2, Some "5");
   (Orot, Some "-0.66"); (Oext, None); (Omaglab, Some "-0.66"); (Osteps, Some "2"); (Ofit, Some "-0.66"); (Ofit_effective, Some "-0.66"); (Oresponse, None); (Ohigh_freq, Some "-0.66")].
