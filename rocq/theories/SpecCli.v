(** What a command line says (C82): a grammar, the meaning of the settings, and the text of the README. *)
From Coq Require Import ZArith List Bool Ascii String.
From Verif Require Import Num Monad Config Main Cli.
Import ListNotations.
Local Open Scope string_scope.
Local Open Scope list_scope.

(** A setting: an option and the word given with it *)
Definition setting : Type := opt * option string.
(** A word that begins with a hyphen and is not a hyphen alone *)
Definition dashed (t : string) : Prop := exists c r, t = String "-" (String c r).
(** Options that take a word *)
Definition takes (o : opt) : Prop := kind_of o = One \/ kind_of o = Many \/ kind_of o = Maybe.

(** [reads l ss]: the words [l] can be read as the settings [ss]; [letters s l ss]: the same after a hyphen,
    with the letters [s] left; [after o l ss]: the same after the option [o], when its word is still to come *)
Inductive reads : list string -> list setting -> Prop :=
| r_nil : reads [] []
| r_stop : reads ["--"] []
| r_flag : forall o n l ss, kind_of o = Flag -> long_of o = Some n -> reads l ss -> reads (("--" ++ n)%string :: l) ((o, None) :: ss)
| r_equals : forall o n v l ss, takes o -> long_of o = Some n -> reads l ss -> reads (("--" ++ n ++ "=" ++ v)%string :: l) ((o, Some v) :: ss)
| r_long : forall o n l ss, takes o -> long_of o = Some n -> after o l ss -> reads (("--" ++ n)%string :: l) ss
| r_letters : forall c s l ss, letters (String c s) l ss -> reads (String "-" (String c s) :: l) ss
with letters : string -> list string -> list setting -> Prop :=
| l_end : forall l ss, reads l ss -> letters "" l ss
| l_flag : forall o c s l ss, kind_of o = Flag -> short_of o = Some c -> letters s l ss -> letters (String c s) l ((o, None) :: ss)
| l_joined : forall o c d s l ss, takes o -> short_of o = Some c -> d <> "="%char -> reads l ss ->
    letters (String c (String d s)) l ((o, Some (String d s)) :: ss)
| l_equals : forall o c s l ss, takes o -> short_of o = Some c -> reads l ss -> letters (String c (String "=" s)) l ((o, Some s) :: ss)
| l_last : forall o c l ss, takes o -> short_of o = Some c -> after o l ss -> letters (String c "") l ss
with after : opt -> list string -> list setting -> Prop :=
| a_word : forall o v l ss, hyphen_ok o = true \/ ~ dashed v -> reads l ss -> after o (v :: l) ((o, Some v) :: ss)
| a_bare : forall o l ss, kind_of o = Maybe -> (forall t r, l = t :: r -> dashed t) -> reads l ss -> after o l ((o, None) :: ss).

(** No option twice, except those that collect *)
Definition once (ss : list setting) : Prop := NoDup (map fst (filter (fun p => match kind_of (fst p) with Many => false | _ => true end) ss)).
(** The words given with an option *)
Definition given (o : opt) (ss : list setting) : list (option string) := map snd (filter (fun p => opt_eqb o (fst p)) ss).

Section Meaning.
Context (N : NumOps) (rd : readers N).
Notation T := (num N).
Definition is_flag (o : opt) (ss : list setting) (x : bool) : Prop := x = match given o ss with [] => false | _ => true end.
Definition is_one {X} (r : string -> option X) (o : opt) (ss : list setting) (x : option X) : Prop :=
  match given o ss with
  | [] => x = None
  | v :: _ => exists s y, v = Some s /\ r s = Some y /\ x = Some y
  end.
Definition is_maybe {X} (r : string -> option X) (o : opt) (ss : list setting) (x : option (option X)) : Prop :=
  match given o ss with
  | [] => x = None
  | None :: _ => x = Some None
  | Some s :: _ => exists y, r s = Some y /\ x = Some (Some y)
  end.
Definition is_list {X} (r : string -> option X) (o : opt) (ss : list setting) (x : option (list X)) : Prop :=
  match given o ss with
  | [] => x = None
  | vs => exists ys, Forall2 (fun v y => exists s, v = Some s /\ r s = Some y) vs ys /\ x = Some ys
  end.
(** The record that the settings stand for, field by field *)
Definition means (ss : list setting) (a : args T) : Prop :=
  is_one (rd_f64 rd) Otau ss (a_tau a) /\ is_flag Oavg ss (a_avg a) /\ is_one (rd_f64 rd) Obeta ss (a_beta a) /\
  is_flag Omc ss (a_mc a) /\ is_flag Omc_profile ss (a_mc_profile a) /\ is_flag Odyn_profile ss (a_dyn_profile a) /\
  is_flag Omc_full ss (a_mc_full a) /\ is_maybe (rd_usize rd) Ohist ss (a_hist a) /\ is_maybe (rd_usize rd) Odynhist ss (a_dynhist a) /\
  is_maybe (rd_usize rd) Osingletraj ss (a_singletraj a) /\ is_maybe (rd_f64 rd) Olangevin ss (a_langevin a) /\
  is_maybe (rd_usize rd) Omagnus_hist ss (a_magnus_hist a) /\ is_flag Oconfig_desc ss (a_config_desc a) /\
  is_list (rd_f64 rd) On_steps ss (a_n_steps_taus a) /\ is_one (rd_f64 rd) Oadiabatic ss (a_adiabatic a) /\
  is_one (rd_f64 rd) Oadiab2 ss (a_adiab2 a) /\ is_one (rd_f64 rd) Orot ss (a_rot a) /\ is_flag Oext ss (a_ext a) /\
  is_one (rd_f64 rd) Omaglab ss (a_maglab a) /\ is_one (rd_u32 rd) Osteps ss (a_steps a) /\ is_one (rd_f64 rd) Ofit ss (a_fit a) /\
  is_one (rd_f64 rd) Ofit_effective ss (a_fit_effective a) /\ is_flag Oresponse ss (a_response a) /\
  is_flag Otwo_point ss (a_two_point a) /\ is_one (rd_f64 rd) Ohigh_freq ss (a_high_freq a).
End Meaning.

(** The mode an option asks for, and the modes in the order of the program *)
Definition mode_of (o : opt) : option mode :=
  match o with
  | Oavg => Some Mavg | Omc => Some Mmc | Omc_profile => Some Mmcprofile | Odyn_profile => Some Mdynprofile | Omc_full => Some Mmcfull
  | Ohist => Some Mhist | Odynhist => Some Mdynhist | Osingletraj => Some Mtraj | Olangevin => Some Mlangevin | Omagnus_hist => Some Mmagnus
  | Oconfig_desc => Some Mdesc | On_steps => Some Mtau | Oadiabatic => Some Madiabatic | Oadiab2 => Some Madiab2 | Orot => Some Mrot
  | Oext => Some Mext | Omaglab => Some Mmaglab | Ofit => Some Mfit | Ofit_effective => Some Mfiteff | Oresponse => Some Mresponse
  | Otwo_point => Some Mtwopoint | Ohigh_freq => Some Mhigh | Otau | Obeta | Osteps | Ohelp | Oversion => None
  end.
Definition program_order : list opt :=
  [Oconfig_desc; Oext; On_steps; Oadiab2; Orot; Omaglab; Ofit; Ofit_effective; Ohigh_freq; Oadiabatic; Ohist; Odynhist; Omagnus_hist;
   Osingletraj; Oavg; Otwo_point; Omc; Omc_profile; Odyn_profile; Omc_full; Olangevin; Oresponse].
(** The modes asked for by the settings *)
Definition asked (ss : list setting) : list mode :=
  flat_map (fun o => match given o ss, mode_of o with _ :: _, Some m => [m] | _, _ => [] end) program_order.

(** The left column of the usage text in the README *)
Definition readme : list string :=
  ["  -t, --tau <TAU>"; "  -a, --avg"; "  -b, --beta <BETA>"; "  -m, --monte-carlo"; "  -p, --monte-carlo-profile"; "  -P, --dynamic-profile";
   "      --monte-carlo-magnus"; "      --histogram [<POINTS>]"; "  -d, --dynamic-histogram [<POINTS>]"; "  -s, --trajectory [<POINTS>]";
   "  -l, --langevin [<GAMMA>]"; "      --magnus-hist [<POINTS>]"; "      --config-desc"; "  -n, --n-steps <TAU1,TAU2,...>"; "  -A, --adiabatic <TAU>";
   "  -D, --adiab_full <TAU>"; "  -r, --rot-frame <E>"; "  -e, --ext"; "  -E, --magnus-fit <E>"; "      --steps <STEPS>"; "  -f <E>"; "  -F <E>";
   "      --response"; "      --two-point"; "  -H, --high-freq <E>"; "  -h, --help"; "  -V, --version"].
(** How clap writes an option there *)
Definition help_text (o : opt) : string :=
  ((match short_of o, long_of o with
    | Some c, Some n => "  -" ++ String c (", --" ++ n)
    | Some c, None => "  -" ++ String c ""
    | None, Some n => "      --" ++ n
    | None, None => "" end) ++
   (match kind_of o with One | Many => " <" ++ value_name o ++ ">" | Maybe => " [<" ++ value_name o ++ ">]" | _ => "" end))%string.

(** Settings of the right form, and a way to write each as one word *)
Definition fits (p : setting) : Prop :=
  match snd p with Some _ => takes (fst p) | None => kind_of (fst p) = Flag \/ kind_of (fst p) = Maybe end.
Definition written (p : setting) : string :=
  ((match long_of (fst p), short_of (fst p) with Some n, _ => "--" ++ n | None, Some c => "-" ++ String c "" | None, None => "" end) ++
   (match snd p with Some v => "=" ++ v | None => "" end))%string.
