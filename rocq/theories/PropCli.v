(** Theorems about the command line: property C82. *)
From Coq Require Import ZArith List Bool Ascii String Permutation.
From Verif Require Import Num Monad NumF64 Config Files Runs Main SpecMain Cli SpecCli ProofsCli ProofsCli2 ProofsCli3 ProofsRunSamples ProofsReadySamples ProofsCliSamples.
Import ListNotations.
Local Open Scope string_scope.
Local Open Scope list_scope.

(** * C82 *)
(** A command line is accepted exactly when it can be read by the grammar, gives no option twice
    (--n-steps excepted) and all its numbers can be read; the record is then the one the settings
    stand for, field by field. *)
Theorem C82_grammar : forall N (rd : readers N) l a, parse N rd l = Parsed a <-> exists ss, reads l ss /\ once ss /\ means N rd ss a.
Proof. exact parse_grammar. Qed.
Print Assumptions C82_grammar.
(** A command line that gives the record of 18 modes used for C56 and C63; the same with `-b 2` once more; with `-d x` *)
Example C82_grammar_case : forall N, parse N (ex_reader N) ex_line = Parsed (ex_all N) /\
  parse N (ex_reader N) (ex_line ++ ["-b"; "2"]) = Usage /\ parse N (ex_reader N) ["-d"; "x"] = Usage /\ parse N (ex_reader N) ["-d"; "--help"] = Shown.
Proof. intros N. repeat split. Qed.

(** There is at most one reading. *)
Theorem C82_one_reading : forall l s1 s2, reads l s1 -> reads l s2 -> s1 = s2.
Proof. exact one_reading. Qed.
Print Assumptions C82_one_reading.
Example C82_one_reading_case : reads ["-mtd"; "-d"] [(Omc, None); (Otau, Some "d"); (Odynhist, None)].
Proof.
  apply r_letters. apply (l_flag Omc); [reflexivity|reflexivity|]. apply (l_joined Otau); [left; reflexivity|reflexivity|discriminate|].
  apply r_letters. apply (l_last Odynhist); [right; right; reflexivity|reflexivity|]. apply a_bare; [reflexivity|discriminate|constructor].
Qed.

(** Every list of settings can be written down. *)
Theorem C82_every : forall ss, Forall fits ss -> reads (map written ss) ss.
Proof. exact fits_reads. Qed.
Print Assumptions C82_every.
Example C82_every_case : forall N, Forall fits ex_settings /\ parse N (ex_reader N) (map written ex_settings) = Parsed (ex_all N) /\
  map written [(Ofit, Some "-1"); (Odynhist, None); (Otau, Some "")] = ["-f=-1"; "--dynamic-histogram"; "--tau="].
Proof.
  intros N. split; [|split; reflexivity].
  repeat (constructor; [unfold fits, takes; cbn; auto|]). constructor.
Qed.

(** The order of the settings does not matter, except for the values of --n-steps. *)
Theorem C82_order : forall N (rd : readers N) l1 l2 s1 s2 a, reads l1 s1 -> reads l2 s2 -> Permutation s1 s2 -> given On_steps s1 = given On_steps s2 ->
  parse N rd l1 = Parsed a -> parse N rd l2 = Parsed a.
Proof. exact order. Qed.
Print Assumptions C82_order.
Example C82_order_case : forall N,
  let s1 := [(Otau, Some "8"); (On_steps, Some "4"); (Oext, None); (On_steps, Some "20")] in
  let s2 := [(On_steps, Some "4"); (On_steps, Some "20"); (Oext, None); (Otau, Some "8")] in
  reads ["-t8"; "-n"; "4"; "-en=20"] s1 /\ reads (map written s2) s2 /\ Permutation s1 s2 /\ given On_steps s1 = given On_steps s2 /\
  parse N (ex_reader N) ["-t8"; "-n"; "4"; "-en=20"] =
  Parsed (mkArgs (Some (nofZ N 8)) false None false false false false None None None None None false (Some [nofZ N 4; nofZ N 20]) None None None true None None None None false false None).
Proof.
  intros N s1 s2. split; [|split; [apply fits_reads; repeat (constructor; [unfold fits, takes; cbn; auto|]); constructor|split; [|split; reflexivity]]].
  - apply r_letters. apply (l_joined Otau); [left; reflexivity|reflexivity|discriminate|].
    apply r_letters. apply (l_last On_steps); [right; left; reflexivity|reflexivity|]. apply a_word; [right; intros (c & r & E); discriminate E|].
    apply r_letters. apply (l_flag Oext); [reflexivity|reflexivity|]. apply (l_equals On_steps); [right; left; reflexivity|reflexivity|]. constructor.
  - unfold s1, s2. apply Permutation_trans with ((On_steps, Some "4") :: (On_steps, Some "20") :: [(Otau, Some "8"); (Oext, None)]).
    + apply (Permutation_cons_app [(On_steps, Some "4"); (On_steps, Some "20")]). apply perm_skip. apply perm_swap.
    + do 2 apply perm_skip. apply perm_swap.
Qed.

(** An option that takes a value may be written `--name value`, `--name=value`, `-c value`, `-c=value`
    and `-cvalue`, all the same, as long as the value does not begin with a hyphen or the option
    allows that (-r, -f, -F and -H). *)
Theorem C82_forms_long : forall N (rd : readers N) o n v l, takes o -> long_of o = Some n -> hyphen_ok o = true \/ ~ dashed v ->
  parse N rd (("--" ++ n)%string :: v :: l) = parse N rd (("--" ++ n ++ "=" ++ v)%string :: l).
Proof. exact forms_long. Qed.
Print Assumptions C82_forms_long.
Theorem C82_forms_short : forall N (rd : readers N) o c v l, takes o -> short_of o = Some c -> hyphen_ok o = true \/ ~ dashed v ->
  parse N rd (String "-" (String c "") :: v :: l) = parse N rd (String "-" (String c (String "=" v)) :: l).
Proof. exact forms_short. Qed.
Print Assumptions C82_forms_short.
Theorem C82_forms_both : forall N (rd : readers N) o n c v l, takes o -> long_of o = Some n -> short_of o = Some c ->
  parse N rd (("--" ++ n ++ "=" ++ v)%string :: l) = parse N rd (String "-" (String c (String "=" v)) :: l).
Proof. exact forms_both. Qed.
Print Assumptions C82_forms_both.
Theorem C82_forms_joined : forall N (rd : readers N) o c d v l, takes o -> short_of o = Some c -> d <> "="%char ->
  parse N rd (String "-" (String c (String d v)) :: l) = parse N rd (String "-" (String c (String "=" (String d v))) :: l).
Proof. exact forms_joined. Qed.
Print Assumptions C82_forms_joined.
(** -r -5: the hyphen belongs to the value, and so it does in `-r --ext` *)
Example C82_forms_case : forall N,
  parse N (ex_reader N) ["-r"; "-5"] =
  Parsed (mkArgs None false None false false false false None None None None None false None None None (Some (nopp N (nofZ N 5))) false None None None None false false None) /\
  parse N (ex_reader N) ["-r"; "--ext"] = Usage /\ ~ dashed "5" /\ ~ dashed "-" /\ hyphen_ok Orot = true /\ takes Orot.
Proof. intros N. repeat split; try (intros (c & r & E); discriminate E). left. reflexivity. Qed.

(** The other options refuse a value that begins with a hyphen unless it is joined to them: a
    negative number after -t, -b, -A, -D, -E, -n and --steps is taken for an option. *)
Theorem C82_negative_long : forall N (rd : readers N) o n t l, kind_of o = One \/ kind_of o = Many -> hyphen_ok o = false -> long_of o = Some n -> dashed t ->
  parse N rd (("--" ++ n)%string :: t :: l) = Usage.
Proof. exact negative_long. Qed.
Print Assumptions C82_negative_long.
Theorem C82_negative_short : forall N (rd : readers N) o c t l, kind_of o = One \/ kind_of o = Many -> hyphen_ok o = false -> short_of o = Some c -> dashed t ->
  parse N rd (String "-" (String c "") :: t :: l) = Usage.
Proof. exact negative_short. Qed.
Print Assumptions C82_negative_short.
(** `-E -5`, the fit in the laboratory frame for a negative energy; and how it must be written *)
Example C82_negative_case : forall N, kind_of Omaglab = One /\ hyphen_ok Omaglab = false /\ short_of Omaglab = Some "E"%char /\ dashed "-5" /\
  parse N (ex_reader N) ["-E"; "-5"] = Usage /\
  parse N (ex_reader N) ["-E=-5"] =
  Parsed (mkArgs None false None false false false false None None None None None false None None None None false (Some (nopp N (nofZ N 5))) None None None false false None).
Proof. intros N. repeat split. eexists _, _. reflexivity. Qed.

(** Option by option: after these four a word is the value whatever it begins with ... *)
Theorem C82_hyphens_kept : forall N (rd : readers N) t x, rd_f64 rd t = Some x ->
  (forall w, In w ["-r"; "--rot-frame"] -> parse N rd [w; t] = Parsed (mkArgs None false None false false false false None None None None None false None None None (Some x) false None None None None false false None)) /\
  parse N rd ["-f"; t] = Parsed (mkArgs None false None false false false false None None None None None false None None None None false None None (Some x) None false false None) /\
  parse N rd ["-F"; t] = Parsed (mkArgs None false None false false false false None None None None None false None None None None false None None None (Some x) false false None) /\
  (forall w, In w ["-H"; "--high-freq"] -> parse N rd [w; t] = Parsed (mkArgs None false None false false false false None None None None None false None None None None false None None None None false false (Some x))).
Proof. exact hyphens_kept. Qed.
Print Assumptions C82_hyphens_kept.
(** ... and after these a word that begins with a hyphen is refused. *)
Theorem C82_hyphens_refused : forall N (rd : readers N) t l w, dashed t ->
  In w ["-t"; "--tau"; "-b"; "--beta"; "-A"; "--adiabatic"; "-D"; "--adiab_full"; "-E"; "--magnus-fit"; "-n"; "--n-steps"; "--steps"] ->
  parse N rd (w :: t :: l) = Usage.
Proof. exact hyphens_refused. Qed.
Print Assumptions C82_hyphens_refused.
Example C82_hyphens_case : forall N, dashed "-5" /\ rd_f64 (ex_reader N) "-5" = Some (nopp N (nofZ N 5)) /\
  parse N (ex_reader N) ["--beta"; "-5"] = Usage.
Proof. intros N. repeat split. eexists _, _. reflexivity. Qed.

(** The values of --n-steps: one with each occurrence of the option, kept in order. *)
Theorem C82_list : forall N (rd : readers N) vs ts, Forall2 (fun v t => rd_f64 rd v = Some t) vs ts -> Forall (fun v => ~ dashed v) vs -> vs <> [] ->
  parse N rd (flat_map (fun v => ["--n-steps"; v]) vs) =
  Parsed (mkArgs None false None false false false false None None None None None false (Some ts) None None None false None None None None false false None).
Proof. exact list_read. Qed.
Print Assumptions C82_list.
Example C82_list_case : forall N, Forall2 (fun v t => rd_f64 (ex_reader N) v = Some t) ["1"; "2.5"] [nofZ N 1; nlit N 25 1] /\ Forall (fun v => ~ dashed v) ["1"; "2.5"] /\ ["1"; "2.5"] <> [].
Proof. intros N. repeat (split || constructor); try discriminate; intros (c & r & E); discriminate E. Qed.
(** The list with commas that the usage text shows, TAU1,TAU2,..., is refused: a word that is not a number is no list. *)
Theorem C82_comma : forall N (rd : readers N) v l, rd_f64 rd v = None -> ~ dashed v ->
  parse N rd ("--n-steps" :: v :: l) = Usage /\ parse N rd ("-n" :: v :: l) = Usage /\ parse N rd (("--n-steps=" ++ v)%string :: l) = Usage.
Proof. exact list_comma. Qed.
Print Assumptions C82_comma.
Example C82_comma_case : forall N, rd_f64 (ex_reader N) "1,2" = None /\ ~ dashed "1,2".
Proof. intros N. split; [reflexivity|]. intros (c & r & E). discriminate E. Qed.

(** The options are those of the usage text in the README. *)
Theorem C82_readme : map help_text all_opts = readme.
Proof. exact readme_text. Qed.
Print Assumptions C82_readme.

(** A run that was started by a command line goes through the modes of its settings in the fixed
    order, or the plain simulation if there is none. *)
Theorem C82_modes : forall N (rd : readers N) fuel w l f st ss, reads l ss -> program N rd fuel w l f = Parsed (Ok st) ->
  map fst (s_trace N st) = match asked ss with [] => [Mdefault] | l => l end.
Proof. exact program_modes. Qed.
Print Assumptions C82_modes.
Example C82_modes_case : forall L, reads (map written ex_settings) ex_settings /\
  (exists st, program (F64 L) (ex_reader (F64 L)) ex_fuel (ex_world (F64 L)) (map written ex_settings) (ex_empty (F64 L)) = Parsed (Ok st)) /\
  asked ex_settings = [Mdesc; Mext; Mtau; Madiab2; Mrot; Mmaglab; Mfit; Mfiteff; Mhigh; Madiabatic; Mdynhist; Mmagnus; Mtraj; Mmc; Mmcprofile; Mmcfull; Mlangevin; Mresponse].
Proof.
  intros L. split; [apply fits_reads, (C82_every_case (F64 L))|]. split; [|reflexivity].
  destruct (ex_all_runs L) as [st H]. exists st. unfold program. rewrite (proj1 (proj2 (C82_every_case (F64 L)))). f_equal. exact H.
Qed.
