(** Vocabulary for the properties of the whole program (C51, C56, C57). *)
From Coq Require Import String ZArith List Arith.
From Verif Require Import Num Monad Config Files Main SpecRuns.
Import ListNotations.

(** The modes asked for on the command line, in the order of the program; -t, -b and --steps do
    not ask for a mode. *)
Definition on {A} (m : mode) (o : option A) : list mode := match o with Some _ => [m] | None => [] end.
Definition onb (m : mode) (b : bool) : list mode := if b then [m] else [].
Definition selected {T} (a : args T) : list mode :=
  onb Mdesc (a_config_desc a) ++ onb Mext (a_ext a) ++ on Mtau (a_n_steps_taus a) ++ on Madiab2 (a_adiab2 a) ++
  on Mrot (a_rot a) ++ on Mmaglab (a_maglab a) ++ on Mfit (a_fit a) ++ on Mfiteff (a_fit_effective a) ++
  on Mhigh (a_high_freq a) ++ on Madiabatic (a_adiabatic a) ++ on Mhist (a_hist a) ++ on Mdynhist (a_dynhist a) ++
  on Mmagnus (a_magnus_hist a) ++ on Mtraj (a_singletraj a) ++ onb Mavg (a_avg a) ++ onb Mtwopoint (a_two_point a) ++
  onb Mmc (a_mc a) ++ onb Mmcprofile (a_mc_profile a) ++ onb Mdynprofile (a_dyn_profile a) ++ onb Mmcfull (a_mc_full a) ++
  on Mlangevin (a_langevin a) ++ onb Mresponse (a_response a).

(** The modes that come before the temperature is settled *)
Definition early (m : mode) : bool :=
  match m with
  | Mdesc | Mext | Mtau | Madiab2 | Mrot | Mmaglab | Mfit | Mfiteff | Mhigh | Madiabatic => true
  | _ => false
  end.
(** Same arguments, other temperature *)
Definition with_beta {T} (a : args T) (b : option T) : args T :=
  mkArgs (a_tau a) (a_avg a) b (a_mc a) (a_mc_profile a) (a_dyn_profile a) (a_mc_full a) (a_hist a) (a_dynhist a)
    (a_singletraj a) (a_langevin a) (a_magnus_hist a) (a_config_desc a) (a_n_steps_taus a) (a_adiabatic a) (a_adiab2 a)
    (a_rot a) (a_ext a) (a_maglab a) (a_steps a) (a_fit a) (a_fit_effective a) (a_response a) (a_two_point a) (a_high_freq a).

(** Invocations that write numbered logs and save the configuration *)
Definition saving {T} (a : args T) : Prop :=
  selected a = [] \/ selected a = [Mext] \/ selected a = [Mdynprofile] \/ selected a = [Mlangevin] \/ selected a = [Mresponse].

(** A sequence of completed saving invocations in one directory; the directories before and after
    each of them *)
Inductive history (N : NumOps) : fs (num N) -> list (fs (num N) * fs (num N)) -> Prop :=
| h_nil f : history N f []
| h_cons fuel w a f st l : saving a -> main N fuel w a f = Ok st -> history N (s_fs N st) l ->
    history N f ((f, s_fs N st) :: l).

(** ** The shared configuration *)
Section Pass.
Context (N : NumOps).
Notation T := (num N).
Definition zero_field (z : T) : list T := [nofZ N 0; nofZ N 0; z].
(** [-2 pi / tau] *)
Definition m_omega (c : config T) : T := ndiv N (nmul N (nopp N (nofZ N 2)) (npi N)) (tau c).
Definition x_field : list T := [nofZ N 1; nofZ N 0; nofZ N 0].
Definition set_xfile (c : config T) : config T :=
  mkConfig (hsize c) (ssize c) (c_t c) (c_dt c) (runs c) (trel c) (threads c) (tau c) (lambda c) (hfield c) (hs c) (jvar c) (hvar c)
    (method c) (ednsty c) "x" (strob c) (offset c) (beta c) (mc_points c) (c_e c) Dnone (c_log c).
(** What a mode is given when the shared configuration is [c] *)
Definition entry (a : args T) (m : mode) (c ce : config T) : Prop :=
  match m with
  | Mlangevin => ce = set_hsize c (ssize c)
  | Madiab2 => exists x, a_adiab2 a = Some x /\ ce = set_hfield (set_hs (set_tau c x) x_field) (zero_field (m_omega (set_tau c x)))
  | Mrot => exists e, a_rot a = Some e /\ ce = set_ednsty c e
  | Mmaglab => exists e, a_maglab a = Some e /\ ce = set_ednsty c e
  | Mfit => exists e, a_fit a = Some e /\ ce = set_hsize (set_hfield (set_hs (set_ednsty c e) x_field) (zero_field (m_omega c))) (ssize c)
  | Mfiteff => exists e, a_fit_effective a = Some e /\ ce = set_hfield (set_hs (set_ednsty c e) x_field) (zero_field (m_omega c))
  | Mhigh => exists e, a_high_freq a = Some e /\
      ce = set_hfield (set_ednsty c e) (zero_field (ndiv N (nopp N (tau c)) (nmul N (nofZ N 4) (npi N))))
  | Madiabatic => exists x, a_adiabatic a = Some x /\ ce = set_tau c x
  | _ => ce = c
  end.
(** The shared configuration after a mode that was given [ce] *)
Definition left_by (m : mode) (ce c' : config T) : Prop :=
  let advanced c := set_offset c (offset c + runs c mod 2 ^ 32)%Z in
  match m with
  | Mlangevin | Mresponse | Mdefault => c' = advanced ce
  | Mdynprofile => c' = advanced (set_ct ce (nmul N (tau ce) (nofZ N 4000)))
  | Mhist | Mmagnus => c' = set_xfile ce
  | Mrot | Mmaglab | Mfit => exists b, c' = set_ssize (set_beta ce b) (hsize ce)
  | Mfiteff => exists b, c' = set_ssize (set_hs (set_beta ce b) x_field) (hsize ce)
  | Mhigh => c' = set_ssize ce (hsize ce)
  | Madiabatic => exists e b, c' = set_ssize (set_beta (set_hs (set_ednsty ce e) [nofZ N 1; nofZ N 0; m_omega ce]) b) (hsize ce)
  | _ => c' = ce
  end.
(** A sequence of modes, each with the configuration it was given, takes the shared configuration
    from [c] to [c'] *)
Inductive pass (a : args T) : config T -> list (mode * config T) -> config T -> Prop :=
| pass_nil c : pass a c [] c
| pass_cons m c ce c1 l c' : entry a m c ce -> left_by m ce c1 -> pass a c1 l c' -> pass a c ((m, ce) :: l) c'.
End Pass.

(** The modes that advance the offset of the shared configuration, and how many of them are in a
    sequence; --ext works on a copy *)
Definition advances (m : mode) : bool := match m with Mdynprofile | Mlangevin | Mresponse | Mdefault => true | _ => false end.
Definition count_adv {T} (l : list (mode * config T)) : nat := length (filter (fun p => advances (fst p)) l).

(** The modes that empty low-numbered log files, and how many: the Monte-Carlo modes one per
    thread, the others log 0. *)
Definition wiped {T} (conf : config T) (m : mode) : option nat :=
  match m with
  | Mmc | Mmcfull | Mmcprofile => Some (Z.to_nat (Z.min (threads conf) (mc_points conf)))
  | Madiab2 | Mrot | Mmaglab | Mfit | Mfiteff | Mhigh | Madiabatic | Mdynhist | Mtraj => Some 1
  | _ => None
  end.
(** Two modes write to files whose names contain a number printed by the program; the logs have
    other names *)
Definition apart (file : string) : Prop := forall i s,
  log_name file i <> ("dyn-hist-t-" ++ s ++ ".dat")%string /\ log_name file i <> ("hist-st-t-" ++ s ++ ".dat")%string.
