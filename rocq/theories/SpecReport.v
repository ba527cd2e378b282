(** Vocabulary for the result files of the fit modes (C76). *)
From Coq Require Import String Reals ZArith List Arith.
From Verif Require Import Num Monad NumR Config Chain Fit Files Runs Main SpecFit SpecSampling SpecMain.
Import ListNotations.
Local Open Scope string_scope.
Local Open Scope list_scope.

(** The file each mode reports to *)
Definition result_file (m : mode) : option string :=
  match m with
  | Madiab2 | Madiabatic => Some "beta.dat"
  | Mrot => Some "betat-rot.dat"
  | Mmaglab => Some "betat-maglab.dat"
  | Mfit | Mfiteff | Mhigh => Some "betat.dat"
  | _ => None
  end.
(** The entries of a sequence of modes that report to file [n] *)
Definition reports {C} (n : string) (l : list (mode * C)) : list (mode * C) :=
  filter (fun p => match result_file (fst p) with Some k => String.eqb k n | None => false end) l.
(** The lines of a file; a missing file has none *)
Definition lines_of {T} (f : fs T) (n : string) : list (line T) := match contents f n with Some l => l | None => [] end.

(** Search and observables of the modes that fit a temperature to a given energy density *)
Definition fit_of (m : mode) : option (search * obs_kind) :=
  match m with
  | Mrot => Some (Srot, Orot) | Mmaglab => Some (Smaglab, Omaglab)
  | Mfit => Some (Sbeta, Omain) | Mfiteff => Some (Sbetah, Oh)
  | _ => None
  end.

Section Report.
Context (N : NumOps).
Notation T := (num N).
(** The line mode [m] writes when it is given configuration [c] *)
Inductive line_of (fuel : nat) (w : world N) (m : mode) (c : config T) : line T -> Prop :=
| l_fit q o b r0 r1 r2 r3 c' :
    fit_of m = Some (q, o) ->
    find_of N q fuel (r_draws N (w_rng N w m)) c = Ok (b, fit_conf q c) ->
    obs_of N o (w_obs N w m) (set_beta (fit_conf q c) b) = Ok (r0, r1, r2, r3, c') ->
    line_of fuel w m c (numbers [tau c; ednsty c; b; r0; r1; r2; r3])
| l_high r0 r1 r2 r3 c' :
    m = Mhigh -> get_obsh N (w_obs N w m) c = Ok (r0, r1, r2, r3, c') ->
    line_of fuel w m c (numbers [tau c; ednsty c; beta c; r0; r1; r2; r3])
| l_adiab2 b :
    m = Madiab2 -> find_of N Sbeta2 fuel (r_draws N (w_rng N w m)) c = Ok (b, c) ->
    line_of fuel w m c (numbers [tau c; beta c; b])
| l_adiabatic e b f f' r0 r1 r2 r3 c1 c2 :
    m = Madiabatic -> trajectory_mean_e N (w_rng N w m) c f = Ok (e, f') ->
    c1 = set_hs (set_ednsty c e) [nofZ N 1; nofZ N 0; m_omega N c] ->
    find_of N Sbeta fuel (fun k => r_draws N (w_rng N w m) (num_runs N c + k)) c1 = Ok (b, fit_conf Sbeta c1) ->
    obs_of N Omain (w_obs N w m) (set_beta (fit_conf Sbeta c1) b) = Ok (r0, r1, r2, r3, c2) ->
    line_of fuel w m c (numbers [tau c; beta c; b; r0; r1; r2; r3; e]).
End Report.
