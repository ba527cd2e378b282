(** Theorems about the temperature fits and solve_beta: properties C40-C42. *)
From Coq Require Import String SpecFloat Reals ZArith List Lra Lia.
From Verif Require Import Num Monad NumR NumF64 Config Chain Fit SpecTotal SpecFit ProofsTotal ProofsFit ProofsFitR.
Import ListNotations.
Local Open Scope R_scope.

(** * C40 *)
(** In binary64, whatever the maths library and the random numbers do, each search needs exactly 13
    halvings, does not panic, and returns a number strictly between its initial ends 0.01 (or 0.0001)
    and 5. *)
Theorem C40_f64 : forall L s fuel rng conf, fit_ok (F64 L) s conf ->
  ((13 <= fuel)%nat -> exists b : f64, find_of (F64 L) s fuel rng conf = Ok (b, fit_conf s conf) /\
     SFltb (f_lit 1 (low_dec s)) b = true /\ SFltb b (f_ofZ 5) = true) /\
  ((fuel < 13)%nat -> find_of (F64 L) s fuel rng conf = OutOfFuel).
Proof. intros L s fuel rng conf. exact (find_total (F64 L) s fuel rng conf (quarter_F64 L) (tree_F64 L s)). Qed.
Print Assumptions C40_f64.
(** The same in exact arithmetic *)
Theorem C40_exact : forall s fuel rng conf, fit_ok ERNum s conf ->
  ((13 <= fuel)%nat -> exists b, find_of ERNum s fuel rng conf = Ok (Some b, fit_conf s conf) /\ low_end s < b < 5) /\
  ((fuel < 13)%nat -> find_of ERNum s fuel rng conf = OutOfFuel).
Proof. exact find_total_ER. Qed.
Print Assumptions C40_exact.
(** For an arbitrary configuration the search still ends: the only other outcome is a panic of one
    of its estimator calls. *)
Theorem C40_ends : forall L s fuel rng conf,
  (forall k b, energy_at (F64 L) s conf b (rng k) <> OutOfFuel) -> (13 <= fuel)%nat ->
  (exists b : f64, find_of (F64 L) s fuel rng conf = Ok (b, fit_conf s conf) /\
     SFltb (f_lit 1 (low_dec s)) b = true /\ SFltb b (f_ofZ 5) = true) \/
  (exists p k b, find_of (F64 L) s fuel rng conf = Panic p /\ energy_at (F64 L) s conf b (rng k) = Panic p).
Proof. intros L s fuel rng conf. exact (find_terminates (F64 L) s fuel rng conf (tree_F64 L s)). Qed.
Print Assumptions C40_ends.

(** The program's own default sizes *)
Definition fit_sample : config f64 :=
  mkConfig 512 8 (f_ofZ 256) (f_lit 2 2) 2 (f_ofZ 0) 2 (f_ofZ 10) (f_ofZ 1) [f_ofZ 0; f_ofZ 0; f_ofZ 1] [f_ofZ 1; f_ofZ 0; f_ofZ 0]
    (f_lit 1 3) (f_ofZ 0) 2 (f_lit (-66) 2) "log"%string false 0 (f_ofZ 2) 1000 (f_ofZ 0) Dxyplane true.
Example C40_case : forall L s, fit_ok (F64 L) s fit_sample.
Proof. intros L s. destruct s; vm_compute; repeat split; try lia; try discriminate. Qed.

(** * C41 *)
(** The search on an arbitrary, possibly noisy estimator: if the comparisons with the target that it
    asks for are right outside a window of half-width d around bstar, the result is within 0.0005 + d of bstar. *)
Theorem C41_noisy : forall s fuel rng (conf : config ER) bstar d r c',
  (forall k b e, asked s conf rng k b -> energy_at ERNum s conf (Some b) (rng k) = Ok e ->
     (er_ltb (ednsty conf) e = true -> b <= bstar + d) /\ (er_ltb (ednsty conf) e = false -> bstar - d <= b)) ->
  low_end s <= bstar + d -> bstar - d <= 5 ->
  find_of ERNum s fuel rng conf = Ok (r, c') -> exists b, r = Some b /\ Rabs (b - bstar) <= 1 / 2000 + d.
Proof. exact find_acc. Qed.
Print Assumptions C41_noisy.
(** If no estimate asked for exceeds the target, the result sits at the lower end; if all
    do, at the upper end. *)
Theorem C41_unreachable : forall s fuel rng (conf : config ER) r c',
  find_of ERNum s fuel rng conf = Ok (r, c') ->
  ((forall k b e, asked s conf rng k b -> energy_at ERNum s conf (Some b) (rng k) = Ok e -> er_ltb (ednsty conf) e = false) ->
     exists b, r = Some b /\ Rabs (b - low_end s) <= 1 / 2000) /\
  ((forall k b e, asked s conf rng k b -> energy_at ERNum s conf (Some b) (rng k) = Ok e -> er_ltb (ednsty conf) e = true) ->
     exists b, r = Some b /\ Rabs (b - 5) <= 1 / 2000).
Proof. exact find_unreachable. Qed.
Print Assumptions C41_unreachable.
(** A target of NaN is never exceeded, so any search with a NaN target ends at the lower end. *)
Example C41_nan_target : forall s fuel rng (conf : config ER) r c', ednsty conf = None ->
  find_of ERNum s fuel rng conf = Ok (r, c') -> exists b, r = Some b /\ Rabs (b - low_end s) <= 1 / 2000.
Proof.
  intros s fuel rng conf r c' E H. apply (C41_unreachable s fuel rng conf r c' H). intros. rewrite E. reflexivity.
Qed.
(** The bisection that all five searches run ([C41_search_is_bisect]), on any strictly decreasing
    function of the temperature that reaches the target. *)
Theorem C41_search_is_bisect : forall s fuel rng (conf : config ER),
  find_of ERNum s fuel rng conf =
  (let* b := bisect ERNum (fun k b => energy_at ERNum s conf b (rng k)) (ednsty conf) (Some (low_end s)) fuel in
   Ok (b, fit_conf s conf)).
Proof. exact find_is_bisect. Qed.
Print Assumptions C41_search_is_bisect.
Theorem C41_bisect : forall s (energy : R -> R) tgt bstar fuel, (13 <= fuel)%nat ->
  (forall x y, low_end s <= x <= 5 -> low_end s <= y <= 5 -> x < y -> energy y < energy x) ->
  low_end s <= bstar <= 5 -> energy bstar = tgt ->
  exists b, bisect ERNum (fun _ b => match b with Some b => Ok (Some (energy b)) | None => Ok None end) (Some tgt) (Some (low_end s)) fuel = Ok (Some b) /\
    low_end s < b < 5 /\ Rabs (b - bstar) <= 1 / 2000.
Proof. exact bisect_monotone. Qed.
Print Assumptions C41_bisect.
Example C41_case : exists b, bisect ERNum (fun _ b => match b with Some b => Ok (Some (1 - b)) | None => Ok None end) (Some (-2)) (Some (1 / 100)) 13 = Ok (Some b) /\
  1 / 100 < b < 5 /\ Rabs (b - 3) <= 1 / 2000.
Proof. apply (C41_bisect Sbeta (fun b => 1 - b)); cbn; intros; try lra; lia. Qed.

(** * C42 *)
(** Termination for every energy density above -1, with a bound on the number of iterations that
    does not depend on anything else; the result solves the Langevin relation e = 1/b - coth x for
    some x within 0.01 of b. *)
Theorem C42_solves : forall e, -1 < e -> exists b,
  (forall fuel, (solve_fuel e <= fuel)%nat -> solve_beta ERNum fuel (Some e) = Ok (Some b)) /\
  0 < b /\ exists x, 0 < x /\ Rabs (b - x) <= 1 / 100 /\ e = / b - / tanh x.
Proof. exact solve_beta_ok. Qed.
Print Assumptions C42_solves.
(** Hence for b at least 1 the energy of the returned temperature is within 0.02 of the target. *)
Theorem C42_close : forall e b fuel, -1 < e -> solve_beta ERNum fuel (Some e) = Ok (Some b) -> 1 <= b ->
  Rabs ((/ b - / tanh b) - e) <= 2 / 100.
Proof. exact solve_beta_close. Qed.
Print Assumptions C42_close.
(** At e = 0 the stopping rule is too loose: the energy of the result is below -0.05. *)
Theorem C42_loose : exists b, (forall fuel, (2002 <= fuel)%nat -> solve_beta ERNum fuel (Some 0) = Ok (Some b)) /\
  0 < b /\ / b - / tanh b < - (5 / 100).
Proof. exact solve_beta_zero. Qed.
Print Assumptions C42_loose.
(** The bound -1 is sharp: at the ground state energy the loop never ends. *)
Theorem C42_ground : forall fuel, solve_beta ERNum fuel (Some (-1)) = OutOfFuel.
Proof. exact solve_beta_diverges. Qed.
Print Assumptions C42_ground.
Example C42_case : exists b, (forall fuel, (2002 <= fuel)%nat -> solve_beta ERNum fuel (Some (-66 / 100)) = Ok (Some b)) /\ 0 < b /\
  exists x, 0 < x /\ Rabs (b - x) <= 1 / 100 /\ -66 / 100 = / b - / tanh x.
Proof.
  destruct (C42_solves (-66 / 100) ltac:(lra)) as (b & H & R). exists b. split; [|exact R]. intros fuel F. apply H.
  unfold solve_fuel. replace (100 / (1 + -66 / 100)) with (5000 / 17) by field.
  replace (up (5000 / 17)) with 295%Z by (apply tech_up; lra). change (Z.to_nat 295) with 295%nat. apply Nat.max_lub; lia.
Qed.
