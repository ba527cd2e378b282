(** Theorems about the dynamical step: properties C20 to C27.
    [fin sc] is the chain [sc] of real data seen in exact arithmetic with NaN.  A hypothesis
    `update ... = Ok (fin sc')` says that no NaN was produced, i.e. that no local field vanished
    on the way; [C20_strong_field] gives a condition under which this holds for ever. *)
From Coq Require Import Reals List ZArith Lra Lia.
From Verif Require Import Num Monad NumR Spin Config Chain SpecVec SpecChain Samples
  ProofsSpin ProofsChain ProofsEnergy ProofsDrive ProofsDyn2 ProofsDyn4.
Import ListNotations.
Local Open Scope R_scope.

(** Runs of every length without NaN exist for every drive *)
Example dyn_case : forall s dr k, (s <= 4)%nat ->
  wf 4 s (strong_chain (Z.of_nat s) dr) /\ drive_ok (vars (strong_chain (Z.of_nat s) dr)) /\
  unit_spins (strong_chain (Z.of_nat s) dr) /\
  exists sc', iterM (update ERNum) k (fin (strong_chain (Z.of_nat s) dr)) = Ok (fin sc') /\ unit_spins sc'.
Proof.
  intros s dr k H. split; [apply strong_wf; exact H|]. split; [apply ex_drive|]. split; [apply ex_unit|].
  apply strong_runs; exact H.
Qed.

(** * C20 *)
(** Any number type, including binary64: only spins and clock change *)
Theorem C20_frame : forall (N : NumOps) n s k (sc : chain (num N)), wf n s sc -> (2 <= n)%nat -> hs_ok (vars sc) ->
  exists sp', iterM (update N) k sc = Ok (mkChain (j_couple sc) (static_h sc) sp'
     (Nat.iter k (fun x => nadd N x (c_dt (vars sc))) (t sc)) (vars sc) (has_file sc)) /\
     length sp' = n.
Proof. exact iter_update_frame. Qed.
Print Assumptions C20_frame.
Theorem C20_frame_no_field : forall (N : NumOps) n s k (sc : chain (num N)), wf n s sc -> (2 <= n)%nat -> hs_ok (vars sc) ->
  exists sp', iterM (update_no_field N) k sc = Ok (mkChain (j_couple sc) (static_h sc) sp'
     (Nat.iter k (fun x => nadd N x (c_dt (vars sc))) (t sc)) (vars sc) (has_file sc)) /\
     length sp' = n.
Proof. exact iter_update_nf_frame. Qed.
Print Assumptions C20_frame_no_field.
(** Whatever the chain contains (NaN included), a finite spin after a step is a unit vector *)
Theorem C20_unit : forall n s k (c c' : chain (num ERNum)), wf n s c -> (2 <= n)%nat -> (n mod 2 = 0)%nat ->
  hs_ok (vars c) -> (1 <= k)%nat -> iterM (update ERNum) k c = Ok c' ->
  forall v, In (fin3 v) (spins c') -> unit3 v.
Proof. exact iter_unit. Qed.
Print Assumptions C20_unit.
Theorem C20_unit_no_field : forall n s k (c c' : chain (num ERNum)), wf n s c -> (2 <= n)%nat -> (n mod 2 = 0)%nat ->
  hs_ok (vars c) -> (1 <= k)%nat -> iterM (update_no_field ERNum) k c = Ok c' ->
  forall v, In (fin3 v) (spins c') -> unit3 v.
Proof. exact iter_nf_unit. Qed.
Print Assumptions C20_unit_no_field.
(** Static fields stronger than couplings and drive: all spins stay finite unit vectors for ever *)
Theorem C20_strong_field : forall n s sc Jm, wf n s sc -> (2 <= n)%nat -> drive_ok (vars sc) -> unit_spins sc ->
  0 <= Jm ->
  (forall i, (i < n)%nat -> Rabs (vx (J_ sc i)) <= Jm /\ Rabs (vy (J_ sc i)) <= Jm /\ Rabs (vz (J_ sc i)) <= Jm) ->
  (forall i, (i < n)%nat -> 2 * Jm + drive_amp (vars sc) < norm (h_ sc i)) ->
  forall k, exists sc', iterM (update ERNum) k (fin sc) = Ok (fin sc') /\ unit_spins sc'.
Proof. exact strong_field. Qed.
Print Assumptions C20_strong_field.

(** * C21 *)
Theorem C21_energy_conserved : forall n s sc k sc', wf n s sc -> (2 <= n)%nat -> (n mod 2 = 0)%nat ->
  drive_ok (vars sc) -> unit_spins sc -> undriven (vars sc) ->
  iterM (update ERNum) k (fin sc) = Ok (fin sc') ->
  total_energy2 ERNum (fin sc') = total_energy2 ERNum (fin sc) /\
  total_energy ERNum (fin sc') = total_energy ERNum (fin sc).
Proof. exact conserve_total2. Qed.
Print Assumptions C21_energy_conserved.

(** * C22 *)
Theorem C22_work : forall n s sc sc', wf n s sc -> (2 <= n)%nat -> (n mod 2 = 0)%nat -> drive_ok (vars sc) ->
  unit_spins sc -> update ERNum (fin sc) = Ok (fin sc') ->
  exists e e', total_energy2 ERNum (fin sc) = Ok (Some e) /\ total_energy2 ERNum (fin sc') = Ok (Some e') /\
  INR n * e' - INR n * e =
    Rsum s (fun i => dot (vsub (drive_field (vars sc) (t sc + c_dt (vars sc)))
                               (drive_field (vars sc) (t sc + c_dt (vars sc) / 2))) (S_ sc' i)) +
    Rsum s (fun i => dot (vsub (drive_field (vars sc) (t sc + c_dt (vars sc) / 2))
                               (drive_field (vars sc) (t sc))) (S_ sc i)).
Proof. exact work. Qed.
Print Assumptions C22_work.

(** * C23 *)
Theorem C23_reversible : forall n s k sc sc', wf n s sc -> (2 <= n)%nat -> (n mod 2 = 0)%nat -> drive_ok (vars sc) ->
  unit_spins sc -> iterM (update ERNum) k (fin sc) = Ok (fin sc') ->
  iterM (update ERNum) k (fin (reversed sc')) = Ok (fin (reversed sc)).
Proof. exact reverse. Qed.
Print Assumptions C23_reversible.

(** * C24 *)
Theorem C24_equation_of_motion : forall n s sc, wf n s sc -> (2 <= n)%nat -> (n mod 2 = 0)%nat ->
  drive_ok (vars sc) -> unit_spins sc ->
  exists C : R -> nat -> vec,
    (forall d sc', update ERNum (fin (with_dt sc d)) = Ok (fin sc') ->
       forall i, (i < n)%nat -> S_ sc' i = C d i) /\
    (forall i, (i < n)%nat -> has_velocity (fun d => C d i) 0 (cross (S_ sc i) (local_field n s sc i))) /\
    ((forall i, (i < n)%nat -> local_field n s sc i <> vzero) ->
     exists del, 0 < del /\ forall d, Rabs d < del -> exists sc', update ERNum (fin (with_dt sc d)) = Ok (fin sc')).
Proof. exact consistent. Qed.
Print Assumptions C24_equation_of_motion.
Example C24_case : forall i, (i < 4)%nat -> local_field 4 2 (ex_chain 2 Dnone) i <> vzero.
Proof.
  intros [|[|[|[|i]]]] Hi E; try lia; apply (f_equal vz) in E; revert E;
    unfold local_field, B_, S_, J_, h_, at_; cbn; lra.
Qed.

(** * C25 *)
(** Even sites see three sites in each direction, odd sites two *)
Theorem C25_locality : forall (N : NumOps) n s (sc1 sc2 sc1' sc2' : chain (num N)) p r,
  wf n s sc1 -> wf n s sc2 -> (2 <= n)%nat -> (n mod 2 = 0)%nat -> hs_ok (vars sc1) ->
  vars sc1 = vars sc2 -> t sc1 = t sc2 -> (p < n)%nat ->
  r = (if p mod 2 =? 0 then 3%Z else 2%Z)%nat ->
  (forall d, (- r <= d <= r)%Z -> let q := Z.to_nat ((Z.of_nat p + d) mod Z.of_nat n) in
     nth_error (spins sc1) q = nth_error (spins sc2) q) ->
  (forall d, (- r <= d < r)%Z -> let q := Z.to_nat ((Z.of_nat p + d) mod Z.of_nat n) in
     nth_error (j_couple sc1) q = nth_error (j_couple sc2) q) ->
  (forall d, (- r < d < r)%Z -> let q := Z.to_nat ((Z.of_nat p + d) mod Z.of_nat n) in
     nth_error (static_h sc1) q = nth_error (static_h sc2) q) ->
  update N sc1 = Ok sc1' -> update N sc2 = Ok sc2' ->
  nth_error (spins sc1') p = nth_error (spins sc2') p.
Proof. exact local_update. Qed.
Print Assumptions C25_locality.

(** * C26 *)
Theorem C26_free_spins : forall n s sc, wf n s sc -> (2 <= n)%nat -> (n mod 2 = 0)%nat -> drive_ok (vars sc) ->
  unit_spins sc -> (forall i, (i < n)%nat -> J_ sc i = vzero) ->
  (forall i, (i < n)%nat -> B_ sc s (t sc + c_dt (vars sc) / 2) i <> vzero) ->
  exists sc', update ERNum (fin sc) = Ok (fin sc') /\
    forall i, (i < n)%nat ->
      fin3 (S_ sc' i) = rotate ERNum (fin3 (S_ sc i))
        (fin3 (vscale (-1) (B_ sc s (t sc + c_dt (vars sc) / 2) i))) (Some (c_dt (vars sc))).
Proof. exact free_update. Qed.
Print Assumptions C26_free_spins.
Definition free_chain : chain R :=
  mkChain [vzero; vzero] [mk3 0 0 1; mk3 2 0 0] [mk3 1 0 0; mk3 0 1 0] 0 (ex_conf 2 0 Dnone) true.
Example C26_case : wf 2 0 free_chain /\ unit_spins free_chain /\
  (forall i, (i < 2)%nat -> J_ free_chain i = vzero) /\
  (forall i, (i < 2)%nat -> B_ free_chain 0 (t free_chain + c_dt (vars free_chain) / 2) i <> vzero).
Proof.
  split; [constructor; cbn; auto; lia|]. split; [unfold unit_spins; cbn; repeat constructor; unfold unit3, dot; cbn; ring|].
  split.
  - intros [|[|i]] H; try reflexivity; lia.
  - intros [|[|i]] H E; try lia; [apply (f_equal vz) in E|apply (f_equal vx) in E]; cbn in E; lra.
Qed.

(** * C27 *)
Theorem C27_odd_last_frozen : forall (N : NumOps) n s k (sc sc' : chain (num N)), wf n s sc -> (3 <= n)%nat ->
  (n mod 2 = 1)%nat -> hs_ok (vars sc) -> iterM (update N) k sc = Ok sc' ->
  nth_error (spins sc') (n - 1) = nth_error (spins sc) (n - 1) /\
  iterM (update N) k (without_last n s sc) = Ok (without_last n s sc').
Proof. exact odd_iter. Qed.
Print Assumptions C27_odd_last_frozen.
Theorem C27_energy_conservation_refuted : exists sc sc' e e', wf 3 0 sc /\ unit_spins sc /\ drive (vars sc) = Dnone /\
  update ERNum (fin sc) = Ok (fin sc') /\
  total_energy2 ERNum (fin sc) = Ok (Some e) /\ total_energy2 ERNum (fin sc') = Ok (Some e') /\ e <> e'.
Proof. exact odd_not_conserved. Qed.
Print Assumptions C27_energy_conservation_refuted.
