(** Theorems about the power spectrum: property C59.
    The transform of the exact number type is the exact discrete Fourier transform. *)
From Coq Require Import Reals List ZArith Lra Lia.
From Verif Require Import Num Monad NumR Config Chain SpecVec SpecChain SpecFFT Samples ProofsFFT.
Import ListNotations.
Local Open Scope R_scope.

(** * C59 *)
(** Even length: the modes 0..n-1 rotated by n/2 *)
Theorem C59_even : forall n s sc, wf n s sc -> (n mod 2 = 0)%nat ->
  energy_spectrum ERNum (fin sc) = Ok (map (fun j => Some (mode n sc ((j + n / 2) mod n))) (seq 0 n)).
Proof. exact spectrum_even. Qed.
Print Assumptions C59_even.
(** Odd length: mode n-1 is overwritten and the last entry is 0 *)
Theorem C59_odd : forall n s sc, wf n s sc -> (n mod 2 = 1)%nat -> (3 <= n)%nat ->
  energy_spectrum ERNum (fin sc) =
  Ok (map Some (map (mode n sc) (seq (n / 2) (n / 2)) ++ map (mode n sc) (seq 0 (n / 2)) ++ [0])).
Proof. exact spectrum_odd. Qed.
Print Assumptions C59_odd.
(** Total weight (Parseval) *)
Theorem C59_sum : forall n s sc, wf n s sc -> n <> 1%nat -> unit_spins sc ->
  exists ek, energy_spectrum ERNum (fin sc) = Ok (map Some ek) /\ length ek = n /\
  fold_right Rplus 0 ek = INR n * INR n - (if (n mod 2 =? 0)%nat then 0 else mode n sc (n - 1)).
Proof. exact spectrum_sum. Qed.
Print Assumptions C59_sum.
Theorem C59_parseval : forall n s sc, wf n s sc -> unit_spins sc -> Rsum n (mode n sc) = INR n * INR n.
Proof. exact mode_total. Qed.
Print Assumptions C59_parseval.
Example C59_case_even : wf 4 4 (ex_chain 4 Dnone) /\ unit_spins (ex_chain 4 Dnone).
Proof. split; [apply (ex_wf 4); lia|apply ex_unit]. Qed.
(** The lost weight need not vanish *)
Example C59_case_odd : wf 3 3 three_chain /\ unit_spins three_chain /\ mode 3 three_chain (3 - 1) = 4.
Proof. split; [exact three_wf|]. split; [exact three_unit|exact three_mode]. Qed.
