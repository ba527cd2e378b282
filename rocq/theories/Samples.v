(** Concrete data used to show that the hypotheses of the theorems can be met. *)
From Coq Require Import Reals Lra Lia List ZArith Arith String.
From Verif Require Import Num NumR Config Chain SpecVec SpecChain.
Import ListNotations.
Local Open Scope R_scope.

Definition ex_conf (n s : Z) (dr : drive_type) : config R :=
  mkConfig n s 256 (2/100) 2 0 2 10 (1/2) [0; 0; 1/4] [1; 0; -1] (1/1000) 0 2 (-66/100)
    "log"%string false 0 (288/100) 1000 (9/10) dr true.

(** Four sites, unit spins, anisotropic couplings *)
Definition ex_chain (s : Z) (dr : drive_type) : chain R :=
  mkChain [mk3 1 1 (1/2); mk3 1 (3/4) (1/2); mk3 2 1 (1/2); mk3 1 1 (-1/2)]
          [mk3 1 0 (-3/4); mk3 1 0 (-3/4); mk3 0 0 (1/4); mk3 0 0 (1/4)]
          [mk3 1 0 0; mk3 0 (3/5) (4/5); mk3 (3/5) 0 (4/5); mk3 0 0 1]
          (-1) (ex_conf 4 s dr) true.

Lemma ex_wf s dr : (s <= 4)%nat -> wf 4 s (ex_chain (Z.of_nat s) dr).
Proof. intro H. constructor; cbn; auto; lia. Qed.

Lemma ex_unit s dr : unit_spins (ex_chain s dr).
Proof. unfold unit_spins; cbn. repeat constructor; unfold unit3, dot; cbn; lra. Qed.

Lemma ex_drive s dr : drive_ok (vars (ex_chain s dr)).
Proof. destruct dr; unfold drive_ok; cbn; (lra || lia || exact I). Qed.

(** A configuration with two runs of four sites, over any numbers *)
Definition ex_runs (N : NumOps) (x dt tmax tau : num N) (st : bool) : config (num N) :=
  mkConfig 4 2 tmax dt 2 x 2 tau (nofZ N 1) [nofZ N 0; nofZ N 0; nofZ N 1] [nofZ N 0; nofZ N 0; nofZ N 0] (nlit N 1 3) (nofZ N 0) 2
    (nlit N 66 2) "log"%string st 5 (nlit N 288 2) 1000 (nlit N 9 1) Dxyplane true.
(** A chain with that configuration at time [x] *)
Definition ex_at (N : NumOps) (x dt tmax tau : num N) (st : bool) : chain (num N) :=
  let v := mk3 (nofZ N 1) (nofZ N 0) (nofZ N 0) in
  mkChain [v; v; v; v] [v; v; v; v] [v; v; v; v] x (ex_runs N x dt tmax tau st) true.
Lemma ex_at_wf N x dt tmax tau st : wf 4 2 (ex_at N x dt tmax tau st).
Proof. constructor; cbn; auto; lia. Qed.
Lemma ex_at_hs N x dt tmax tau st : hs_ok (vars (ex_at N x dt tmax tau st)).
Proof. intros _. cbn. lia. Qed.
