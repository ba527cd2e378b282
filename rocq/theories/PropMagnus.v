(** Properties of the Magnus samplers: the exact energy changes (C71). *)
From Coq Require Import Reals Lra Lia List ZArith Arith.
From Verif Require Import Num Monad NumR Spin Config Chain SpecVec SpecChain SpecMC SpecMagnus Samples
  ProofsMagnus ProofsMagnus2.
Local Open Scope R_scope.

(** * C71 *)
(** Second order: exchange energy, terms of order 1/omega and 1/omega^2 of the ring, and one slip *)
Theorem C71_second : forall n s sc, wf n s sc -> (3 <= n)%nat -> tau (vars sc) <> 0 ->
  uses_change n (second_order_change n s) (metropolis_update_mag_full ERNum) sc.
Proof. exact magfull_uses. Qed.
Print Assumptions C71_second.
(** First order: exchange energy and omega times the bond terms, halved at the subsystem's ends *)
Theorem C71_first : forall n s sc, wf n s sc -> (3 <= n)%nat -> tau (vars sc) <> 0 ->
  uses_change n (first_order_change n s) (metropolis_update_magnus ERNum) sc.
Proof. exact magnus_uses. Qed.
Print Assumptions C71_first.
Theorem C71_lab : forall n s sc, wf n s sc -> (2 <= n)%nat -> tau (vars sc) <> 0 ->
  uses_change n (lab_change n) (metropolis_update_maglab ERNum) sc.
Proof. exact lab_uses. Qed.
Print Assumptions C71_lab.
(** Under a fast drive two of them turn into plain sampling of the exchange energy *)
Theorem C71_fast_second : forall n s c i v,
  fast_limit (fun t => second_order_change n s (at_period c t) i v) (change (fun S => exchange_energy n S (J_ c)) c i v).
Proof. exact fast_full. Qed.
Print Assumptions C71_fast_second.
Theorem C71_fast_lab : forall n c i v,
  fast_limit (fun t => lab_change n (at_period c t) i v) (change (fun S => exchange_energy n S (J_ c)) c i v).
Proof. exact fast_lab. Qed.
Print Assumptions C71_fast_lab.
(** The first-order one does not: its changes grow beyond every bound *)
Theorem C71_fast_first : forall n s c i v, (i < s)%nat -> change (fun S => ends_first n s S (J_ c) i) c i v <> 0 ->
  fast_blowup (fun t => first_order_change n s (at_period c t) i v).
Proof. exact fast_first. Qed.
Print Assumptions C71_fast_first.
Example C71_case : let c := ex_chain 3 Dxyplane in wf 4 3 c /\ tau (vars c) <> 0 /\
  change (fun S => ends_first 4 3 S (J_ c) 1) c 1 (mk3 0 0 1) <> 0.
Proof. intro c. split; [apply (ex_wf 3); lia|]. split; [cbn; lra|]. exact first_case. Qed.
Example C71_slip_case : let c := ex_chain 3 Dxyplane in change (fun S => slip 4 S (J_ c) 1) c 1 (mk3 1 0 0) <> 0.
Proof. intro c. unfold change, slip, pull_on, before_of, after_of. cbn. lra. Qed.
