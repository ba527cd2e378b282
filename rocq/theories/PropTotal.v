(** Theorems about panic freedom: property C60 of properties.jsonl. *)
From Coq Require Import String ZArith Reals List Arith Lia Lra.
From Verif Require Import Num Monad Spin Config Chain Langevin NumR NumF64 SpecVec SpecChain SpecTotal Samples ProofsTotal.
Import ListNotations.

(** Every query, in binary64 with any maths library and for any numeric contents (NaN included),
    returns when the sizes are sufficient and panics otherwise. *)
Theorem C60_queries : forall L n s lc q, wf n s (base lc) -> hs_ok (vars (base lc)) ->
  (returns (ask (F64 L) q lc) <-> query_needs q n s) /\
  (panics (ask (F64 L) q lc) <-> ~ query_needs q n s).
Proof. intros L n s lc q W H. exact (query_total (F64 L) n s lc W H q (quarter_F64 L)). Qed.
Print Assumptions C60_queries.

Theorem C60_queries_exact : forall n s lc q, wf n s (base lc) -> hs_ok (vars (base lc)) ->
  (returns (ask ERNum q lc) <-> query_needs q n s) /\
  (panics (ask ERNum q lc) <-> ~ query_needs q n s).
Proof. intros n s lc q W H. exact (query_total ERNum n s lc W H q quarter_ER). Qed.
Print Assumptions C60_queries_exact.

(** The same for steps and samplers, in any arithmetic and for any draws. *)
Theorem C60_actions : forall N n s (lc : lchain (num N)) a, wf n s (base lc) -> hs_ok (vars (base lc)) ->
  (returns (act N a lc) <-> action_needs a n /\ action_noise a lc) /\
  (panics (act N a lc) <-> ~ (action_needs a n /\ action_noise a lc)).
Proof. intros N n s lc a W H. exact (act_total N n s lc W H a). Qed.
Print Assumptions C60_actions.

(** Any sequence of operations on a chain whose subsystem has at least two sites. *)
Theorem C60_programs : forall L n s l (lc : lchain f64), wf n s (base lc) -> hs_ok (vars (base lc)) ->
  2 <= s -> noise_finite (F64 L) lc ->
  exists lc' : lchain f64, run (F64 L) l lc = Ok lc' /\ wf n s (base lc').
Proof.
  intros L n s l lc W H Hs Hz. destruct (run_total (F64 L) n s (quarter_F64 L) l lc W H Hs Hz) as (lc' & E & W' & _).
  exact (ex_intro _ lc' (conj E W')).
Qed.
Print Assumptions C60_programs.

Theorem C60_programs_exact : forall n s l (lc : lchain ER), wf n s (base lc) -> hs_ok (vars (base lc)) ->
  2 <= s -> noise_finite ERNum lc ->
  exists lc' : lchain ER, run ERNum l lc = Ok lc' /\ wf n s (base lc').
Proof.
  intros n s l lc W H Hs Hz. destruct (run_total ERNum n s quarter_ER l lc W H Hs Hz) as (lc' & E & W' & _).
  exact (ex_intro _ lc' (conj E W')).
Qed.
Print Assumptions C60_programs_exact.

(** A chain with NaN contents meets the hypotheses; noise is finite for gamma = 1, dt = 0.02, beta = 2. *)
Definition nan_chain : lchain f64 :=
  let c0 := mkConfig 2 2 (f_ofZ 256) (f_lit 2 2) 2 (f_ofZ 0) 2 (f_ofZ 10) (f_ofZ 1) [] [f_ofZ 1; f_ofZ 0; f_ofZ 0]
    (f_ofZ 0) (f_ofZ 0) 2 (f_ofZ 0) "log"%string false 0 (f_ofZ 2) 1000 (f_ofZ 0) Dstaticfield true in
  let nan := SpecFloat.S754_nan in
  mkL (mkChain [mk3 nan nan nan; mk3 (f_ofZ 1) nan (f_ofZ 1)] [mk3 nan nan nan; mk3 nan nan nan]
         [mk3 nan nan nan; mk3 (f_ofZ 1) (f_ofZ 0) (f_ofZ 0)] nan c0 true) (f_ofZ 1).
Example C60_case : forall L, wf 2 2 (base nan_chain) /\ hs_ok (vars (base nan_chain)) /\ noise_finite (F64 L) nan_chain.
Proof.
  intro L. split; [constructor; cbn; auto; lia|]. split; [intros _; cbn; lia|]. vm_compute. reflexivity.
Qed.
(** The smallest chains: one site cannot be stepped, but it can be sampled. *)
Example C60_small : forall N (lc : lchain (num N)) d, wf 1 1 (base lc) -> hs_ok (vars (base lc)) ->
  panics (act N Aupdate lc) /\ returns (act N (Aplain d) lc).
Proof.
  intros N lc d W H. split.
  - apply (C60_actions N 1 1 lc Aupdate W H). cbn. lia.
  - apply (C60_actions N 1 1 lc (Aplain d) W H). cbn. lia.
Qed.
