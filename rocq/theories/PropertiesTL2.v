(** Generated by tools/gen_props.py from FactsTL2.v: the property theorems. *)
From Coq Require Import List String QArith Reals Qreals Bool Arith Lra Lia Psatz.
From Verif Require Import Arith Pint Base TwoLayer Impulse Scm Api Spec Exact SpecReal
  GenTL GenTLHist GenMeta RealUnits RealTL RealGeo RealConv RealIR RealModels RealEuler FactsTL FactsTL2.
Import ListNotations.
Local Open Scope R_scope.

Theorem C41_steady_states : forall reg parse s p e F T TD N,
  tl_setup reg parse s p e (fun _ => F) -> tl_reports reg s e T TD N -> p_eta p <> 0 ->
  forall i, (S i < npoints e)%nat ->
    (T (S i) = T i /\ TD (S i) = TD i) <->
    (p_a p * (T i * T i) - p_lambda0 p * T i + F = 0 /\ TD i = T i).
Proof. exact c41_steady_states. Qed.
Print Assumptions C41_steady_states.

Theorem C41_limits_are_roots : forall reg p F T TD N L LD,
  constant_forcing_response reg p F T TD N -> p_eta p <> 0 -> Un_cv T L -> Un_cv TD LD ->
  p_a p * (L * L) - p_lambda0 p * L + F = 0 /\ LD = L.
Proof. exact c41_limits_are_roots. Qed.
Print Assumptions C41_limits_are_roots.

(** Above the threshold there is no root, hence neither a steady state nor a limit. *)
Theorem C41_no_steady_state_above_threshold : forall a lambda0 F x,
  0 < a -> lambda0 * lambda0 < 4 * a * F -> a * (x * x) - lambda0 * x + F <> 0.
Proof. exact c41_no_steady_state_above_threshold. Qed.
Print Assumptions C41_no_steady_state_above_threshold.

(** Above the threshold the upper temperature grows at least linearly in the
    number of steps ... *)
Theorem C41_runaway_lower_bound : forall reg parse s p e F T TD N,
  tl_setup reg parse s p e (fun _ => F) -> tl_reports reg s e T TD N ->
  0 < p_du p -> 0 < p_dl p -> 0 < p_dt p -> 0 <= p_eps p -> 0 <= p_eta p -> 0 < p_a p -> small_step p ->
  p_lambda0 p * p_lambda0 p < 4 * p_a p * F ->
  forall i, (i < npoints e)%nat ->
    INR i * (p_dt p * (F - p_lambda0 p * p_lambda0 p / (4 * p_a p)) / (p_C p + p_eps p * p_CD p)) <= T i.
Proof. exact c41_runaway_lower_bound. Qed.
Print Assumptions C41_runaway_lower_bound.

(** ... hence exceeds every bound. *)
Theorem C41_runaway : forall reg p F T TD N,
  constant_forcing_response reg p F T TD N ->
  0 < p_du p -> 0 < p_dl p -> 0 < p_dt p -> 0 <= p_eps p -> 0 <= p_eta p -> 0 < p_a p -> small_step p ->
  p_lambda0 p * p_lambda0 p < 4 * p_a p * F ->
  cv_infty T.
Proof. exact c41_runaway. Qed.
Print Assumptions C41_runaway.

(** The hypotheses can be met, below and above the threshold. *)
Example C41_case : forall reg, exists T TD N,
  constant_forcing_response reg (mkTLPhys 50 1200 (5/4) (1/10) 1 (4/5) 31557600) 8 T TD N /\
  small_step (mkTLPhys 50 1200 (5/4) (1/10) 1 (4/5) 31557600) /\ (5/4) * (5/4) < 4 * (1/10) * 8.
Proof. exact c41_case. Qed.

Example C41_case_steady : forall reg parse, exists s e T TD N,
  tl_setup reg parse s (mkTLPhys 50 1200 (5/4) (1/10) 1 (4/5) 31557600) e (fun _ => 0) /\ npoints e = 3%nat /\
  tl_reports reg s e T TD N /\ T 2%nat = T 1%nat.
Proof. exact c41_case_steady. Qed.
