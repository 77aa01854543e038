(** Generated by tools/gen_props.py from FactsStep.v: the property theorems. *)
From Coq Require Import List String QArith Reals Qreals Bool Arith Lra Lia Psatz.
From Verif Require Import Arith Pint Base TwoLayer Impulse Scm Api Spec Exact SpecReal SpecStep
  GenTL GenTLHist GenIR GenIRHist GenMeta RealUnits RealTL RealGeo RealConv RealIR RealModels RealEuler RealBox RealEquiv RealStep
  FactsTL FactsTL2 FactsConv FactsStep.
Import ListNotations.
Local Open Scope R_scope.

Theorem C58_response_formula : forall reg parse s p e F T TD N q1 q2 d1 d2,
  tl_setup reg parse s p e F -> positive_tl p -> tl_converts reg s q1 q2 d1 d2 ->
  tl_reports reg s e T TD N ->
  forall n, (S n < npoints e)%nat ->
    T (S n) = sum_f_R0 (fun k => p_dt p * F k *
      (q1 / d1 * (1 - p_dt p / d1) ^ (n - k) + q2 / d2 * (1 - p_dt p / d2) ^ (n - k))) n.
Proof. exact c58_response_formula. Qed.
Print Assumptions C58_response_formula.

Theorem C58_step_response : forall reg parse s p e F T TD N q1 q2 d1 d2,
  tl_setup reg parse s p e (fun _ => F) -> positive_tl p -> tl_converts reg s q1 q2 d1 d2 ->
  tl_reports reg s e T TD N ->
  forall n, (n < npoints e)%nat ->
    T n = F * (q1 * (1 - (1 - p_dt p / d1) ^ n) + q2 * (1 - (1 - p_dt p / d2) ^ n)).
Proof. exact c58_step_response. Qed.
Print Assumptions C58_step_response.

(** Below the limit: the equilibrium of C17, now for every step up to the limit. *)
Theorem C58_below_the_limit : forall reg s p q1 q2 d1 d2 F T TD N,
  tl_values reg s p -> positive_tl p -> tl_converts reg s q1 q2 d1 d2 ->
  constant_forcing_response reg p F T TD N -> p_dt p < 2 * d1 ->
  Un_cv T (F / p_lambda0 p) /\ Un_cv TD (F / p_lambda0 p) /\ Un_cv N 0.
Proof. exact c58_below_the_limit. Qed.
Print Assumptions C58_below_the_limit.

(** Beyond it: both temperatures exceed every bound under every constant
    forcing but zero. *)
Theorem C58_beyond_the_limit : forall reg s p q1 q2 d1 d2 F T TD N,
  tl_values reg s p -> positive_tl p -> tl_converts reg s q1 q2 d1 d2 ->
  constant_forcing_response reg p F T TD N -> F <> 0 -> 2 * d1 < p_dt p ->
  cv_infty (fun n => Rabs (T n)) /\ cv_infty (fun n => Rabs (TD n)).
Proof. exact c58_beyond_the_limit. Qed.
Print Assumptions C58_beyond_the_limit.

(** At the limit it swings for ever, by twice the fast part of the equilibrium. *)
Theorem C58_at_the_limit : forall reg s p q1 q2 d1 d2 F T TD N,
  tl_values reg s p -> positive_tl p -> tl_converts reg s q1 q2 d1 d2 ->
  constant_forcing_response reg p F T TD N -> p_dt p = 2 * d1 ->
  Un_cv (fun n => T (2 * n)%nat) (F / p_lambda0 p - F * q1) /\
  Un_cv (fun n => T (S (2 * n))) (F / p_lambda0 p + F * q1) /\ 0 < q1.
Proof. exact c58_at_the_limit. Qed.
Print Assumptions C58_at_the_limit.

(** So the limit is exactly twice the fast timescale. *)
Theorem C58_converges_iff : forall reg s p q1 q2 d1 d2 F T TD N,
  tl_values reg s p -> positive_tl p -> tl_converts reg s q1 q2 d1 d2 ->
  constant_forcing_response reg p F T TD N -> F <> 0 ->
  ((exists L, Un_cv T L) <-> p_dt p < 2 * d1).
Proof. exact c58_converges_iff. Qed.
Print Assumptions C58_converges_iff.

(** Every bounded forcing has a bounded response below the limit ... *)
Theorem C58_bounded_below_the_limit : forall reg s p q1 q2 d1 d2,
  tl_values reg s p -> positive_tl p -> tl_converts reg s q1 q2 d1 d2 -> p_dt p < 2 * d1 ->
  exists K, forall parse s' e F M T TD N,
    tl_setup reg parse s' p e F -> tl_reports reg s' e T TD N ->
    (forall i, (i < npoints e)%nat -> Rabs (F i) <= M) ->
    forall i, (i < npoints e)%nat -> Rabs (T i) <= K * M /\ Rabs (TD i) <= K * M.
Proof. exact c58_bounded_below_the_limit. Qed.
Print Assumptions C58_bounded_below_the_limit.

(** ... and from the limit on a forcing of alternating sign does not. *)
Theorem C58_resonance : forall reg parse s p q1 q2 d1 d2 B,
  tl_reachable (xenv reg) parse s -> tl_values reg s p -> positive_tl p -> tl_converts reg s q1 q2 d1 d2 -> 2 * d1 <= p_dt p ->
  exists e F T TD N i, is_series reg e F u_Wm2 /\ (forall j, Rabs (F j) = 1) /\
    tl_reports reg s e T TD N /\ (i < npoints e)%nat /\ B < Rabs (T i).
Proof. exact c58_resonance. Qed.
Print Assumptions C58_resonance.

(** The limit in terms of the parameters, and its relation to the condition of C16. *)
Theorem C58_limit_in_parameters : forall reg s p q1 q2 d1 d2,
  tl_values reg s p -> positive_tl p -> tl_converts reg s q1 q2 d1 d2 ->
  let b := (p_lambda0 p + p_eps p * p_eta p) / p_C p + p_eta p / p_CD p in
  (p_dt p < 2 * d1 <->
   p_dt p * b < 4 /\ 0 < 4 - 2 * (p_dt p * b) + p_dt p * p_dt p * (p_lambda0 p * p_eta p / (p_C p * p_CD p))) /\
  (small_step p -> p_dt p < 2 * d1).
Proof. exact c58_limit_in_parameters. Qed.
Print Assumptions C58_limit_in_parameters.

Example C58_case : forall reg parse y, y = 5 \/ y = 10 -> exists s q1 q2 d1 d2 T TD N,
  tl_reachable (xenv reg) parse s /\ tl_values reg s (ex_step y) /\ positive_tl (ex_step y) /\ tl_converts reg s q1 q2 d1 d2 /\
  constant_forcing_response reg (ex_step y) 4 T TD N /\ ~ small_step (ex_step y) /\
  (y = 5 -> p_dt (ex_step y) < 2 * d1) /\ (y = 10 -> 2 * d1 < p_dt (ex_step y)).
Proof. exact c58_case. Qed.
