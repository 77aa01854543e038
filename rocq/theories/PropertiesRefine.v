(** Generated by tools/gen_props.py from FactsRefine.v: the property theorems. *)
From Coq Require Import List String QArith Reals Qreals Bool Arith Lra Lia Psatz.
From Verif Require Import Arith Pint Base TwoLayer Impulse Scm Api Spec Exact SpecReal SpecRefine
  GenTL GenTLHist GenIR GenIRHist GenMeta RealUnits RealTL RealGeo RealConv RealIR RealTrace RealModels RealEuler RealBox RealEquiv
  FactsRun FactsTL FactsTL2 FactsIR FactsConv FactsEquiv FactsRefine.
Import ListNotations.
Local Open Scope R_scope.

(** The exact solution exists, and there is only one. *)
Theorem C55_exact_solution : forall p F, convertible_tl p -> 0 < p_dt p ->
  exists T TD, exact_two_layer p F T TD /\
    forall T' TD', exact_two_layer p F T' TD' -> forall i, T' i = T i /\ TD' i = TD i.
Proof. exact c55_exact_solution. Qed.
Print Assumptions C55_exact_solution.

(** [k] steps per forcing value: the error is inversely proportional to [k],
    however long the run.  ([k] = 1 is an ordinary run.) *)
Theorem C55_error_of_a_refined_run : forall reg parse s p e F M k r d1 T TD Tk TDk Nk,
  positive_tl p -> (0 < k)%nat ->
  tl_setup reg parse s (with_step p (p_dt p / INR k)) (stretched k e) (fun i => F (i / k)%nat) ->
  exact_two_layer p F T TD ->
  tl_get_impulse_response_parameters (xenv reg) s = Ok r -> is_qty reg (irp_d1 _ r) d1 u_s ->
  p_dt p / INR k <= d1 ->
  (forall i, (i < npoints e)%nat -> Rabs (F i) <= M) ->
  tl_reports reg s (stretched k e) Tk TDk Nk ->
  forall i, (i < npoints e)%nat ->
    Rabs (Tk (k * i)%nat - T i) <= p_dt p * M / p_C p / INR k /\
    Rabs (TDk (k * i)%nat - TD i) <= 2 * p_eta p / (p_CD p * sqrt (discriminant p)) * (p_dt p * M / p_C p / INR k).
Proof. exact c55_error_of_a_refined_run. Qed.
Print Assumptions C55_error_of_a_refined_run.

(** As the steps get smaller the reported temperatures converge to the exact
    solution of the two-layer equations (without any condition on the step the
    refinement starts from). *)
Theorem C55_smaller_steps_converge : forall reg parse p e F T TD Tk TDk,
  positive_tl p -> exact_two_layer p F T TD ->
  (forall k, (0 < k)%nat -> exists s N,
     tl_setup reg parse s (with_step p (p_dt p / INR k)) (stretched k e) (fun i => F (i / k)%nat) /\
     tl_reports reg s (stretched k e) (Tk k) (TDk k) N) ->
  forall i, (i < npoints e)%nat ->
    Un_cv (fun k => Tk (S k) (S k * i)%nat) (T i) /\ Un_cv (fun k => TDk (S k) (S k * i)%nat) (TD i).
Proof. exact c55_smaller_steps_converge. Qed.
Print Assumptions C55_smaller_steps_converge.

(** The refined runs: set [delta_t] to a [k]-th of its value and repeat every
    driver value [k] times. *)
Theorem C55_refined_runs : forall reg parse s p e F k q,
  tl_setup reg parse s p e F -> positive_tl p -> (0 < k)%nat -> is_qty reg q (p_dt p / INR k) u_s ->
  exists s', tl_set_delta_t (xenv reg) (PQ q) s = (s', Ok tt) /\
    tl_setup reg parse s' (with_step p (p_dt p / INR k)) (stretched k e) (fun i => F (i / k)%nat) /\
    npoints (stretched k e) = (k * npoints e)%nat /\
    exists T TD N, tl_reports reg s' (stretched k e) T TD N.
Proof. exact c55_refined_runs. Qed.
Print Assumptions C55_refined_runs.

Example C55_case : forall reg parse, exists s e T TD Tk TDk,
  tl_setup reg parse s ex_conv e (fun i => sin (INR i)) /\ positive_tl ex_conv /\ npoints e = 100%nat /\
  exact_two_layer ex_conv (fun i => sin (INR i)) T TD /\
  (forall k, (0 < k)%nat -> exists s N,
     tl_setup reg parse s (with_step ex_conv (p_dt ex_conv / INR k)) (stretched k e) (fun i => sin (INR (i / k))) /\
     tl_reports reg s (stretched k e) (Tk k) (TDk k) N).
Proof. exact c55_case. Qed.
