(** Generated by tools/gen_props.py from FactsEquiv.v: the property theorems. *)
From Coq Require Import List String QArith Reals Qreals Bool Arith Lra Lia Psatz.
From Verif Require Import Arith Pint Base TwoLayer Impulse Scm Api Spec Exact SpecReal
  GenTL GenTLHist GenIR GenIRHist GenMeta RealUnits RealTL RealGeo RealConv RealIR RealTrace RealModels RealEuler RealBox RealEquiv
  FactsRun FactsTL FactsTL2 FactsIR FactsConv FactsEquiv.
Import ListNotations.
Local Open Scope R_scope.

Theorem C25_same_continuous_system : forall reg s p,
  tl_values reg s p -> convertible_tl p ->
  exists r g d1 d2 q1 q2 phi1 phi2,
    tl_get_impulse_response_parameters (xenv reg) s = Ok r /\
    geoffroy (xenv reg) (tl_du _ s) (tl_dl _ s) (tl_lambda0 _ s) (tl_efficacy _ s) (tl_eta _ s) = Ok g /\
    is_qty reg (irp_d1 _ r) d1 u_s /\ is_qty reg (irp_d2 _ r) d2 u_s /\
    is_qty reg (irp_q1 _ r) q1 u_CWm2 /\ is_qty reg (irp_q2 _ r) q2 u_CWm2 /\
    is_qty reg (g_phi1 g) phi1 u_none /\ is_qty reg (g_phi2 g) phi2 u_none /\
    (forall F T1 T2, box_forced q1 d1 F T1 -> box_forced q2 d2 F T2 ->
       two_layer_forced p F (fun t => T1 t + T2 t) (fun t => phi1 * T1 t + phi2 * T2 t)) /\
    (forall F T TD, two_layer_forced p F T TD ->
       exists T1 T2, box_forced q1 d1 F T1 /\ box_forced q2 d2 F T2 /\
         forall t, T t = T1 t + T2 t /\ TD t = phi1 * T1 t + phi2 * T2 t) /\
    (forall F T1 T2 T TD, box_forced q1 d1 F T1 -> box_forced q2 d2 F T2 -> two_layer_forced p F T TD ->
       forall t, 0 <= t -> T t = T1 t + T2 t /\ TD t = phi1 * T1 t + phi2 * T2 t).
Proof. exact c25_same_continuous_system. Qed.
Print Assumptions C25_same_continuous_system.

Example C25_case : forall reg, exists s T TD,
  tl_values reg s ex_conv /\ convertible_tl ex_conv /\ two_layer_forced ex_conv (fun t => 3 * t) T TD.
Proof. exact c25_case. Qed.

Theorem C26_surface_temperatures_agree : forall reg parse s p e F M r s' d1 T TD N T1 T2 T' N',
  tl_setup reg parse s p e F -> positive_tl p ->
  tl_get_impulse_response_parameters (xenv reg) s = Ok r ->
  ir_new (xenv reg) (ir_args_of r (tl_delta_t _ s)) = Ok s' ->
  is_qty reg (irp_d1 _ r) d1 u_s -> p_dt p <= d1 ->
  (forall i, (i < npoints e)%nat -> Rabs (F i) <= M) ->
  tl_reports reg s e T TD N -> ir_reports reg s' e T1 T2 T' N' ->
  forall i, (i < npoints e)%nat -> Rabs (T i - T' i) <= p_dt p * M / p_C p.
Proof. exact c26_surface_temperatures_agree. Qed.
Print Assumptions C26_surface_temperatures_agree.

(** The deep temperatures too, in terms of the two boxes. *)
Theorem C26_deep_temperatures_agree : forall reg parse s p e F M r g s' d1 phi1 phi2 T TD N T1 T2 T' N',
  tl_setup reg parse s p e F -> positive_tl p ->
  tl_get_impulse_response_parameters (xenv reg) s = Ok r ->
  geoffroy (xenv reg) (tl_du _ s) (tl_dl _ s) (tl_lambda0 _ s) (tl_efficacy _ s) (tl_eta _ s) = Ok g ->
  is_qty reg (g_phi1 g) phi1 u_none -> is_qty reg (g_phi2 g) phi2 u_none ->
  ir_new (xenv reg) (ir_args_of r (tl_delta_t _ s)) = Ok s' ->
  is_qty reg (irp_d1 _ r) d1 u_s -> p_dt p <= d1 ->
  (forall i, (i < npoints e)%nat -> Rabs (F i) <= M) ->
  tl_reports reg s e T TD N -> ir_reports reg s' e T1 T2 T' N' ->
  forall i, (i < npoints e)%nat ->
    Rabs (TD i - (phi1 * T1 i + phi2 * T2 i)) <= 2 * p_eta p / (p_CD p * sqrt (discriminant p)) * (p_dt p * M / p_C p).
Proof. exact c26_deep_temperatures_agree. Qed.
Print Assumptions C26_deep_temperatures_agree.

(** The heat uptake of any impulse-response model, in terms of the two-layer
    parameters its own conversion returns. *)
Theorem C27_heat_uptake_of_the_equivalent_model : forall reg parse s p e F T1 T2 T N,
  ir_setup reg parse s p e F -> convertible_ir p ->
  usize reg (units (ir_q1 (xenv reg) s)) = usize reg u_CWm2 ->
  usize reg (units (ir_q2 (xenv reg) s)) = usize reg u_CWm2 ->
  ir_reports reg s e T1 T2 T N ->
  exists r g lambda0 eta phi1 phi2,
    ir_get_two_layer_parameters (xenv reg) s = Ok r /\
    geoffroy (xenv reg) (tlp_du _ r) (tlp_dl _ r) (tlp_lambda0 _ r) (tlp_efficacy _ r) (tlp_eta _ r) = Ok g /\
    is_qty reg (tlp_lambda0 _ r) lambda0 u_Wm2C /\ is_qty reg (tlp_eta _ r) eta u_Wm2C /\
    is_qty reg (g_phi1 g) phi1 u_none /\ is_qty reg (g_phi2 g) phi2 u_none /\
    forall i, (S i < npoints e)%nat ->
      let TD := phi1 * T1 i + phi2 * T2 i in
      N (S i) = F i - lambda0 * T i - (p_ieps p - 1) * eta * (T i - TD).
Proof. exact c27_heat_uptake_of_the_equivalent_model. Qed.
Print Assumptions C27_heat_uptake_of_the_equivalent_model.

(** Both runs succeed: every driver, every length. *)
Theorem C27_both_runs_succeed : forall reg parse s p e F r,
  tl_setup reg parse s p e F -> positive_tl p -> documented_units s ->
  tl_get_impulse_response_parameters (xenv reg) s = Ok r ->
  exists s' T TD N T1 T2 T' N',
    ir_new (xenv reg) (ir_args_of r (tl_delta_t _ s)) = Ok s' /\
    tl_reports reg s e T TD N /\ ir_reports reg s' e T1 T2 T' N'.
Proof. exact c27_both_runs_succeed. Qed.
Print Assumptions C27_both_runs_succeed.

(** The converted model's heat uptake in terms of the original parameters. *)
Theorem C27_converted_heat_uptake : forall reg parse s p e F r g s' phi1 phi2 dt x T1 T2 T' N',
  tl_setup reg parse s p e F -> convertible_tl p -> documented_units s ->
  tl_get_impulse_response_parameters (xenv reg) s = Ok r ->
  geoffroy (xenv reg) (tl_du _ s) (tl_dl _ s) (tl_lambda0 _ s) (tl_efficacy _ s) (tl_eta _ s) = Ok g ->
  is_qty reg (g_phi1 g) phi1 u_none -> is_qty reg (g_phi2 g) phi2 u_none ->
  is_qty reg dt x u_yr -> ir_new (xenv reg) (ir_args_of r dt) = Ok s' ->
  ir_reports reg s' e T1 T2 T' N' ->
  forall i, (S i < npoints e)%nat ->
    let TD := phi1 * T1 i + phi2 * T2 i in
    N' (S i) = F i - p_lambda0 p * T' i - (p_eps p - 1) * p_eta p * (T' i - TD).
Proof. exact c27_converted_heat_uptake. Qed.
Print Assumptions C27_converted_heat_uptake.

Theorem C27_heat_uptakes_agree : forall reg parse s p e F M r s' d1 T TD N T1 T2 T' N',
  tl_setup reg parse s p e F -> positive_tl p -> documented_units s ->
  tl_get_impulse_response_parameters (xenv reg) s = Ok r ->
  ir_new (xenv reg) (ir_args_of r (tl_delta_t _ s)) = Ok s' ->
  is_qty reg (irp_d1 _ r) d1 u_s -> p_dt p <= d1 ->
  (forall i, (i < npoints e)%nat -> Rabs (F i) <= M) ->
  tl_reports reg s e T TD N -> ir_reports reg s' e T1 T2 T' N' ->
  forall i, (i < npoints e)%nat ->
    Rabs (N i - N' i) <=
      (p_lambda0 p + Rabs (p_eps p - 1) * p_eta p * (1 + 2 * p_eta p / (p_CD p * sqrt (discriminant p)))) * (p_dt p * M / p_C p).
Proof. exact c27_heat_uptakes_agree. Qed.
Print Assumptions C27_heat_uptakes_agree.

Example C26_case : forall reg parse, exists s e r s' d1 T TD N T1 T2 T' N',
  tl_setup reg parse s ex_conv e (fun i => sin (INR i)) /\ npoints e = 100%nat /\ positive_tl ex_conv /\ documented_units s /\
  tl_get_impulse_response_parameters (xenv reg) s = Ok r /\
  ir_new (xenv reg) (ir_args_of r (tl_delta_t _ s)) = Ok s' /\
  is_qty reg (irp_d1 _ r) d1 u_s /\ p_dt ex_conv <= d1 /\
  tl_reports reg s e T TD N /\ ir_reports reg s' e T1 T2 T' N' /\ (forall i, (i < npoints e)%nat -> Rabs (sin (INR i)) <= 1).
Proof. exact c26_case. Qed.

Example C27_case : forall reg parse, exists s e r s' T1 T2 T' N',
  tl_setup reg parse s ex_conv e (fun i => INR i) /\ npoints e = 10%nat /\ documented_units s /\ p_eps ex_conv <> 1 /\
  tl_get_impulse_response_parameters (xenv reg) s = Ok r /\
  ir_new (xenv reg) (ir_args_of r (tl_delta_t _ s)) = Ok s' /\ ir_reports reg s' e T1 T2 T' N'.
Proof. exact c27_case. Qed.
