(** Generated by tools/gen_props.py from FactsConv.v: the property theorems. *)
From Coq Require Import List String QArith Reals Qreals Bool Arith Lra Lia Psatz.
From Verif Require Import Arith Pint Base TwoLayer Impulse Scm Api Spec Exact SpecReal
  GenTL GenTLHist GenIR GenIRHist GenMeta RealUnits RealTL RealGeo RealConv RealIR RealModels FactsConv.
Import ListNotations.
Local Open Scope R_scope.

(** The helper parameters, whatever the units of the five inputs. *)
Theorem C21_helper_parameters : forall reg du dl lambda0 efficacy eta xu xl l e h,
  is_qty reg du xu u_m -> is_qty reg dl xl u_m -> is_qty reg lambda0 l u_Wm2C ->
  is_qty reg efficacy e u_none -> is_qty reg eta h u_Wm2C ->
  0 < xu -> 0 < xl -> 0 < l -> 0 < e -> 0 < h ->
  exists g b bs delta tau1 tau2 phi1 phi2 a1 a2,
    geoffroy (xenv reg) du dl lambda0 efficacy eta = Ok g /\
    is_qty reg (g_C g) (water_capacity xu) u_JCm2 /\ is_qty reg (g_CD g) (water_capacity xl) u_JCm2 /\
    is_qty reg (g_b g) b [(ss, -1)]%Q /\ is_qty reg (g_bstar g) bs [(ss, -1)]%Q /\
    is_qty reg (g_delta g) delta [(ss, -2)]%Q /\
    is_qty reg (g_tau1 g) tau1 u_s /\ is_qty reg (g_tau2 g) tau2 u_s /\
    is_qty reg (g_phi1 g) phi1 u_none /\ is_qty reg (g_phi2 g) phi2 u_none /\
    is_qty reg (g_a1 g) a1 u_none /\ is_qty reg (g_a2 g) a2 u_none /\
    geoffroy_relations (water_capacity xu) (water_capacity xl) l e h b bs delta tau1 tau2 phi1 phi2 a1 a2.
Proof. exact c21_helper_parameters. Qed.
Print Assumptions C21_helper_parameters.

(** The impulse-response parameters computed from a two-layer model. *)
Theorem C21_impulse_response_parameters : forall reg s p,
  tl_values reg s p -> convertible_tl p ->
  exists r d1 d2 q1 q2,
    tl_get_impulse_response_parameters (xenv reg) s = Ok r /\
    is_qty reg (irp_d1 _ r) d1 u_s /\ is_qty reg (irp_d2 _ r) d2 u_s /\
    is_qty reg (irp_q1 _ r) q1 u_CWm2 /\ is_qty reg (irp_q2 _ r) q2 u_CWm2 /\
    irp_efficacy _ r = tl_efficacy _ s /\
    0 < d1 /\ d1 < d2 /\ 0 < q1 /\ 0 < q2 /\
    d1 * d2 = p_C p * p_CD p / (p_lambda0 p * p_eta p) /\
    1 / d1 + 1 / d2 = (p_lambda0 p + p_eps p * p_eta p) / p_C p + p_eta p / p_CD p /\
    q1 + q2 = 1 / p_lambda0 p /\
    q1 / d1 + q2 / d2 = 1 / p_C p /\
    q1 * d1 + q2 * d2 = (p_C p + p_eps p * p_CD p) / (p_lambda0 p * p_lambda0 p) /\
    q1 * d2 + q2 * d1 = p_CD p / (p_lambda0 p * p_eta p).
Proof. exact c21_impulse_response_parameters. Qed.
Print Assumptions C21_impulse_response_parameters.

Example C21_case : forall reg parse, exists s, tl_reachable (xenv reg) parse s /\ tl_values reg s ex_conv /\ convertible_tl ex_conv.
Proof. exact c21_case. Qed.

Theorem C22_round_trip_two_layer : forall reg s p,
  tl_values reg s p -> convertible_tl p ->
  exists r, tl_get_impulse_response_parameters (xenv reg) s = Ok r /\
  forall dt x, is_qty reg dt x u_yr ->
  exists s' r', ir_new (xenv reg) (ir_args_of r dt) = Ok s' /\
    ir_get_two_layer_parameters (xenv reg) s' = Ok r' /\
    is_qty reg (tlp_lambda0 _ r') (p_lambda0 p) u_Wm2C /\
    is_qty reg (tlp_du _ r') (p_du p) u_m /\ is_qty reg (tlp_dl _ r') (p_dl p) u_m /\
    is_qty reg (tlp_eta _ r') (p_eta p) u_Wm2C /\
    tlp_efficacy _ r' = tl_efficacy _ s.
Proof. exact c22_round_trip_two_layer. Qed.
Print Assumptions C22_round_trip_two_layer.

Example C22_case : forall reg, exists s, tl_values reg s ex_conv /\ convertible_tl ex_conv /\
  is_qty reg (mkQ (env := xenv reg) (Fin 2) u_month) (2 * (rg_size reg smonth / rg_size reg syr)) u_yr.
Proof. exact c22_case. Qed.

Theorem C23_round_trip_impulse_response : forall reg s p,
  ir_values reg s p -> convertible_ir p ->
  exists r du dl lambda0 eta, ir_get_two_layer_parameters (xenv reg) s = Ok r /\
    is_qty reg (tlp_du _ r) du u_m /\ is_qty reg (tlp_dl _ r) dl u_m /\
    is_qty reg (tlp_lambda0 _ r) lambda0 u_Wm2C /\ is_qty reg (tlp_eta _ r) eta u_Wm2C /\
    0 < du /\ 0 < dl /\ 0 < lambda0 /\ 0 < eta /\ lambda0 = 1 / (p_q1 p + p_q2 p) /\
  forall a dt x, is_qty reg a 0 u_Wm2C2 -> is_qty reg dt x u_s ->
  exists s' r', tl_new (xenv reg) (tl_args_of r a dt) = Ok s' /\
    tl_get_impulse_response_parameters (xenv reg) s' = Ok r' /\
    is_qty reg (irp_d1 _ r') (p_d1 p) u_yr /\ is_qty reg (irp_d2 _ r') (p_d2 p) u_yr /\
    is_qty reg (irp_q1 _ r') (p_q1 p) u_CWm2 /\ is_qty reg (irp_q2 _ r') (p_q2 p) u_CWm2 /\
    irp_efficacy _ r' = ir_efficacy _ s.
Proof. exact c23_round_trip_impulse_response. Qed.
Print Assumptions C23_round_trip_impulse_response.

Example C23_case : forall reg, exists s, ir_values reg s ex_irc /\ convertible_ir ex_irc /\
  is_qty reg (mkQty (xenv reg) 0 u_Wm2C2) 0 u_Wm2C2.
Proof. exact c23_case. Qed.

Theorem C24_state_dependence_is_refused : forall reg s p,
  tl_values reg s p ->
  (tl_get_impulse_response_parameters (xenv reg) s = Err ValueError <-> p_a p <> 0).
Proof. exact c24_state_dependence_is_refused. Qed.
Print Assumptions C24_state_dependence_is_refused.

(** Without state dependence: every outcome for all parameter values. *)
Theorem C24_all_outcomes : forall reg s p,
  tl_values reg s p -> p_a p = 0 ->
  (tl_get_impulse_response_parameters (xenv reg) s = Err ZeroDivisionError <->
     p_du p = 0 \/ p_dl p = 0 \/ p_lambda0 p = 0 \/ p_eta p = 0 \/ p_eps p = 0 \/ discriminant p = 0) /\
  (tl_get_impulse_response_parameters (xenv reg) s = Err ComplexValue <->
     p_du p <> 0 /\ p_dl p <> 0 /\ p_lambda0 p <> 0 /\ p_eta p <> 0 /\ discriminant p < 0) /\
  ((exists r, tl_get_impulse_response_parameters (xenv reg) s = Ok r) <->
     p_du p <> 0 /\ p_dl p <> 0 /\ p_lambda0 p <> 0 /\ p_eta p <> 0 /\ p_eps p <> 0 /\ 0 < discriminant p).
Proof. exact c24_all_outcomes. Qed.
Print Assumptions C24_all_outcomes.

(** In particular the documented one-layer setting eta = 0 is refused, and
    positive parameters are accepted. *)
Theorem C24_one_layer_and_positive : forall reg s p,
  tl_values reg s p -> p_a p = 0 ->
  (p_eta p = 0 -> tl_get_impulse_response_parameters (xenv reg) s = Err ZeroDivisionError) /\
  (p_lambda0 p = 0 -> tl_get_impulse_response_parameters (xenv reg) s = Err ZeroDivisionError) /\
  (convertible_tl p -> exists r, tl_get_impulse_response_parameters (xenv reg) s = Ok r).
Proof. exact c24_one_layer_and_positive. Qed.
Print Assumptions C24_one_layer_and_positive.

Example C24_case : forall reg, exists s1 s2 s3,
  tl_values reg s1 (mkTLPhys 50 1200 (5/4) (1/20) 1 (4/5) 1) /\
  tl_values reg s2 (mkTLPhys 50 1200 (5/4) 0 1 0 1) /\
  tl_values reg s3 ex_conv.
Proof. exact c24_case. Qed.
