(** Generated by tools/gen_props.py from FactsDefaults.v: the property theorems. *)
From Coq Require Import List String QArith Reals Qreals Bool Arith Lra Lia Psatz.
From Verif Require Import Arith Pint Base TwoLayer Impulse Scm Api Spec Exact SpecReal Utils
  GenTL GenTLHist GenIR GenIRHist GenMeta RealUnits RealTL RealGeo RealConv RealIR RealModels RealEuler RealBox FactsTL FactsTL2 FactsIR FactsEcs FactsDefaults.
Import ListNotations.
Local Open Scope R_scope.

Theorem C49_two_layer_defaults : forall reg parse, exists s,
  tl_new (xenv reg) (tl_defaults (xenv reg)) = Ok s /\ tl_reachable (xenv reg) parse s /\
  tl_values reg s (mkTLPhys 50 1200 (374 / 100 / 3) 0 1 (8 / 10) (year_s reg)).
Proof. exact c49_two_layer_defaults. Qed.
Print Assumptions C49_two_layer_defaults.

Theorem C49_impulse_response_defaults : forall reg parse, exists s,
  ir_new (xenv reg) (ir_defaults (xenv reg)) = Ok s /\ ir_reachable (xenv reg) parse s /\
  ir_values reg s (mkIRPhys (3 / 10) (4 / 10) 9 400 1 (1 / 12)) /\
  units (ir_q1 _ s) = u_CWm2 /\ units (ir_q2 _ s) = u_CWm2.
Proof. exact c49_impulse_response_defaults. Qed.
Print Assumptions C49_impulse_response_defaults.

(** A doubling of CO2 (3.74 W/m^2) warms the default two-layer model by 3
    degrees, which is the sensitivity computed from its lambda0 (the year being
    shorter than 10^8 s). *)
Theorem C49_two_layer_sensitivity : forall reg, year_s reg <= 100000000 -> exists s T TD N ecs,
  tl_new (xenv reg) (tl_defaults (xenv reg)) = Ok s /\
  (forall e, is_series reg e (fun _ => 374 / 100) u_Wm2 -> tl_reports reg s e T TD N) /\
  Un_cv T 3 /\ Un_cv TD 3 /\ Un_cv N 0 /\
  convert_lambda_to_ecs (xenv reg) (PQ (qneg (xenv reg) (tl_lambda0 _ s))) (f2x_default (xenv reg)) = Ok ecs /\
  is_qty reg ecs 3 u_dC.
Proof. exact c49_two_layer_sensitivity. Qed.
Print Assumptions C49_two_layer_sensitivity.

(** The default impulse-response model warms by 0.7 degrees per W/m^2. *)
Theorem C49_impulse_response_sensitivity : forall reg F, exists s T1 T2 T N,
  ir_new (xenv reg) (ir_defaults (xenv reg)) = Ok s /\
  (forall e, is_series reg e (fun _ => F) u_Wm2 -> ir_reports reg s e T1 T2 T N) /\
  Un_cv T1 (3 / 10 * F) /\ Un_cv T2 (4 / 10 * F) /\ Un_cv T (7 / 10 * F) /\ Un_cv N 0.
Proof. exact c49_impulse_response_sensitivity. Qed.
Print Assumptions C49_impulse_response_sensitivity.

(** A registry with the length of the year pint uses. *)
Example C49_case : exists reg, year_s reg = 31556925.9747 /\ year_s reg <= 100000000.
Proof. exact c49_case. Qed.
