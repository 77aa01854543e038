(** Generated by tools/gen_props.py from FactsEcs.v: the property theorems. *)
From Coq Require Import List String QArith Reals Qreals Bool Arith Lra Lia Psatz.
From Verif Require Import Arith Pint Base TwoLayer Impulse Utils Scm Api Spec Exact SpecReal
  GenTL GenTLHist GenIR GenIRHist GenMeta RealUnits RealTL RealGeo RealConv RealIR RealTrace RealModels RealEuler RealBox RealEquiv
  FactsRun FactsTL FactsTL2 FactsIR FactsConv FactsEquiv FactsUnits FactsEcs.
Import ListNotations.
Local Open Scope R_scope.

(** TypeError exactly for non-quantities; the unit of the result (any number
    system); nothing is checked about the dimensions. *)
Theorem C38_type_error : forall (env : Env) (lambda_val f2x : PyVal env),
  convert_lambda_to_ecs env lambda_val f2x = Err TypeError <-> lambda_val = POther \/ f2x = POther.
Proof. exact c38_type_error. Qed.
Print Assumptions C38_type_error.

Theorem C38_unit : forall (env : Env) l f r, convert_lambda_to_ecs env (PQ l) (PQ f) = Ok r -> units r = udiv (units f) (units l).
Proof. exact c38_unit. Qed.
Print Assumptions C38_unit.

(** The result for [l] = x W/m^2/delta_degC and [f] = F W/m^2, in any units. *)
Theorem C38_value : forall reg l f x F,
  is_qty reg l x u_Wm2C -> is_qty reg f F u_Wm2 ->
  (x = 0 -> convert_lambda_to_ecs (xenv reg) (PQ l) (PQ f) = Err ZeroDivisionError) /\
  (x <> 0 -> exists r, convert_lambda_to_ecs (xenv reg) (PQ l) (PQ f) = Ok r /\ is_qty reg r (- F / x) u_dC).
Proof. exact c38_value. Qed.
Print Assumptions C38_value.

(** -lambda0 of a two-layer model: the limit of the warming of every run under
    the constant forcing f2x; lambda0 itself: minus that limit. *)
Theorem C38_limit_of_the_warming : forall reg parse s p F f,
  tl_reachable (xenv reg) parse s -> tl_values reg s p -> positive_tl p -> small_step p -> is_qty reg f F u_Wm2 ->
  exists T TD N ecs ecs' x,
    constant_forcing_response reg p F T TD N /\ Un_cv T x /\
    convert_lambda_to_ecs (xenv reg) (PQ (qneg (xenv reg) (tl_lambda0 _ s))) (PQ f) = Ok ecs /\ is_qty reg ecs x u_dC /\
    convert_lambda_to_ecs (xenv reg) (PQ (tl_lambda0 _ s)) (PQ f) = Ok ecs' /\ is_qty reg ecs' (- x) u_dC.
Proof. exact c38_limit_of_the_warming. Qed.
Print Assumptions C38_limit_of_the_warming.

(** The same for impulse-response models, with lambda0 from
    [get_two_layer_parameters]. *)
Theorem C38_limit_of_the_impulse_response : forall reg parse s p F f T1 T2 T N,
  ir_reachable (xenv reg) parse s -> ir_values reg s p -> convertible_ir p -> 0 < p_idt p -> is_qty reg f F u_Wm2 ->
  ir_constant_forcing_response reg s F T1 T2 T N ->
  exists r ecs x, ir_get_two_layer_parameters (xenv reg) s = Ok r /\
    convert_lambda_to_ecs (xenv reg) (PQ (qneg (xenv reg) (tlp_lambda0 _ r))) (PQ f) = Ok ecs /\ is_qty reg ecs x u_dC /\ Un_cv T x.
Proof. exact c38_limit_of_the_impulse_response. Qed.
Print Assumptions C38_limit_of_the_impulse_response.

Theorem C38_linear : forall reg l f1 f2 f3 x F1 F2 c1 c2,
  is_qty reg l x u_Wm2C -> x <> 0 -> is_qty reg f1 F1 u_Wm2 -> is_qty reg f2 F2 u_Wm2 -> is_qty reg f3 (c1 * F1 + c2 * F2) u_Wm2 ->
  exists r1 r2 r3 y1 y2,
    convert_lambda_to_ecs (xenv reg) (PQ l) (PQ f1) = Ok r1 /\ convert_lambda_to_ecs (xenv reg) (PQ l) (PQ f2) = Ok r2 /\
    convert_lambda_to_ecs (xenv reg) (PQ l) (PQ f3) = Ok r3 /\
    is_qty reg r1 y1 u_dC /\ is_qty reg r2 y2 u_dC /\ is_qty reg r3 (c1 * y1 + c2 * y2) u_dC.
Proof. exact c38_linear. Qed.
Print Assumptions C38_linear.

(** Applied to its own result the function returns the lambda it was given. *)
Theorem C38_inverts_itself : forall reg l f x F,
  is_qty reg l x u_Wm2C -> is_qty reg f F u_Wm2 -> x <> 0 -> F <> 0 ->
  exists ecs l', convert_lambda_to_ecs (xenv reg) (PQ l) (PQ f) = Ok ecs /\
    convert_lambda_to_ecs (xenv reg) (PQ ecs) (PQ f) = Ok l' /\ is_qty reg l' x u_Wm2C.
Proof. exact c38_inverts_itself. Qed.
Print Assumptions C38_inverts_itself.

(** The default f2x is 3.74 W/m^2. *)
Theorem C38_default : forall reg, exists f, f2x_default (xenv reg) = PQ f /\ is_qty reg f (374 / 100) u_Wm2.
Proof. exact c38_default. Qed.
Print Assumptions C38_default.

Example C38_case : forall reg parse, exists s f,
  tl_reachable (xenv reg) parse s /\ tl_values reg s ex_tl /\ positive_tl ex_tl /\ small_step ex_tl /\ is_qty reg f (374 / 100) u_Wm2.
Proof. exact c38_case. Qed.
