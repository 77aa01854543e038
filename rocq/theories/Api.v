(** The two model classes as seen by a caller: the list of public operations,
    and execution of a sequence of them (exceptions are caught by the caller
    and the object is used again). *)
From Coq Require Import List String QArith ZArith Bool Arith.
From Verif Require Import Arith Pint Base TwoLayer Impulse Scm.
Import ListNotations.

Section Api.
Variable env : Env.
Variable parse_unit : string -> option (Qty env).

(** [TwoLayerModel] as a [TwoLayerVariant] (two_layer_model.py:14) *)
Definition tl_variant : Variant env :=
  mkVariant env (TL env) tl_name (tl_save_paras env) (tl_set_delta_t env)
    (tl_set_drivers env) (tl_reset env) (tl_run env) (tl_outputs env).

(** [ImpulseResponseModel] as a [TwoLayerVariant] (impulse_response_model.py:17) *)
Definition ir_variant : Variant env :=
  mkVariant env (IR env) ir_name (ir_save_paras env) (ir_set_delta_t env)
    (ir_set_drivers env) (ir_reset env) (ir_run env) (ir_outputs env).

(** Public calls on a [TwoLayerModel].  The read-only ones (properties,
    [get_impulse_response_parameters]) are functions of the state and need no
    entry here. (two_layer_model.py, base.py:29-269.) *)
Inductive TLOp : Type :=
| TSetDu (v : PyVal env) | TSetDl (v : PyVal env) | TSetLambda0 (v : PyVal env)
| TSetA (v : PyVal env) | TSetEfficacy (v : PyVal env) | TSetEta (v : PyVal env)
| TSetDeltaT (v : PyVal env) | TSetErf (v : option (QArr env))
| TSetDrivers (e : ErfArg env) | TReset | TStep | TRun
| TRunScenarios (sc : Scm env) (driver_var : string).

(** A call whose return value is not looked at (base.py:175-269). *)
Definition forget {S A} (m : Meth S A) : Meth S unit :=
  mdo x <- m; mret tt.

(** The methods behind the calls (two_layer_model.py:53-243, base.py:82-269). *)
Definition tl_call (o : TLOp) : Meth (TL env) unit :=
  match o with
  | TSetDu v => tl_set_du env v
  | TSetDl v => tl_set_dl env v
  | TSetLambda0 v => tl_set_lambda0 env v
  | TSetA v => tl_set_a env v
  | TSetEfficacy v => tl_set_efficacy env v
  | TSetEta v => tl_set_eta env v
  | TSetDeltaT v => tl_set_delta_t env v
  | TSetErf v => tl_set_erf env v
  | TSetDrivers e => tl_set_drivers env e
  | TReset => tl_reset env
  | TStep => tl_step env
  | TRun => tl_run env
  | TRunScenarios sc dv => forget (run_scenarios env parse_unit tl_variant sc dv)
  end.

(** State after a sequence of calls, whatever their results. (Python program of calls in try/except.) *)
Definition tl_calls (ops : list TLOp) (s : TL env) : TL env :=
  fold_left (fun s o => fst (tl_call o s)) ops s.

(** States a caller can bring a [TwoLayerModel] into. (Python objects.) *)
Definition tl_reachable (s : TL env) : Prop :=
  exists args s0 ops, tl_new env args = Ok s0 /\ s = tl_calls ops s0.

(** Public calls on an [ImpulseResponseModel]. (impulse_response_model.py, base.py:29-269.) *)
Inductive IROp : Type :=
| ISetQ1 (v : PyVal env) | ISetQ2 (v : PyVal env) | ISetD1 (v : PyVal env)
| ISetD2 (v : PyVal env) | ISetEfficacy (v : PyVal env)
| ISetDeltaT (v : PyVal env) | ISetErf (v : option (QArr env))
| ISetDrivers (e : ErfArg env) | IReset | IStep | IRun
| IRunScenarios (sc : Scm env) (driver_var : string).

(** The methods behind the calls (impulse_response_model.py:54-207, base.py:82-269). *)
Definition ir_call (o : IROp) : Meth (IR env) unit :=
  match o with
  | ISetQ1 v => ir_set_q1 env v
  | ISetQ2 v => ir_set_q2 env v
  | ISetD1 v => ir_set_d1 env v
  | ISetD2 v => ir_set_d2 env v
  | ISetEfficacy v => ir_set_efficacy env v
  | ISetDeltaT v => ir_set_delta_t env v
  | ISetErf v => ir_set_erf env v
  | ISetDrivers e => ir_set_drivers env e
  | IReset => ir_reset env
  | IStep => ir_step env
  | IRun => ir_run env
  | IRunScenarios sc dv => forget (run_scenarios env parse_unit ir_variant sc dv)
  end.

(** As [tl_calls] (Python program of calls in try/except). *)
Definition ir_calls (ops : list IROp) (s : IR env) : IR env :=
  fold_left (fun s o => fst (ir_call o s)) ops s.

(** As [tl_reachable] (Python objects). *)
Definition ir_reachable (s : IR env) : Prop :=
  exists args s0 ops, ir_new env args = Ok s0 /\ s = ir_calls ops s0.

(** [model.set_drivers(erf); model.reset(); model.run()] (base.py:241-243.) *)
Definition tl_drive (e : QArr env) : Meth (TL env) unit :=
  tl_set_drivers env (EQ1 e) ;; tl_reset env ;; tl_run env.
(** base.py:241-243, for the other class. *)
Definition ir_drive (e : QArr env) : Meth (IR env) unit :=
  ir_set_drivers env (EQ1 e) ;; ir_reset env ;; ir_run env.

End Api.
