(** utils.py *)
From Coq Require Import List String QArith Bool Arith.
From Verif Require Import Arith Pint Base.

Section Utils.
Variable env : Env.

(** utils.py:8 default of [f2x]: [3.74 * unit_registry("W/m^2")] *)
Definition f2x_default : PyVal env := PQ (mkQty env (374 # 100) u_Wm2).

(** utils.py:8-37 [convert_lambda_to_ecs] *)
Definition convert_lambda_to_ecs (lambda_val f2x : PyVal env) : Res (Qty env) :=
  match lambda_val with
  | POther => Err TypeError
  | PQ l =>
      match f2x with
      | POther => Err TypeError
      | PQ f => qdiv env (qneg env f) l
      end
  end.
End Utils.
