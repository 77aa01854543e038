(** Specification vocabulary for C58 and C59. *)
From Coq Require Import Reals.
From Verif Require Import Arith Pint Base TwoLayer Exact SpecReal.
Local Open Scope R_scope.

(** [get_impulse_response_parameters()] of the two-layer model [s] succeeds and
    returns these sensitivities (delta_degC/(W/m^2)) and timescales (seconds). *)
Definition tl_converts (reg : Registry) (s : TL (xenv reg)) (q1 q2 d1 d2 : R) : Prop :=
  exists r, tl_get_impulse_response_parameters (xenv reg) s = Ok r /\
    is_qty reg (irp_q1 _ r) q1 u_CWm2 /\ is_qty reg (irp_q2 _ r) q2 u_CWm2 /\
    is_qty reg (irp_d1 _ r) d1 u_s /\ is_qty reg (irp_d2 _ r) d2 u_s.

(** The feedback parameter replaced; the sensitivities replaced. *)
Definition with_lambda0 (lam : R) (p : TLP) : TLP :=
  mkTLPhys (p_du p) (p_dl p) lam (p_a p) (p_eps p) (p_eta p) (p_dt p).
Definition with_sensitivities (q1 q2 : R) (p : IRP) : IRP :=
  mkIRPhys q1 q2 (p_d1 p) (p_d2 p) (p_ieps p) (p_idt p).
