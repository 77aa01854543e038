(** Vocabulary for the heat balance of the impulse-response model (C69). *)
From Coq Require Import Reals.
From Verif Require Import Arith Pint Base Impulse Exact SpecReal.
Local Open Scope R_scope.

(** Heat lost to space per unit of time (forcing minus heat uptake) at box temperatures
    [x1], [x2], in closed form in the impulse-response parameters. *)
Definition heat_loss (p : IRP) (x1 x2 : R) : R :=
  (x1 + x2) / (p_q1 p + p_q2 p) +
  (1 - 1 / p_ieps p) * (p_d2 p - p_d1 p) * (p_q2 p * x1 - p_q1 p * x2) /
    ((p_q1 p + p_q2 p) * (p_q1 p * p_d2 p + p_q2 p * p_d1 p)).
(** A timescale as the steps see it: [d] stretched to dt / (1 - exp (-dt/d)). *)
Definition stretched_timescale (dt d : R) : R := dt / (1 - exp (- dt / d)).
(** Values [0] to [i] added up. *)
Definition total (N : nat -> R) (i : nat) : R := sum_f_R0 N i.
(** The fast box loses heat when it is warm (true whenever efficacy >= 1). *)
Definition fast_box_loses (p : IRP) : Prop :=
  p_q2 p * (p_d2 p - p_d1 p) <= p_ieps p * (p_d2 p * (p_q1 p + p_q2 p)).
(** [H x1 x2] is the heat (J/m^2) in the two layers of the equivalent two-layer model, the one
    get_two_layer_parameters returns, when the boxes are at [x1] and [x2]: the surface is at
    x1 + x2, the deep layer at phi1 x1 + phi2 x2. *)
Definition stored_heat_is {reg : Registry} (s : IR (xenv reg)) (H : R -> R -> R) : Prop :=
  exists r g du dl phi1 phi2,
    ir_get_two_layer_parameters (xenv reg) s = Ok r /\
    geoffroy (xenv reg) (tlp_du _ r) (tlp_dl _ r) (tlp_lambda0 _ r) (tlp_efficacy _ r) (tlp_eta _ r) = Ok g /\
    is_qty reg (tlp_du _ r) du u_m /\ is_qty reg (tlp_dl _ r) dl u_m /\
    is_qty reg (g_phi1 g) phi1 u_none /\ is_qty reg (g_phi2 g) phi2 u_none /\
    forall x1 x2, H x1 x2 = water_capacity du * (x1 + x2) + water_capacity dl * (phi1 * x1 + phi2 * x2).
