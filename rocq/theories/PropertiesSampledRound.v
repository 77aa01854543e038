(** Generated by tools/gen_props.py from FactsSampledRound.v: the property theorems. *)
From Coq Require Import List String QArith Reals Qreals Bool Arith Lra Lia Psatz.
From Flocq Require Import Core IEEE754.BinarySingleNaN.
From Verif Require Import Arith Pint Base TwoLayer Impulse Scm Api Spec Demo Exact SpecReal SpecRefine SpecSampled SpecRound SpecPhysical
  Float RealUnits RealGeo RealEuler RealBox RealEquiv RealTrace FloatPhys FloatPert FactsFloat FactsRefine FactsPhys FactsSampled FactsSampledRound.
Import ListNotations.
Local Open Scope R_scope.

(** Everything added up: parameters and driver in whatever units the user chose, rounded conversion
    factors, binary64 arithmetic, the model's own steps, and a forcing that changes within them. *)
Theorem C71_two_layer_binary64 : forall reg bexp rf parse s p e F G M D Y YD,
  let E := fenv bexp (rg_ndim reg) (rg_dim reg) rf in
  accurate_registry reg rf -> tl_reachable E parse s ->
  tl_stands_for reg bexp rf s p -> ordinary_tl p -> series_stands_for reg bexp rf e F u_Wm2 ->
  p_dt p * ((p_lambda0 p + p_eps p * p_eta p) / p_C p + p_eta p / p_CD p) <= 1 ->
  half 42 * (1 + theta (coefficients p)) <= damping (coefficients p) ->
  ordinary M -> ordinary (p_lambda0 p * M) ->
  (forall i, (i < List.length (mags e))%nat -> Rabs (F i) <= p_lambda0 p * M) ->
  two_layer_forced p G Y YD -> stays_within (p_dt p) D G F (List.length (mags e)) ->
  exists U L N, tl_gives bexp (rg_ndim reg) (rg_dim reg) rf s e U L N /\
    close_series bexp (rg_ndim reg) (rg_dim reg) rf U (fun i => Y (INR i * p_dt p))
      (half 42 * M / damping (coefficients p) + p_dt p * (p_lambda0 p * M) / p_C p + D / p_lambda0 p) /\
    close_series bexp (rg_ndim reg) (rg_dim reg) rf L (fun i => YD (INR i * p_dt p))
      ((1 + theta (coefficients p)) * (half 42 * M / damping (coefficients p)) +
       2 * p_eta p / (p_CD p * sqrt (discriminant p)) * (p_dt p * (p_lambda0 p * M) / p_C p) + D / p_lambda0 p).
Proof. exact c71_two_layer_binary64. Qed.
Print Assumptions C71_two_layer_binary64.

(** The same for the impulse-response model. *)
Theorem C71_impulse_response_binary64 : forall reg bexp rf parse s p e F G M D T1 T2 T N Y1 Y2,
  let E := fenv bexp (rg_ndim reg) (rg_dim reg) rf in
  good_exp bexp -> accurate_registry reg rf -> ir_reachable E parse s ->
  ir_stands_for reg bexp rf s p -> ordinary_ir p -> series_stands_for reg bexp rf e F u_Wm2 ->
  ir_gives bexp (rg_ndim reg) (rg_dim reg) rf s e T1 T2 T N ->
  half 43 <= 1 - exp (- p_idt p / p_d1 p) -> half 43 <= 1 - exp (- p_idt p / p_d2 p) -> ordinary M ->
  (forall i, (i < List.length (mags e))%nat -> Rabs (F i) <= two 100 /\ Rabs (p_q1 p * F i) <= M /\ Rabs (p_q2 p * F i) <= M) ->
  box_forced (p_q1 p) (p_d1 p) G Y1 -> box_forced (p_q2 p) (p_d2 p) G Y2 ->
  stays_within (p_idt p) D G F (List.length (mags e)) ->
  close_series bexp (rg_ndim reg) (rg_dim reg) rf T1 (fun i => Y1 (INR i * p_idt p))
    (half 43 * M / (1 - exp (- p_idt p / p_d1 p)) + p_q1 p * D) /\
  close_series bexp (rg_ndim reg) (rg_dim reg) rf T2 (fun i => Y2 (INR i * p_idt p))
    (half 43 * M / (1 - exp (- p_idt p / p_d2 p)) + p_q2 p * D) /\
  close_series bexp (rg_ndim reg) (rg_dim reg) rf T (fun i => Y1 (INR i * p_idt p) + Y2 (INR i * p_idt p))
    (half 43 * M / (1 - exp (- p_idt p / p_d1 p)) + half 43 * M / (1 - exp (- p_idt p / p_d2 p)) + half 51 * M + (p_q1 p + p_q2 p) * D).
Proof. exact c71_impulse_response_binary64. Qed.
Print Assumptions C71_impulse_response_binary64.

Example C71_two_layer_binary64_case : forall bexp parse, exists s Y YD,
  accurate_registry si (rounded_factors si) /\
  tl_reachable (phys_env bexp) parse s /\ tl_stands_for si bexp (rounded_factors si) s phys_p /\ ordinary_tl phys_p /\
  series_stands_for si bexp (rounded_factors si) (phys_erf bexp) fcase_F u_Wm2 /\
  p_dt phys_p * ((p_lambda0 phys_p + p_eps phys_p * p_eta phys_p) / p_C phys_p + p_eta phys_p / p_CD phys_p) <= 1 /\
  half 42 * (1 + theta (coefficients phys_p)) <= damping (coefficients phys_p) /\
  ordinary 4 /\ ordinary (p_lambda0 phys_p * 4) /\ (forall i, Rabs (fcase_F i) <= p_lambda0 phys_p * 4) /\
  two_layer_forced phys_p (parabola (p_dt phys_p)) Y YD /\
  stays_within (p_dt phys_p) 21 (parabola (p_dt phys_p)) fcase_F (List.length (mags (phys_erf bexp))) /\
  (forall i, (i < 3)%nat -> fcase_F i = parabola (p_dt phys_p) (INR i * p_dt phys_p)).
Proof. exact c71_two_layer_binary64_case. Qed.

Example C71_impulse_response_binary64_case : forall parse, exists s T1 T2 T N Y1 Y2,
  good_exp floor_exp /\ accurate_registry si month_factors /\ ir_reachable month_env parse s /\
  ir_stands_for si floor_exp month_factors s phys_ip /\ ordinary_ir phys_ip /\
  series_stands_for si floor_exp month_factors month_erf fcase_F u_Wm2 /\
  ir_gives floor_exp 4 si_dim month_factors s month_erf T1 T2 T N /\
  half 43 <= 1 - exp (- p_idt phys_ip / p_d1 phys_ip) /\ half 43 <= 1 - exp (- p_idt phys_ip / p_d2 phys_ip) /\ ordinary 4 /\
  (forall i, Rabs (fcase_F i) <= two 100 /\ Rabs (p_q1 phys_ip * fcase_F i) <= 4 /\ Rabs (p_q2 phys_ip * fcase_F i) <= 4) /\
  box_forced (p_q1 phys_ip) (p_d1 phys_ip) (parabola (p_idt phys_ip)) Y1 /\
  box_forced (p_q2 phys_ip) (p_d2 phys_ip) (parabola (p_idt phys_ip)) Y2 /\
  stays_within (p_idt phys_ip) 21 (parabola (p_idt phys_ip)) fcase_F (List.length (mags month_erf)) /\
  (forall i, (i < 3)%nat -> fcase_F i = parabola (p_idt phys_ip) (INR i * p_idt phys_ip)).
Proof. exact c71_impulse_response_binary64_case. Qed.
