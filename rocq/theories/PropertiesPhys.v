(** Generated by tools/gen_props.py from FactsPhys.v: the property theorems. *)
From Coq Require Import List String QArith Qreals Reals Bool Arith Lra Lia Psatz.
From Flocq Require Import Core IEEE754.BinarySingleNaN.
From Verif Require FactsRun.
From Verif Require Import Arith Pint Base TwoLayer Impulse Scm Api Spec Demo Exact SpecReal RealUnits RealConv RealGeo RealEuler RealBox RealEquiv
  GenTL GenTLHist GenIR GenIRHist Float SpecRound FloatTL FloatRun FloatBox SpecRefine FactsFloat FactsRefine SpecPhysical FloatPhys FloatPert FactsPhys.
Import ListNotations.
Local Open Scope R_scope.

Theorem C60_two_layer : forall reg bexp rf parse s p e F M T TD,
  let E := fenv bexp (rg_ndim reg) (rg_dim reg) rf in
  accurate_registry reg rf -> tl_reachable E parse s ->
  tl_stands_for reg bexp rf s p -> ordinary_tl p -> series_stands_for reg bexp rf e F u_Wm2 ->
  p_dt p * ((p_lambda0 p + p_eps p * p_eta p) / p_C p + p_eta p / p_CD p) <= 1 ->
  half 42 * (1 + theta (coefficients p)) <= damping (coefficients p) ->
  ordinary M -> ordinary (p_lambda0 p * M) ->
  (forall i, (i < List.length (mags e))%nat -> Rabs (F i) <= p_lambda0 p * M) ->
  exact_two_layer p F T TD ->
  exists U L N, tl_gives bexp (rg_ndim reg) (rg_dim reg) rf s e U L N /\
    close_series bexp (rg_ndim reg) (rg_dim reg) rf U T
      (half 42 * M / damping (coefficients p) + p_dt p * (p_lambda0 p * M) / p_C p) /\
    close_series bexp (rg_ndim reg) (rg_dim reg) rf L TD
      ((1 + theta (coefficients p)) * (half 42 * M / damping (coefficients p)) +
       2 * p_eta p / (p_CD p * sqrt (discriminant p)) * (p_dt p * (p_lambda0 p * M) / p_C p)).
Proof. exact c60_two_layer. Qed.
Print Assumptions C60_two_layer.

Theorem C60_impulse_response : forall reg bexp rf parse s p e F M T1 T2 T N X1 X2,
  let E := fenv bexp (rg_ndim reg) (rg_dim reg) rf in
  good_exp bexp -> accurate_registry reg rf -> ir_reachable E parse s ->
  ir_stands_for reg bexp rf s p -> ordinary_ir p -> series_stands_for reg bexp rf e F u_Wm2 ->
  ir_gives bexp (rg_ndim reg) (rg_dim reg) rf s e T1 T2 T N ->
  half 43 <= 1 - exp (- p_idt p / p_d1 p) -> half 43 <= 1 - exp (- p_idt p / p_d2 p) -> ordinary M ->
  (forall i, (i < List.length (mags e))%nat -> Rabs (F i) <= two 100 /\ Rabs (p_q1 p * F i) <= M /\ Rabs (p_q2 p * F i) <= M) ->
  exact_box_run (p_q1 p) (p_d1 p) (p_idt p) F X1 -> exact_box_run (p_q2 p) (p_d2 p) (p_idt p) F X2 ->
  close_series bexp (rg_ndim reg) (rg_dim reg) rf T1 X1 (half 43 * M / (1 - exp (- p_idt p / p_d1 p))) /\
  close_series bexp (rg_ndim reg) (rg_dim reg) rf T2 X2 (half 43 * M / (1 - exp (- p_idt p / p_d2 p))) /\
  close_series bexp (rg_ndim reg) (rg_dim reg) rf T (fun i => X1 i + X2 i)
    (half 43 * M / (1 - exp (- p_idt p / p_d1 p)) + half 43 * M / (1 - exp (- p_idt p / p_d2 p)) + half 51 * M).
Proof. exact c60_impulse_response. Qed.
Print Assumptions C60_impulse_response.

Example C60_two_layer_case : forall bexp parse, exists s T TD,
  accurate_registry si (rounded_factors si) /\
  tl_reachable (phys_env bexp) parse s /\ tl_stands_for si bexp (rounded_factors si) s phys_p /\ ordinary_tl phys_p /\
  units (tl_dl _ s) = u_km /\ units (tl_delta_t _ s) = u_yr /\
  series_stands_for si bexp (rounded_factors si) (phys_erf bexp) fcase_F u_Wm2 /\
  p_dt phys_p * ((p_lambda0 phys_p + p_eps phys_p * p_eta phys_p) / p_C phys_p + p_eta phys_p / p_CD phys_p) <= 1 /\
  half 42 * (1 + theta (coefficients phys_p)) <= damping (coefficients phys_p) /\
  ordinary 4 /\ ordinary (p_lambda0 phys_p * 4) /\ (forall i, Rabs (fcase_F i) <= p_lambda0 phys_p * 4) /\
  exact_two_layer phys_p fcase_F T TD /\
  (* the bound on the error of the surface temperature is below 0.8 degrees *)
  half 42 * 4 / damping (coefficients phys_p) + p_dt phys_p * (p_lambda0 phys_p * 4) / p_C phys_p < 8/10.
Proof. exact c60_two_layer_case. Qed.

Example C60_impulse_response_case : forall parse, exists s T1 T2 T N X1 X2,
  good_exp floor_exp /\ accurate_registry si month_factors /\ ir_reachable month_env parse s /\
  ir_stands_for si floor_exp month_factors s phys_ip /\ ordinary_ir phys_ip /\
  units (ir_delta_t _ s) = u_month /\
  series_stands_for si floor_exp month_factors month_erf fcase_F u_Wm2 /\
  ir_gives floor_exp 4 si_dim month_factors s month_erf T1 T2 T N /\
  half 43 <= 1 - exp (- p_idt phys_ip / p_d1 phys_ip) /\ half 43 <= 1 - exp (- p_idt phys_ip / p_d2 phys_ip) /\ ordinary 4 /\
  (forall i, Rabs (fcase_F i) <= two 100 /\ Rabs (p_q1 phys_ip * fcase_F i) <= 4 /\ Rabs (p_q2 phys_ip * fcase_F i) <= 4) /\
  exact_box_run (p_q1 phys_ip) (p_d1 phys_ip) (p_idt phys_ip) fcase_F X1 /\
  exact_box_run (p_q2 phys_ip) (p_d2 phys_ip) (p_idt phys_ip) fcase_F X2 /\
  (* the bound on the error of the surface temperature is below a billionth of a degree *)
  half 43 * 4 / (1 - exp (- p_idt phys_ip / p_d1 phys_ip)) + half 43 * 4 / (1 - exp (- p_idt phys_ip / p_d2 phys_ip)) + half 51 * 4 < / 1000000000.
Proof. exact c60_impulse_response_case. Qed.
