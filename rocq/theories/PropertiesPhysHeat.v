(** Generated by tools/gen_props.py from FactsPhysHeat.v: the property theorems. *)
From Coq Require Import List String QArith Qreals Reals Bool Arith Lra Lia Psatz.
From Flocq Require Import Core IEEE754.BinarySingleNaN.
From Verif Require FactsRun FactsConv.
From Verif Require Import Arith Pint Base TwoLayer Impulse Scm Api Spec Demo Exact SpecReal RealUnits RealConv RealGeo RealEuler RealBox RealEquiv
  GenTL GenTLHist GenIR GenIRHist Float SpecRound FloatTL FloatRun FloatBox SpecRefine FactsFloat FactsRefine SpecPhysical FloatPhys FloatPert FactsPhys FactsPhysHeat.
Import ListNotations.
Local Open Scope R_scope.

(** The heat uptakes a two-layer model reports, against the rate at which the layers of the exact solution
    store heat one timestep before: a rounding error and the discretisation errors of the temperatures. *)
Theorem C60_two_layer_heat_uptake : forall reg bexp rf parse s p e F M T TD,
  let E := fenv bexp (rg_ndim reg) (rg_dim reg) rf in
  accurate_registry reg rf -> tl_reachable E parse s ->
  tl_stands_for reg bexp rf s p -> ordinary_tl p -> series_stands_for reg bexp rf e F u_Wm2 ->
  p_dt p * ((p_lambda0 p + p_eps p * p_eta p) / p_C p + p_eta p / p_CD p) <= 1 ->
  half 42 * (1 + theta (coefficients p)) <= damping (coefficients p) ->
  ordinary M -> ordinary (p_lambda0 p * M) ->
  (forall i, (i < List.length (mags e))%nat -> Rabs (F i) <= p_lambda0 p * M) ->
  exact_two_layer p F T TD ->
  exists U L N, tl_gives bexp (rg_ndim reg) (rg_dim reg) rf s e U L N /\
    close_series bexp (rg_ndim reg) (rg_dim reg) rf N
      (fun i => match i with O => 0 | S k => p_C p * dT_dt p (F k) (T k) (TD k) + p_CD p * dTD_dt p (T k) (TD k) end)
      (half 40 * ((p_C p + p_CD p) / p_dt p) * ((1 + theta (coefficients p)) * M / damping (coefficients p)) +
       (p_lambda0 p + Rabs (p_eps p - 1) * p_eta p) * (p_dt p * (p_lambda0 p * M) / p_C p) +
       Rabs (p_eps p - 1) * p_eta p * (2 * p_eta p / (p_CD p * sqrt (discriminant p)) * (p_dt p * (p_lambda0 p * M) / p_C p))).
Proof. exact c60_two_layer_heat_uptake. Qed.
Print Assumptions C60_two_layer_heat_uptake.

(** Energy balance of the doubles of one run: the heat uptake is the forcing minus the feedback and the
    efficacy term of the temperatures reported one timestep before, up to rounding only. *)
Theorem C60_two_layer_energy_balance : forall reg bexp rf parse s p e F M U L N,
  let E := fenv bexp (rg_ndim reg) (rg_dim reg) rf in
  accurate_registry reg rf -> tl_reachable E parse s ->
  tl_stands_for reg bexp rf s p -> ordinary_tl p -> series_stands_for reg bexp rf e F u_Wm2 ->
  p_dt p * ((p_lambda0 p + p_eps p * p_eta p) / p_C p + p_eta p / p_CD p) <= 1 ->
  half 42 * (1 + theta (coefficients p)) <= damping (coefficients p) ->
  ordinary M -> ordinary (p_lambda0 p * M) ->
  (forall i, (i < List.length (mags e))%nat -> Rabs (F i) <= p_lambda0 p * M) ->
  tl_gives bexp (rg_ndim reg) (rg_dim reg) rf s e U L N ->
  forall i (n t d : b64), nth_error N (S i) = Some (n : num E) -> nth_error U i = Some (t : num E) -> nth_error L i = Some (d : num E) ->
    is_finite n = true /\ is_finite t = true /\ is_finite d = true /\
    Rabs (B2R n - (F i - p_lambda0 p * B2R t - (p_eps p - 1) * p_eta p * (B2R t - B2R d))) <=
      half 40 * ((p_C p + p_CD p) / p_dt p + p_lambda0 p + Rabs (p_eps p - 1) * p_eta p) *
        ((1 + theta (coefficients p)) * M / damping (coefficients p)).
Proof. exact c60_two_layer_energy_balance. Qed.
Print Assumptions C60_two_layer_energy_balance.

(** No heat is lost but to rounding: delta_t times the sum of the reported uptakes is the heat in the two
    layers at the reported temperatures, up to an error that grows at most linearly with the run. *)
Theorem C60_two_layer_heat_is_conserved : forall reg bexp rf parse s p e F M U L N,
  let E := fenv bexp (rg_ndim reg) (rg_dim reg) rf in
  accurate_registry reg rf -> tl_reachable E parse s ->
  tl_stands_for reg bexp rf s p -> ordinary_tl p -> series_stands_for reg bexp rf e F u_Wm2 ->
  p_dt p * ((p_lambda0 p + p_eps p * p_eta p) / p_C p + p_eta p / p_CD p) <= 1 ->
  half 42 * (1 + theta (coefficients p)) <= damping (coefficients p) ->
  ordinary M -> ordinary (p_lambda0 p * M) ->
  (forall i, (i < List.length (mags e))%nat -> Rabs (F i) <= p_lambda0 p * M) ->
  tl_gives bexp (rg_ndim reg) (rg_dim reg) rf s e U L N ->
  forall i (t d : b64), nth_error U i = Some (t : num E) -> nth_error L i = Some (d : num E) ->
    Rabs (p_dt p * sum_f_R0 (fun j => match nth_error N j with Some n => B2R (n : b64) | None => 0 end) i -
          (p_C p * B2R t + p_CD p * B2R d)) <= INR i * (half 43 * ((p_C p + p_CD p) * M)).
Proof. exact c60_two_layer_heat_is_conserved. Qed.
Print Assumptions C60_two_layer_heat_is_conserved.

(** The model, the forcing and the hypotheses of [c60_two_layer_case]: 50 m and 1.25 km of water, a
    timestep of a year; the bounds are below a watt and below a millionth of a watt per square metre. *)
Example C60_two_layer_heat_uptake_case : forall bexp parse, exists s T TD U L N,
  accurate_registry si (rounded_factors si) /\
  tl_reachable (phys_env bexp) parse s /\ tl_stands_for si bexp (rounded_factors si) s phys_p /\ ordinary_tl phys_p /\
  series_stands_for si bexp (rounded_factors si) (phys_erf bexp) fcase_F u_Wm2 /\
  p_dt phys_p * ((p_lambda0 phys_p + p_eps phys_p * p_eta phys_p) / p_C phys_p + p_eta phys_p / p_CD phys_p) <= 1 /\
  half 42 * (1 + theta (coefficients phys_p)) <= damping (coefficients phys_p) /\
  ordinary 4 /\ ordinary (p_lambda0 phys_p * 4) /\ (forall i, Rabs (fcase_F i) <= p_lambda0 phys_p * 4) /\
  exact_two_layer phys_p fcase_F T TD /\
  tl_gives bexp (rg_ndim si) (rg_dim si) (rounded_factors si) s (phys_erf bexp) U L N /\ List.length N = 3%nat /\
  half 40 * ((p_C phys_p + p_CD phys_p) / p_dt phys_p + p_lambda0 phys_p + Rabs (p_eps phys_p - 1) * p_eta phys_p) *
    ((1 + theta (coefficients phys_p)) * 4 / damping (coefficients phys_p)) < / 1000000 /\
  half 40 * ((p_C phys_p + p_CD phys_p) / p_dt phys_p) * ((1 + theta (coefficients phys_p)) * 4 / damping (coefficients phys_p)) +
    (p_lambda0 phys_p + Rabs (p_eps phys_p - 1) * p_eta phys_p) * (p_dt phys_p * (p_lambda0 phys_p * 4) / p_C phys_p) +
    Rabs (p_eps phys_p - 1) * p_eta phys_p *
      (2 * p_eta phys_p / (p_CD phys_p * sqrt (discriminant phys_p)) * (p_dt phys_p * (p_lambda0 phys_p * 4) / p_C phys_p)) < 1.
Proof. exact c60_two_layer_heat_uptake_case. Qed.
