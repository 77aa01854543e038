(** Generated by tools/gen_props.py from FactsSampledHeat.v: the property theorems. *)
From Coq Require Import List String QArith Reals Qreals Bool Arith Lra Lia Psatz.
From Verif Require Import Arith Pint Base TwoLayer Impulse Scm Api Spec Exact SpecReal SpecRefine SpecBalance SpecSampled
  GenTL GenTLHist GenIR GenIRHist GenMeta RealUnits RealTL RealGeo RealConv RealIR RealTrace RealModels RealEuler RealBox RealEquiv
  FactsRun FactsTL FactsTL2 FactsIR FactsIR2 FactsConv FactsEquiv FactsRefine FactsBalance FactsSampled FactsSampledHeat.
From Verif Require FactsPhys.
Import ListNotations.
Local Open Scope R_scope.

(** Wherever the temperatures of a two-layer run are close to the exact ones, so is the reported heat
    uptake to the rate at which heat is stored one timestep before, and the sum of the uptakes
    (times delta_t) to the heat stored. *)
Theorem C71_two_layer_heat : forall reg parse s p e F T TD N G Y YD D b bD,
  tl_setup reg parse s p e F -> tl_reports reg s e T TD N -> positive_tl p ->
  two_layer_forced p G Y YD -> stays_within (p_dt p) D G F (npoints e) ->
  (forall i, (i < npoints e)%nat -> Rabs (T i - Y (INR i * p_dt p)) <= b /\ Rabs (TD i - YD (INR i * p_dt p)) <= bD) ->
  (forall i, (0 < i)%nat -> (S i < npoints e)%nat -> exists rate,
    derivable_pt_lim (layers_heat p Y YD) (INR i * p_dt p) rate /\
    Rabs (N (S i) - rate) <= D + (p_lambda0 p + Rabs (p_eps p - 1) * p_eta p) * b + Rabs (p_eps p - 1) * p_eta p * bD) /\
  (forall i, (i < npoints e)%nat ->
    Rabs (p_dt p * total N i - layers_heat p Y YD (INR i * p_dt p)) <= p_C p * b + p_CD p * bD).
Proof. exact c71_two_layer_heat. Qed.
Print Assumptions C71_two_layer_heat.

(** The impulse-response model reports, in place of the rate at which heat is stored one
    timestep before, one that is off by at most twice the change of the forcing within a step,
    and its uptakes add up to the heat stored in the layers of the exact solution up to one
    timestep of forcing and d2 times that change. *)
Theorem C71_impulse_response_heat : forall reg parse s p e F T1 T2 T N G Y1 Y2 H D M,
  ir_setup reg parse s p e F -> ir_reports reg s e T1 T2 T N -> convertible_ir p -> 0 < p_idt p -> fast_box_loses p ->
  usize reg (units (ir_q1 (xenv reg) s)) = usize reg u_CWm2 ->
  usize reg (units (ir_q2 (xenv reg) s)) = usize reg u_CWm2 ->
  box_forced (p_q1 p) (p_d1 p) G Y1 -> box_forced (p_q2 p) (p_d2 p) G Y2 -> stored_heat_is s H ->
  stays_within (p_idt p) D G F (npoints e) -> (forall i, (i < npoints e)%nat -> Rabs (F i) <= M) ->
  (forall i, (0 < i)%nat -> (S i < npoints e)%nat -> exists rate,
    derivable_pt_lim (fun t => H (Y1 t) (Y2 t)) (INR i * p_idt p) (year_s reg * rate) /\ Rabs (N (S i) - rate) <= 2 * D) /\
  (forall i, (i < npoints e)%nat ->
    Rabs (year_s reg * p_idt p * total N i - H (Y1 (INR i * p_idt p)) (Y2 (INR i * p_idt p)))
      <= year_s reg * (p_idt p * M + p_d2 p * D)).
Proof. exact c71_impulse_response_heat. Qed.
Print Assumptions C71_impulse_response_heat.

(** Smaller timesteps: for every tolerance there is a timestep below which temperatures, heat uptakes and
    their sums are within the tolerance of the exact solution, in all runs of any length, at all points. *)
Theorem C71_two_layer_heat_converges : forall p G K M Y YD eps,
  convertible_tl p -> two_layer_forced p G Y YD -> slope_at_most K G -> (forall t, 0 <= t -> Rabs (G t) <= M) -> 0 < eps ->
  exists h, 0 < h /\ forall reg parse s dt e F T TD N, 0 < dt < h ->
    tl_setup reg parse s (with_step p dt) e F -> tl_reports reg s e T TD N -> sampled dt G F ->
    forall i, (i < npoints e)%nat ->
      Rabs (T i - Y (INR i * dt)) <= eps /\ Rabs (TD i - YD (INR i * dt)) <= eps /\
      ((0 < i)%nat -> (S i < npoints e)%nat -> exists rate,
         derivable_pt_lim (layers_heat p Y YD) (INR i * dt) rate /\ Rabs (N (S i) - rate) <= eps) /\
      Rabs (dt * total N i - layers_heat p Y YD (INR i * dt)) <= eps.
Proof. exact c71_two_layer_heat_converges. Qed.
Print Assumptions C71_two_layer_heat_converges.

(** Two-layer model: any continuous forcing, over any bounded stretch of time. *)
Theorem C71_two_layer_converges_continuous : forall p G Y YD tend eps,
  convertible_tl p -> (forall t, 0 <= t -> continuity_pt G t) -> two_layer_forced p G Y YD -> 0 < tend -> 0 < eps ->
  exists h, 0 < h /\ forall reg parse s dt e F T TD N, 0 < dt < h -> INR (npoints e) * dt <= tend ->
    tl_setup reg parse s (with_step p dt) e F -> tl_reports reg s e T TD N -> sampled dt G F ->
    forall i, (i < npoints e)%nat ->
      Rabs (T i - Y (INR i * dt)) <= eps /\ Rabs (TD i - YD (INR i * dt)) <= eps /\
      ((0 < i)%nat -> (S i < npoints e)%nat -> exists rate,
         derivable_pt_lim (layers_heat p Y YD) (INR i * dt) rate /\ Rabs (N (S i) - rate) <= eps) /\
      Rabs (dt * total N i - layers_heat p Y YD (INR i * dt)) <= eps.
Proof. exact c71_two_layer_converges_continuous. Qed.
Print Assumptions C71_two_layer_converges_continuous.

(** Impulse-response model: likewise. *)
Theorem C71_impulse_response_converges_continuous : forall p G Y1 Y2 tend eps,
  convertible_ir p -> fast_box_loses p -> (forall t, 0 <= t -> continuity_pt G t) ->
  box_forced (p_q1 p) (p_d1 p) G Y1 -> box_forced (p_q2 p) (p_d2 p) G Y2 -> 0 < tend -> 0 < eps ->
  exists h, 0 < h /\ forall reg parse s dt e F T1 T2 T N H, 0 < dt < h -> INR (npoints e) * dt <= tend ->
    ir_setup reg parse s (with_istep p dt) e F -> ir_reports reg s e T1 T2 T N -> sampled dt G F ->
    usize reg (units (ir_q1 (xenv reg) s)) = usize reg u_CWm2 ->
    usize reg (units (ir_q2 (xenv reg) s)) = usize reg u_CWm2 -> stored_heat_is s H ->
    forall i, (i < npoints e)%nat ->
      Rabs (T1 i - Y1 (INR i * dt)) <= eps /\ Rabs (T2 i - Y2 (INR i * dt)) <= eps /\
      Rabs (T i - (Y1 (INR i * dt) + Y2 (INR i * dt))) <= eps /\
      ((0 < i)%nat -> (S i < npoints e)%nat -> exists rate,
        derivable_pt_lim (fun t => H (Y1 t) (Y2 t)) (INR i * dt) (year_s reg * rate) /\ Rabs (N (S i) - rate) <= eps) /\
      Rabs (year_s reg * dt * total N i - H (Y1 (INR i * dt)) (Y2 (INR i * dt))) <= year_s reg * eps.
Proof. exact c71_impulse_response_converges_continuous. Qed.
Print Assumptions C71_impulse_response_converges_continuous.

(** A model, exact solutions, and for every timestep and length a run. *)
Example C71_two_layer_converges_case : exists Y YD, let G := swing (/ 31557600) in
  convertible_tl ex_tl /\ two_layer_forced ex_tl G Y YD /\ slope_at_most (2 * / 31557600) G /\
  (forall t, 0 <= t -> Rabs (G t) <= 2) /\ (forall t, 0 <= t -> continuity_pt G t) /\
  forall reg parse dt n, 0 < dt -> exists s e F T TD N,
    tl_setup reg parse s (with_step ex_tl dt) e F /\ npoints e = n /\ tl_reports reg s e T TD N /\ sampled dt G F.
Proof. exact c71_two_layer_converges_case. Qed.

Example C71_two_layer_heat_case : forall reg parse, exists s e F T TD N G Y YD b bD,
  tl_setup reg parse s ex_tl e F /\ npoints e = 9%nat /\ tl_reports reg s e T TD N /\ positive_tl ex_tl /\
  two_layer_forced ex_tl G Y YD /\ stays_within (p_dt ex_tl) 2 G F (npoints e) /\
  (forall i, (i < npoints e)%nat -> Rabs (T i - Y (INR i * p_dt ex_tl)) <= b /\ Rabs (TD i - YD (INR i * p_dt ex_tl)) <= bD).
Proof. exact c71_two_layer_heat_case. Qed.

Example C71_impulse_response_converges_case : exists Y1 Y2, let G := swing 1 in
  convertible_ir ex_ir2 /\ fast_box_loses ex_ir2 /\ (forall t, 0 <= t -> continuity_pt G t) /\
  box_forced (p_q1 ex_ir2) (p_d1 ex_ir2) G Y1 /\ box_forced (p_q2 ex_ir2) (p_d2 ex_ir2) G Y2 /\
  forall reg parse dt n, 0 < dt -> exists s e F T1 T2 T N H,
    ir_setup reg parse s (with_istep ex_ir2 dt) e F /\ npoints e = n /\ ir_reports reg s e T1 T2 T N /\ sampled dt G F /\
    usize reg (units (ir_q1 (xenv reg) s)) = usize reg u_CWm2 /\ usize reg (units (ir_q2 (xenv reg) s)) = usize reg u_CWm2 /\
    stored_heat_is s H /\ stays_within dt (2 * dt) G F (npoints e) /\ (forall i, (i < npoints e)%nat -> Rabs (F i) <= 2).
Proof. exact c71_impulse_response_converges_case. Qed.
