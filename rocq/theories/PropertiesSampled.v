(** Generated by tools/gen_props.py from FactsSampled.v: the property theorems. *)
From Coq Require Import List String QArith Reals Qreals Bool Arith Lra Lia Psatz.
From Verif Require Import Arith Pint Base TwoLayer Impulse Scm Api Spec Exact SpecReal SpecRefine SpecSampled
  GenTL GenTLHist GenIR GenIRHist GenMeta RealUnits RealTL RealGeo RealConv RealIR RealTrace RealModels RealEuler RealBox RealEquiv
  FactsRun FactsTL FactsTL2 FactsIR FactsConv FactsEquiv FactsRefine FactsSampled.
From Verif Require FactsPhys.
Import ListNotations.
Local Open Scope R_scope.

(** For every continuous forcing the equations of a box and of the two layers have one solution. *)
Theorem C71_exact_solutions : forall q d p G, 0 < d -> convertible_tl p -> (forall t, 0 <= t -> continuity_pt G t) ->
  (exists y, box_forced q d G y /\ forall y', box_forced q d G y' -> forall t, 0 <= t -> y' t = y t) /\
  (exists T TD, two_layer_forced p G T TD /\
    forall T' TD', two_layer_forced p G T' TD' -> forall t, 0 <= t -> T' t = T t /\ TD' t = TD t).
Proof. exact c71_exact_solutions. Qed.
Print Assumptions C71_exact_solutions.

(** The impulse-response model steps exactly, so the only error of a run is that the forcing is
    held over each step: it is at most sensitivity times the change of the forcing within a step. *)
Theorem C71_impulse_response_error : forall reg parse s p e F T1 T2 T N G Y1 Y2 D,
  ir_setup reg parse s p e F -> ir_reports reg s e T1 T2 T N -> positive_ir p ->
  box_forced (p_q1 p) (p_d1 p) G Y1 -> box_forced (p_q2 p) (p_d2 p) G Y2 ->
  stays_within (p_idt p) D G F (npoints e) ->
  forall i, (i < npoints e)%nat ->
    Rabs (T1 i - Y1 (INR i * p_idt p)) <= p_q1 p * D /\ Rabs (T2 i - Y2 (INR i * p_idt p)) <= p_q2 p * D /\
    Rabs (T i - (Y1 (INR i * p_idt p) + Y2 (INR i * p_idt p))) <= (p_q1 p + p_q2 p) * D.
Proof. exact c71_impulse_response_error. Qed.
Print Assumptions C71_impulse_response_error.

(** Values sampled from a forcing that never falls: the run is never warmer than the exact solution. *)
Theorem C71_impulse_response_lags : forall reg parse s p e F T1 T2 T N G Y1 Y2,
  ir_setup reg parse s p e F -> ir_reports reg s e T1 T2 T N -> positive_ir p ->
  box_forced (p_q1 p) (p_d1 p) G Y1 -> box_forced (p_q2 p) (p_d2 p) G Y2 ->
  sampled (p_idt p) G F -> never_falls G ->
  forall i, (i < npoints e)%nat ->
    T1 i <= Y1 (INR i * p_idt p) /\ T2 i <= Y2 (INR i * p_idt p) /\ T i <= Y1 (INR i * p_idt p) + Y2 (INR i * p_idt p).
Proof. exact c71_impulse_response_lags. Qed.
Print Assumptions C71_impulse_response_lags.

(** The two-layer model: the error of its own steps (C55) plus the change of the forcing within a step
    over lambda0. *)
Theorem C71_two_layer_error : forall reg parse s p e F M r d1 T TD N G Y YD D,
  tl_setup reg parse s p e F -> tl_reports reg s e T TD N -> positive_tl p ->
  tl_get_impulse_response_parameters (xenv reg) s = Ok r -> is_qty reg (irp_d1 _ r) d1 u_s -> p_dt p <= d1 ->
  (forall i, (i < npoints e)%nat -> Rabs (F i) <= M) ->
  two_layer_forced p G Y YD -> stays_within (p_dt p) D G F (npoints e) ->
  forall i, (i < npoints e)%nat ->
    Rabs (T i - Y (INR i * p_dt p)) <= p_dt p * M / p_C p + D / p_lambda0 p /\
    Rabs (TD i - YD (INR i * p_dt p)) <=
      2 * p_eta p / (p_CD p * sqrt (discriminant p)) * (p_dt p * M / p_C p) + D / p_lambda0 p.
Proof. exact c71_two_layer_error. Qed.
Print Assumptions C71_two_layer_error.

(** Smaller timesteps: for every tolerance there is a timestep below which the two-layer temperatures
    of all runs, of any length, are within the tolerance of the exact solution at all their points. *)
Theorem C71_two_layer_converges : forall p G K M Y YD eps,
  convertible_tl p -> two_layer_forced p G Y YD -> slope_at_most K G -> (forall t, 0 <= t -> Rabs (G t) <= M) -> 0 < eps ->
  exists h, 0 < h /\ forall reg parse s dt e F T TD N, 0 < dt < h ->
    tl_setup reg parse s (with_step p dt) e F -> tl_reports reg s e T TD N -> sampled dt G F ->
    forall i, (i < npoints e)%nat ->
      Rabs (T i - Y (INR i * dt)) <= eps /\ Rabs (TD i - YD (INR i * dt)) <= eps.
Proof. exact c71_two_layer_converges. Qed.
Print Assumptions C71_two_layer_converges.

(** The same for the impulse-response model, whose timestep need only be small against the changes of the forcing. *)
Theorem C71_impulse_response_converges : forall reg parse s p e F T1 T2 T N G Y1 Y2 K eps,
  ir_setup reg parse s p e F -> ir_reports reg s e T1 T2 T N -> positive_ir p ->
  box_forced (p_q1 p) (p_d1 p) G Y1 -> box_forced (p_q2 p) (p_d2 p) G Y2 ->
  slope_at_most K G -> sampled (p_idt p) G F -> (p_q1 p + p_q2 p) * (K * p_idt p) <= eps ->
  forall i, (i < npoints e)%nat ->
    Rabs (T1 i - Y1 (INR i * p_idt p)) <= eps /\ Rabs (T2 i - Y2 (INR i * p_idt p)) <= eps /\
    Rabs (T i - (Y1 (INR i * p_idt p) + Y2 (INR i * p_idt p))) <= eps.
Proof. exact c71_impulse_response_converges. Qed.
Print Assumptions C71_impulse_response_converges.

Example C71_impulse_response_case : forall reg parse, exists s e T1 T2 T N Y1 Y2,
  let G := fun t => / 50 * t in let F := fun i => G (INR i * p_idt ex_ir) in
  ir_setup reg parse s ex_ir e F /\ npoints e = 6%nat /\ ir_reports reg s e T1 T2 T N /\ positive_ir ex_ir /\
  box_forced (p_q1 ex_ir) (p_d1 ex_ir) G Y1 /\ box_forced (p_q2 ex_ir) (p_d2 ex_ir) G Y2 /\
  sampled (p_idt ex_ir) G F /\ never_falls G /\ slope_at_most (/ 50) G /\
  stays_within (p_idt ex_ir) (/ 50 * p_idt ex_ir) G F (npoints e) /\
  (p_q1 ex_ir + p_q2 ex_ir) * (/ 50 * p_idt ex_ir) <= 2 / 100 /\ 0 < T 5%nat.
Proof. exact c71_impulse_response_case. Qed.

Example C71_two_layer_case : forall reg parse, exists s e T TD N Y YD r d1,
  let G := fun t => / 50 / 31557600 * t in let F := fun i => G (INR i * p_dt ex_tl) in
  tl_setup reg parse s ex_tl e F /\ npoints e = 6%nat /\ tl_reports reg s e T TD N /\ positive_tl ex_tl /\
  two_layer_forced ex_tl G Y YD /\ sampled (p_dt ex_tl) G F /\ slope_at_most (/ 50 / 31557600) G /\
  stays_within (p_dt ex_tl) (/ 50 / 31557600 * p_dt ex_tl) G F (npoints e) /\
  tl_get_impulse_response_parameters (xenv reg) s = Ok r /\ is_qty reg (irp_d1 _ r) d1 u_s /\ p_dt ex_tl <= d1 /\
  (forall i, (i < npoints e)%nat -> Rabs (F i) <= / 10) /\ 0 < T 2%nat.
Proof. exact c71_two_layer_case. Qed.
