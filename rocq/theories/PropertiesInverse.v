(** Generated by tools/gen_props.py from FactsInverse.v: the property theorems. *)
From Coq Require Import List String QArith Reals Bool Arith Lra Lia Psatz.
From Verif Require Import Arith Pint Base TwoLayer Impulse Scm Api Spec Demo Exact SpecReal RealUnits RealTL RealEuler RealIR RealBox RealModels FactsTL FactsIR FactsIR2 FactsInverse.
Import ListNotations.
Local Open Scope R_scope.

(** The surface temperature of a two-layer run determines the forcing, except
    for the last value, which no result depends on. *)
Theorem C61_forcing_from_surface_temperature : forall reg parse s s' p e e' F F' T TD N TD' N',
  tl_setup reg parse s p e F -> tl_setup reg parse s' p e' F' -> npoints e' = npoints e ->
  tl_reports reg s e T TD N -> tl_reports reg s' e' T TD' N' ->
  forall i, (S i < npoints e)%nat -> F i = F' i.
Proof. exact c61_forcing_from_surface_temperature. Qed.
Print Assumptions C61_forcing_from_surface_temperature.

(** So does the heat uptake alone. *)
Theorem C61_forcing_from_heat_uptake : forall reg parse s s' p e e' F F' T TD N T' TD',
  tl_setup reg parse s p e F -> tl_setup reg parse s' p e' F' -> npoints e' = npoints e ->
  tl_reports reg s e T TD N -> tl_reports reg s' e' T' TD' N ->
  forall i, (S i < npoints e)%nat -> F i = F' i.
Proof. exact c61_forcing_from_heat_uptake. Qed.
Print Assumptions C61_forcing_from_heat_uptake.

(** And, if the layers exchange heat, the temperature of the deep layer, one
    value later. *)
Theorem C61_forcing_from_deep_temperature : forall reg parse s s' p e e' F F' T TD N T' N',
  tl_setup reg parse s p e F -> tl_setup reg parse s' p e' F' -> npoints e' = npoints e -> p_eta p <> 0 ->
  tl_reports reg s e T TD N -> tl_reports reg s' e' T' TD N' ->
  forall i, (S (S i) < npoints e)%nat -> F i = F' i.
Proof. exact c61_forcing_from_deep_temperature. Qed.
Print Assumptions C61_forcing_from_deep_temperature.

Theorem C61_every_surface_temperature : forall reg p T, p_du p <> 0 -> p_dl p <> 0 -> p_dt p <> 0 -> T 0%nat = 0 ->
  exists F TD N, forall parse s e, tl_setup reg parse s p e F -> tl_reports reg s e T TD N.
Proof. exact c61_every_surface_temperature. Qed.
Print Assumptions C61_every_surface_temperature.

Theorem C61_every_heat_uptake : forall reg p N, p_du p <> 0 -> p_dl p <> 0 -> p_dt p <> 0 -> N 0%nat = 0 ->
  exists F T TD, forall parse s e, tl_setup reg parse s p e F -> tl_reports reg s e T TD N.
Proof. exact c61_every_heat_uptake. Qed.
Print Assumptions C61_every_heat_uptake.

Theorem C61_every_deep_temperature : forall reg p TD, p_du p <> 0 -> p_dl p <> 0 -> p_dt p <> 0 -> p_eta p <> 0 ->
  TD 0%nat = 0 -> TD 1%nat = 0 ->
  exists F T N, forall parse s e, tl_setup reg parse s p e F -> tl_reports reg s e T TD N.
Proof. exact c61_every_deep_temperature. Qed.
Print Assumptions C61_every_deep_temperature.

Theorem C61_impulse_response_forcing_from_surface_temperature : forall reg parse s s' p e e' F F' T1 T2 T N T1' T2' N',
  ir_setup reg parse s p e F -> ir_setup reg parse s' p e' F' -> npoints e' = npoints e -> positive_ir p ->
  ir_reports reg s e T1 T2 T N -> ir_reports reg s' e' T1' T2' T N' ->
  forall i, (S i < npoints e)%nat -> F i = F' i.
Proof. exact c61_impulse_response_forcing_from_surface_temperature. Qed.
Print Assumptions C61_impulse_response_forcing_from_surface_temperature.

Theorem C61_impulse_response_forcing_from_box_1 : forall reg parse s s' p e e' F F' T1 T2 T N T2' T' N',
  ir_setup reg parse s p e F -> ir_setup reg parse s' p e' F' -> npoints e' = npoints e -> p_q1 p <> 0 -> p_idt p <> 0 ->
  ir_reports reg s e T1 T2 T N -> ir_reports reg s' e' T1 T2' T' N' ->
  forall i, (S i < npoints e)%nat -> F i = F' i.
Proof. exact c61_impulse_response_forcing_from_box_1. Qed.
Print Assumptions C61_impulse_response_forcing_from_box_1.

(** The heat uptake of a model determines the forcing. *)
Theorem C61_impulse_response_forcing_from_heat_uptake : forall reg parse s p e e' F F' T1 T2 T N T1' T2' T',
  ir_setup reg parse s p e F -> ir_setup reg parse s p e' F' -> npoints e' = npoints e ->
  ir_reports reg s e T1 T2 T N -> ir_reports reg s e' T1' T2' T' N ->
  forall i, (S i < npoints e)%nat -> F i = F' i.
Proof. exact c61_impulse_response_forcing_from_heat_uptake. Qed.
Print Assumptions C61_impulse_response_forcing_from_heat_uptake.

(** The surface temperatures of one run under a constant forcing, the first five
    of them, determine a two-layer model up to the exchange of C40. *)
Theorem C61_parameters_from_temperature : forall reg parse s s' p p' e e' f T TD N TD' N',
  tl_setup reg parse s p e (fun _ => f) -> tl_setup reg parse s' p' e' (fun _ => f) ->
  positive_tl p -> positive_tl p' -> p_dt p' = p_dt p -> f <> 0 -> npoints e = 5%nat -> npoints e' = 5%nat ->
  tl_reports reg s e T TD N -> tl_reports reg s' e' T TD' N' ->
  exists k, 0 < k /\
    p' = mkTLPhys (p_du p) (p_dl p / k) (p_lambda0 p) 0 (k * p_eps p) (p_eta p / k) (p_dt p).
Proof. exact c61_parameters_from_temperature. Qed.
Print Assumptions C61_parameters_from_temperature.

(** With the heat uptake they determine it completely. *)
Theorem C61_parameters_from_temperature_and_heat_uptake : forall reg parse s s' p p' e e' f T TD N TD',
  tl_setup reg parse s p e (fun _ => f) -> tl_setup reg parse s' p' e' (fun _ => f) ->
  positive_tl p -> positive_tl p' -> p_dt p' = p_dt p -> f <> 0 -> npoints e = 5%nat -> npoints e' = 5%nat ->
  tl_reports reg s e T TD N -> tl_reports reg s' e' T TD' N -> p' = p.
Proof. exact c61_parameters_from_temperature_and_heat_uptake. Qed.
Print Assumptions C61_parameters_from_temperature_and_heat_uptake.

Theorem C61_impulse_response_every_temperature : forall p T, positive_ir p -> T 0%nat = 0 ->
  exists F, forall reg parse s e T1 T2 X N, ir_setup reg parse s p e F -> ir_reports reg s e T1 T2 X N ->
    forall i, (i < npoints e)%nat -> X i = T i.
Proof. exact c61_impulse_response_every_temperature. Qed.
Print Assumptions C61_impulse_response_every_temperature.

(** Five surface temperatures under a constant forcing determine the
    sensitivities and timescales of an impulse-response model. *)
Theorem C61_impulse_response_parameters_from_temperature : forall reg parse s s' p p' e e' f T1 T2 T N T1' T2' N',
  ir_setup reg parse s p e (fun _ => f) -> ir_setup reg parse s' p' e' (fun _ => f) ->
  convertible_ir p -> convertible_ir p' -> p_idt p' = p_idt p -> 0 < p_idt p -> f <> 0 -> npoints e = 5%nat -> npoints e' = 5%nat ->
  ir_reports reg s e T1 T2 T N -> ir_reports reg s' e' T1' T2' T N' ->
  p_q1 p' = p_q1 p /\ p_q2 p' = p_q2 p /\ p_d1 p' = p_d1 p /\ p_d2 p' = p_d2 p.
Proof. exact c61_impulse_response_parameters_from_temperature. Qed.
Print Assumptions C61_impulse_response_parameters_from_temperature.

(** With the heat uptake they determine the efficacy too, for models whose
    sensitivities are given in units of the size of delta_degC/(W/m^2). *)
Theorem C61_impulse_response_parameters_from_temperature_and_heat_uptake :
  forall reg parse s s' p p' e e' f T1 T2 T N T1' T2',
  ir_setup reg parse s p e (fun _ => f) -> ir_setup reg parse s' p' e' (fun _ => f) ->
  usize reg (units (ir_q1 (xenv reg) s)) = usize reg u_CWm2 -> usize reg (units (ir_q2 (xenv reg) s)) = usize reg u_CWm2 ->
  usize reg (units (ir_q1 (xenv reg) s')) = usize reg u_CWm2 -> usize reg (units (ir_q2 (xenv reg) s')) = usize reg u_CWm2 ->
  convertible_ir p -> convertible_ir p' -> p_idt p' = p_idt p -> 0 < p_idt p -> f <> 0 -> npoints e = 5%nat -> npoints e' = 5%nat ->
  ir_reports reg s e T1 T2 T N -> ir_reports reg s' e' T1' T2' T N -> p' = p.
Proof. exact c61_impulse_response_parameters_from_temperature_and_heat_uptake. Qed.
Print Assumptions C61_impulse_response_parameters_from_temperature_and_heat_uptake.

Example C61_forcing_case : forall reg parse, exists s e e' T TD N,
  tl_setup reg parse s ex_tl e (ex_f 1) /\ tl_setup reg parse s ex_tl e' (ex_f 7) /\ npoints e = 3%nat /\ npoints e' = 3%nat /\
  p_eta ex_tl <> 0 /\ tl_reports reg s e T TD N /\ tl_reports reg s e' T TD N /\ 0 < TD 2%nat.
Proof. exact c61_forcing_case. Qed.

Example C61_every_case : (p_du ex_tl <> 0 /\ p_dl ex_tl <> 0 /\ p_dt ex_tl <> 0 /\ p_eta ex_tl <> 0) /\ positive_ir ex_ir /\
  INR 0 = 0 /\ INR (0 - 1) = 0 /\ INR (1 - 1) = 0.
Proof. exact c61_every_case. Qed.

(** Two models that no temperature can tell apart; the heat uptake can. *)
Example C61_parameters_case : forall reg parse, exists s s' e T TD N N',
  let p' := mkTLPhys 50 (1200 / 2) (5/4) 0 (2 * 1) (4/5/2) 31557600 in
  tl_setup reg parse s ex_tl e (fun _ => 4) /\ tl_setup reg parse s' p' e (fun _ => 4) /\
  positive_tl ex_tl /\ positive_tl p' /\ p_dt p' = p_dt ex_tl /\ npoints e = 5%nat /\
  tl_reports reg s e T TD N /\ tl_reports reg s' e T TD N' /\ N' 2%nat < N 2%nat.
Proof. exact c61_parameters_case. Qed.

Example C61_impulse_response_case : forall reg parse, exists s e e' T1 T2 T N N',
  ir_setup reg parse s ex_ir e (ex_f 1) /\ ir_setup reg parse s ex_ir e' (ex_f 7) /\ npoints e = 3%nat /\ npoints e' = 3%nat /\
  positive_ir ex_ir /\ convertible_ir ex_ir /\ ir_reports reg s e T1 T2 T N /\ ir_reports reg s e' T1 T2 T N' /\ 0 < T2 2%nat.
Proof. exact c61_impulse_response_case. Qed.
