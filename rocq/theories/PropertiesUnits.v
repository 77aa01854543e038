(** Generated by tools/gen_props.py from FactsUnits.v: the property theorems. *)
From Coq Require Import List String QArith Reals Qreals Bool Arith Lra Lia Psatz.
From Verif Require Import Arith Pint Base TwoLayer Impulse Scm Api Spec Exact SpecReal
  GenTL GenTLHist GenIR GenIRHist GenMeta RealUnits RealTL RealGeo RealConv RealIR RealTrace RealModels RealEuler RealBox RealEquiv
  FactsRun FactsTL FactsTL2 FactsIR FactsConv FactsEquiv FactsUnits.
Import ListNotations.
Local Open Scope R_scope.

(** Runs of two models with physically equal parameters and drivers, in any
    units, report identical numbers (also where they are non-finite). *)
Theorem C28_units_do_not_matter : forall reg parse s s' p e e' F,
  tl_setup reg parse s p e F -> tl_setup reg parse s' p e' F -> npoints e = npoints e' ->
  exists s1 s1', tl_drive (xenv reg) e s = (s1, Ok tt) /\ tl_drive (xenv reg) e' s' = (s1', Ok tt) /\
    tl_outputs (xenv reg) s1 = tl_outputs (xenv reg) s1'.
Proof. exact c28_units_do_not_matter. Qed.
Print Assumptions C28_units_do_not_matter.

(** 50 m and 0.05 km, a year and 31557600 s: two such models exist. *)
Example C28_case : forall parse, exists s s' e,
  tl_setup si parse s ex_tl e (fun i => INR i) /\ tl_setup si parse s' ex_tl e (fun i => INR i) /\ npoints e = 5%nat /\
  units (tl_du (xenv si) s) = u_m /\ units (tl_du (xenv si) s') = [("kilometer"%string, 1%Q)] /\ tl_du (xenv si) s <> tl_du (xenv si) s'.
Proof. exact c28_case. Qed.

Theorem C29_temperatures : forall reg parse s s' p e e' F T1 T2 T N T1' T2' T' N',
  ir_setup reg parse s p e F -> ir_setup reg parse s' p e' F -> npoints e = npoints e' ->
  ir_reports reg s e T1 T2 T N -> ir_reports reg s' e' T1' T2' T' N' ->
  forall i, (i < npoints e)%nat -> T1 i = T1' i /\ T2 i = T2' i /\ T i = T' i.
Proof. exact c29_temperatures. Qed.
Print Assumptions C29_temperatures.

(** What the heat uptake is when q1's unit is [c] times delta_degC/(W/m^2): the
    equivalent two-layer model's with lambda0 multiplied by [c]. *)
Theorem C29_heat_uptake_factor : forall reg parse s p e F c T1 T2 T N,
  ir_setup reg parse s p e F -> convertible_ir p ->
  same_delta (units (ir_q1 (xenv reg) s)) (units (ir_q2 (xenv reg) s)) ->
  usize reg (units (ir_q1 (xenv reg) s)) = c * usize reg u_CWm2 ->
  ir_reports reg s e T1 T2 T N ->
  exists r g lambda0 eta phi1 phi2,
    ir_get_two_layer_parameters (xenv reg) s = Ok r /\
    geoffroy (xenv reg) (tlp_du _ r) (tlp_dl _ r) (tlp_lambda0 _ r) (tlp_efficacy _ r) (tlp_eta _ r) = Ok g /\
    is_qty reg (tlp_lambda0 _ r) lambda0 u_Wm2C /\ is_qty reg (tlp_eta _ r) eta u_Wm2C /\
    is_qty reg (g_phi1 g) phi1 u_none /\ is_qty reg (g_phi2 g) phi2 u_none /\
    lambda0 = 1 / (p_q1 p + p_q2 p) /\
    forall i, (S i < npoints e)%nat ->
      let TD := phi1 * T1 i + phi2 * T2 i in
      N (S i) = F i - c * lambda0 * T i - (p_ieps p - 1) * eta * (T i - TD).
Proof. exact c29_heat_uptake_factor. Qed.
Print Assumptions C29_heat_uptake_factor.

(** Units of the right size: the heat uptake does not depend on them. *)
Theorem C29_heat_uptake : forall reg parse s s' p e e' F T1 T2 T N T1' T2' T' N',
  ir_setup reg parse s p e F -> ir_setup reg parse s' p e' F -> npoints e = npoints e' -> convertible_ir p ->
  (forall t, t = s \/ t = s' ->
     usize reg (units (ir_q1 (xenv reg) t)) = usize reg u_CWm2 /\
     (usize reg (units (ir_q2 (xenv reg) t)) = usize reg u_CWm2 \/
      same_delta (units (ir_q1 (xenv reg) t)) (units (ir_q2 (xenv reg) t)))) ->
  ir_reports reg s e T1 T2 T N -> ir_reports reg s' e' T1' T2' T' N' ->
  forall i, (i < npoints e)%nat -> N i = N' i.
Proof. exact c29_heat_uptake. Qed.
Print Assumptions C29_heat_uptake.

(** Whatever unit [U] of another size than delta_degC/(W/m^2) is used for q1
    and q2, the reported heat uptake is wrong, although nothing is raised and
    the temperatures are right. *)
Theorem C29_other_unit_sizes_are_wrong : forall reg parse p U,
  convertible_ir p -> p_ieps p = 1 -> 0 < p_idt p ->
  same_dim (xenv reg) U u_CWm2 -> usize reg U <> usize reg u_CWm2 ->
  exists s s' e T1 T2 T N N',
    ir_setup reg parse s p e (fun _ => 1) /\ ir_setup reg parse s' p e (fun _ => 1) /\ npoints e = 3%nat /\
    units (ir_q1 (xenv reg) s) = u_CWm2 /\ units (ir_q2 (xenv reg) s) = u_CWm2 /\
    units (ir_q1 (xenv reg) s') = U /\ units (ir_q2 (xenv reg) s') = U /\
    ir_reports reg s e T1 T2 T N /\ ir_reports reg s' e T1 T2 T N' /\ N 2%nat <> N' 2%nat.
Proof. exact c29_other_unit_sizes_are_wrong. Qed.
Print Assumptions C29_other_unit_sizes_are_wrong.

(** Such a unit: mK/(W/m^2). *)
Example C29_case :
  convertible_ir ex_ir /\ p_ieps ex_ir = 1 /\ 0 < p_idt ex_ir /\
  same_dim (xenv si) [("millikelvin"%string, 1%Q); (sW, (-1)%Q); (sm, 2%Q)] u_CWm2 /\
  usize si [("millikelvin"%string, 1%Q); (sW, (-1)%Q); (sm, 2%Q)] <> usize si u_CWm2.
Proof. exact c29_case. Qed.
