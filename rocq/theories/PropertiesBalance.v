(** Generated by tools/gen_props.py from FactsBalance.v: the property theorems. *)
From Coq Require Import List String QArith Reals Qreals Bool Arith Lra Lia Psatz.
From Verif Require Import Arith Pint Base TwoLayer Impulse Scm Api Spec Exact SpecReal
  GenTL GenTLHist GenIR GenIRHist GenMeta RealUnits RealTL RealGeo RealConv RealIR RealModels RealEuler RealBox RealTrace
  FactsRun FactsTL FactsTL2 FactsIR FactsConv FactsEquiv FactsIR2 SpecBalance FactsBalance.
Import ListNotations.
Local Open Scope R_scope.

(** What adding up the reported heat uptakes gives: the heat each box loses, over a
    timescale stretched by the step. *)
Theorem C69_uptake_total : forall reg parse s p e F T1 T2 T N,
  ir_setup reg parse s p e F -> ir_reports reg s e T1 T2 T N -> convertible_ir p -> p_idt p <> 0 ->
  usize reg (units (ir_q1 (xenv reg) s)) = usize reg u_CWm2 ->
  usize reg (units (ir_q2 (xenv reg) s)) = usize reg u_CWm2 ->
  (forall i, (S i < npoints e)%nat -> N (S i) = F i - heat_loss p (T1 i) (T2 i)) /\
  forall i, (i < npoints e)%nat ->
  p_idt p * total N i = heat_loss p (stretched_timescale (p_idt p) (p_d1 p) * T1 i) (stretched_timescale (p_idt p) (p_d2 p) * T2 i).
Proof. exact c69_uptake_total. Qed.
Print Assumptions C69_uptake_total.

(** The heat stored in the equivalent two-layer model: the same with the timescales themselves. *)
Theorem C69_stored_heat : forall reg parse s p e F,
  ir_setup reg parse s p e F -> convertible_ir p ->
  (exists H, stored_heat_is s H) /\
  forall H, stored_heat_is s H -> forall x1 x2, H x1 x2 = year_s reg * heat_loss p (p_d1 p * x1) (p_d2 p * x2).
Proof. exact c69_stored_heat. Qed.
Print Assumptions C69_stored_heat.

(** Under a forcing that is never negative the uptakes reported by an impulse-response run
    add up to more than is stored: by half a timestep's heat loss at least and one
    timestep's at most. *)
Theorem C69_uptake_exceeds_storage : forall reg parse s p e F T1 T2 T N H,
  ir_setup reg parse s p e F -> ir_reports reg s e T1 T2 T N -> convertible_ir p -> 0 < p_idt p -> fast_box_loses p ->
  usize reg (units (ir_q1 (xenv reg) s)) = usize reg u_CWm2 ->
  usize reg (units (ir_q2 (xenv reg) s)) = usize reg u_CWm2 ->
  (forall i, (i < npoints e)%nat -> 0 <= F i) -> stored_heat_is s H ->
  let dt := year_s reg * p_idt p in
  forall i, (i < npoints e)%nat ->
    dt / 2 * heat_loss p (T1 i) (T2 i) <= dt * total N i - H (T1 i) (T2 i) <= dt * heat_loss p (T1 i) (T2 i).
Proof. exact c69_uptake_exceeds_storage. Qed.
Print Assumptions C69_uptake_exceeds_storage.

(** Under any forcing bounded by [M] they differ by at most delta_t*M, however long the run:
    the heat balance closes as the timestep gets smaller. *)
Theorem C69_balance_error : forall reg parse s p e F T1 T2 T N H M,
  ir_setup reg parse s p e F -> ir_reports reg s e T1 T2 T N -> convertible_ir p -> 0 < p_idt p -> fast_box_loses p ->
  usize reg (units (ir_q1 (xenv reg) s)) = usize reg u_CWm2 ->
  usize reg (units (ir_q2 (xenv reg) s)) = usize reg u_CWm2 ->
  (forall i, (i < npoints e)%nat -> Rabs (F i) <= M) -> stored_heat_is s H ->
  let dt := year_s reg * p_idt p in
  forall i, (i < npoints e)%nat -> Rabs (dt * total N i - H (T1 i) (T2 i)) <= dt * M.
Proof. exact c69_balance_error. Qed.
Print Assumptions C69_balance_error.

(** The condition on the fast box holds whenever the efficacy is one or more. *)
Theorem C69_condition : forall p, convertible_ir p -> 1 <= p_ieps p -> fast_box_loses p.
Proof. exact c69_condition. Qed.
Print Assumptions C69_condition.

Example C69_case : forall reg parse, exists s e T1 T2 T N,
  ir_setup reg parse s ex_ir2 e (fun i => INR i) /\ npoints e = 4%nat /\ ir_reports reg s e T1 T2 T N /\
  convertible_ir ex_ir2 /\ 0 < p_idt ex_ir2 /\ fast_box_loses ex_ir2 /\ p_ieps ex_ir2 <> 1 /\
  usize reg (units (ir_q1 (xenv reg) s)) = usize reg u_CWm2 /\ usize reg (units (ir_q2 (xenv reg) s)) = usize reg u_CWm2 /\
  0 < heat_loss ex_ir2 (T1 3%nat) (T2 3%nat).
Proof. exact c69_case. Qed.
