(** Generated by tools/gen_props.py from FactsIR2.v: the property theorems. *)
From Coq Require Import List String QArith Reals Qreals Bool Arith Lra Lia Psatz.
From Verif Require Import Arith Pint Base TwoLayer Impulse Scm Api Spec Exact SpecReal
  GenTL GenTLHist GenIR GenIRHist GenMeta RealUnits RealTL RealGeo RealConv RealIR RealModels RealEuler RealBox RealTrace FactsRun FactsTL FactsTL2 FactsIR FactsEquiv FactsIR2.
Import ListNotations.
Local Open Scope R_scope.

Theorem C48_heat_uptake_formula : forall reg parse s p e F T1 T2 T N,
  ir_setup reg parse s p e F -> ir_reports reg s e T1 T2 T N -> convertible_ir p ->
  usize reg (units (ir_q1 (xenv reg) s)) = usize reg u_CWm2 ->
  usize reg (units (ir_q2 (xenv reg) s)) = usize reg u_CWm2 ->
  forall i, (S i < npoints e)%nat ->
  N (S i) = F i - (T1 i + T2 i) / (p_q1 p + p_q2 p) -
    (1 - 1 / p_ieps p) * (p_d2 p - p_d1 p) * (p_q2 p * T1 i - p_q1 p * T2 i) /
      ((p_q1 p + p_q2 p) * (p_q1 p * p_d2 p + p_q2 p * p_d1 p)).
Proof. exact c48_heat_uptake_formula. Qed.
Print Assumptions C48_heat_uptake_formula.

Theorem C46_impulse_response_similarity : forall reg parse s s' p e e' F k c m T1 T2 T N T1' T2' T' N',
  0 < k -> 0 < c -> 0 < m -> convertible_ir p ->
  usize reg (units (ir_q1 (xenv reg) s)) = usize reg u_CWm2 ->
  usize reg (units (ir_q2 (xenv reg) s)) = usize reg u_CWm2 ->
  usize reg (units (ir_q1 (xenv reg) s')) = usize reg u_CWm2 ->
  usize reg (units (ir_q2 (xenv reg) s')) = usize reg u_CWm2 ->
  ir_setup reg parse s p e F -> ir_reports reg s e T1 T2 T N ->
  ir_setup reg parse s' (scaled_ir k c m p) e' (fun i => c * F i) -> npoints e' = npoints e ->
  ir_reports reg s' e' T1' T2' T' N' ->
  forall i, (i < npoints e)%nat ->
  T1' i = m * T1 i /\ T2' i = m * T2 i /\ T' i = m * T i /\ N' i = c * N i.
Proof. exact c46_impulse_response_similarity. Qed.
Print Assumptions C46_impulse_response_similarity.

Theorem C47_impulse_response_warming : forall reg parse s p e F T1 T2 T N,
  ir_setup reg parse s p e F -> ir_reports reg s e T1 T2 T N -> convertible_ir p -> 0 < p_idt p ->
  usize reg (units (ir_q1 (xenv reg) s)) = usize reg u_CWm2 ->
  usize reg (units (ir_q2 (xenv reg) s)) = usize reg u_CWm2 ->
  0 <= F 0%nat -> (forall i, (S i < npoints e)%nat -> F i <= F (S i)) ->
  (forall i, (i < npoints e)%nat -> 0 <= T1 i /\ 0 <= T2 i /\ T2 i / p_q2 p <= T1 i / p_q1 p /\ 0 <= N i) /\
  (forall i, (S i < npoints e)%nat ->
    T1 i <= T1 (S i) <= p_q1 p * F i /\ T2 i <= T2 (S i) <= p_q2 p * F i /\ T i <= T (S i) <= (p_q1 p + p_q2 p) * F i).
Proof. exact c47_impulse_response_warming. Qed.
Print Assumptions C47_impulse_response_warming.

Example C48_case : forall reg parse, exists s e T1 T2 T N,
  ir_setup reg parse s ex_ir2 e (fun i => INR i) /\ npoints e = 4%nat /\ ir_reports reg s e T1 T2 T N /\
  convertible_ir ex_ir2 /\ usize reg (units (ir_q1 (xenv reg) s)) = usize reg u_CWm2 /\
  usize reg (units (ir_q2 (xenv reg) s)) = usize reg u_CWm2.
Proof. exact c48_case. Qed.

Example C46_impulse_response_case : forall reg parse, exists s e s' e' T1 T2 T N T1' T2' T' N',
  ir_setup reg parse s ex_ir2 e (fun i => INR i) /\ npoints e = 4%nat /\ ir_reports reg s e T1 T2 T N /\
  ir_setup reg parse s' (scaled_ir 2 3 5 ex_ir2) e' (fun i => 3 * INR i) /\ npoints e' = 4%nat /\ ir_reports reg s' e' T1' T2' T' N' /\
  usize reg (units (ir_q1 (xenv reg) s)) = usize reg u_CWm2 /\ usize reg (units (ir_q2 (xenv reg) s)) = usize reg u_CWm2 /\
  usize reg (units (ir_q1 (xenv reg) s')) = usize reg u_CWm2 /\ usize reg (units (ir_q2 (xenv reg) s')) = usize reg u_CWm2 /\
  convertible_ir ex_ir2.
Proof. exact c46_impulse_response_case. Qed.

Example C47_impulse_response_case : forall reg parse, exists s e T1 T2 T N,
  ir_setup reg parse s ex_ir2 e (fun i => INR i) /\ npoints e = 4%nat /\ ir_reports reg s e T1 T2 T N /\
  convertible_ir ex_ir2 /\ 0 < p_idt ex_ir2 /\ usize reg (units (ir_q1 (xenv reg) s)) = usize reg u_CWm2 /\
  usize reg (units (ir_q2 (xenv reg) s)) = usize reg u_CWm2 /\ 0 <= INR 0 /\ (forall i, INR i <= INR (S i)).
Proof. exact c47_impulse_response_case. Qed.
