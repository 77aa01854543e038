(** Generated by tools/gen_props.py from FactsIR.v: the property theorems. *)
From Coq Require Import List String QArith Reals Qreals Bool Arith Lra Lia Psatz.
From Verif Require Import Arith Pint Base TwoLayer Impulse Scm Api Spec Exact SpecReal
  GenTL GenTLHist GenIR GenIRHist GenMeta RealUnits RealTL RealGeo RealConv RealIR RealModels RealEuler RealBox FactsRun FactsTL FactsTL2 FactsIR.
Import ListNotations.
Local Open Scope R_scope.

Theorem C14_linear_in_the_forcing : forall reg parse p s e1 e2 e3 F G c1 c2 A1 B1 T1 N1 A2 B2 T2 N2,
  ir_setup reg parse s p e1 F -> ir_setup reg parse s p e2 G ->
  ir_setup reg parse s p e3 (fun i => c1 * F i + c2 * G i) ->
  npoints e1 = npoints e3 -> npoints e2 = npoints e3 ->
  ir_reports reg s e1 A1 B1 T1 N1 -> ir_reports reg s e2 A2 B2 T2 N2 ->
  ir_reports reg s e3 (fun i => c1 * A1 i + c2 * A2 i) (fun i => c1 * B1 i + c2 * B2 i)
    (fun i => c1 * T1 i + c2 * T2 i) (fun i => c1 * N1 i + c2 * N2 i).
Proof. exact c14_linear_in_the_forcing. Qed.
Print Assumptions C14_linear_in_the_forcing.

Example C14_case : forall reg parse, exists s e1 e2 e3 A1 B1 T1 N1 A2 B2 T2 N2,
  ir_setup reg parse s ex_ir e1 (fun i => INR i) /\ ir_setup reg parse s ex_ir e2 (fun _ => 1) /\
  ir_setup reg parse s ex_ir e3 (fun i => 2 * INR i + -3 * 1) /\
  npoints e1 = 5%nat /\ npoints e2 = 5%nat /\ npoints e3 = 5%nat /\
  ir_reports reg s e1 A1 B1 T1 N1 /\ ir_reports reg s e2 A2 B2 T2 N2.
Proof. exact c14_case. Qed.

Theorem C15_two_layer_time_shift : forall reg parse s p e F k T TD N,
  tl_setup reg parse s p e F -> (2 <= npoints e)%nat -> tl_reports reg s e T TD N ->
  tl_reports reg s (delayed k e) (shift k T) (shift k TD) (shift k N).
Proof. exact c15_two_layer_time_shift. Qed.
Print Assumptions C15_two_layer_time_shift.

Theorem C15_impulse_response_time_shift : forall reg parse s p e F k T1 T2 T N,
  ir_setup reg parse s p e F -> (2 <= npoints e)%nat -> ir_reports reg s e T1 T2 T N ->
  ir_reports reg s (delayed k e) (shift k T1) (shift k T2) (shift k T) (shift k N).
Proof. exact c15_impulse_response_time_shift. Qed.
Print Assumptions C15_impulse_response_time_shift.

Example C15_case : forall reg parse, exists s e T TD N,
  tl_setup reg parse s ex_tl e (fun i => INR i) /\ npoints e = 4%nat /\ npoints (delayed 3 e) = 7%nat /\
  tl_reports reg s e T TD N /\ shift 3 T 5 = T 2%nat /\ 0 < T 2%nat.
Proof. exact c15_case. Qed.

Theorem C17_two_layer_equilibrium : forall reg p F,
  positive_tl p -> small_step p ->
  exists T TD N, constant_forcing_response reg p F T TD N /\
    Un_cv T (F / p_lambda0 p) /\ Un_cv TD (F / p_lambda0 p) /\ Un_cv N 0.
Proof. exact c17_two_layer_equilibrium. Qed.
Print Assumptions C17_two_layer_equilibrium.

Theorem C17_impulse_response_equilibrium : forall reg parse s p F T1 T2 T N,
  ir_reachable (xenv reg) parse s -> ir_values reg s p -> 0 < p_d1 p -> 0 < p_d2 p -> 0 < p_idt p ->
  ir_constant_forcing_response reg s F T1 T2 T N ->
  Un_cv T1 (p_q1 p * F) /\ Un_cv T2 (p_q2 p * F) /\ Un_cv T ((p_q1 p + p_q2 p) * F).
Proof. exact c17_impulse_response_equilibrium. Qed.
Print Assumptions C17_impulse_response_equilibrium.

(** The heat uptake tends to 0 for every step size, with efficacy 1 (q1, q2 in
    units of the size of delta_degC/(W/m^2); see C29) ... *)
Theorem C17_impulse_response_heat_uptake : forall reg parse s p F T1 T2 T N,
  ir_reachable (xenv reg) parse s -> ir_values reg s p -> 0 < p_d1 p -> 0 < p_d2 p -> 0 < p_idt p ->
  p_q1 p + p_q2 p <> 0 -> p_q1 p * p_d2 p + p_q2 p * p_d1 p <> 0 ->
  usize reg (units (ir_q1 (xenv reg) s)) = usize reg u_CWm2 ->
  usize reg (units (ir_q2 (xenv reg) s)) = usize reg u_CWm2 ->
  p_ieps p = 1 ->
  ir_constant_forcing_response reg s F T1 T2 T N ->
  Un_cv N 0.
Proof. exact c17_impulse_response_heat_uptake. Qed.
Print Assumptions C17_impulse_response_heat_uptake.

(** ... and with any other efficacy the code accepts, for positive parameters. *)
Theorem C17_impulse_response_heat_uptake_any_efficacy : forall reg parse s p F T1 T2 T N,
  ir_reachable (xenv reg) parse s -> ir_values reg s p ->
  0 < p_q1 p -> 0 < p_q2 p -> 0 < p_d1 p -> p_d1 p < p_d2 p -> 0 < p_ieps p -> 0 < p_idt p ->
  usize reg (units (ir_q1 (xenv reg) s)) = usize reg u_CWm2 ->
  usize reg (units (ir_q2 (xenv reg) s)) = usize reg u_CWm2 ->
  ir_constant_forcing_response reg s F T1 T2 T N ->
  Un_cv N 0.
Proof. exact c17_impulse_response_heat_uptake_any_efficacy. Qed.
Print Assumptions C17_impulse_response_heat_uptake_any_efficacy.

Example C17_case : positive_tl ex_tl /\ small_step ex_tl.
Proof. exact c17_case. Qed.

Example C17_impulse_response_case : forall reg parse, exists s T1 T2 T N,
  ir_reachable (xenv reg) parse s /\ ir_values reg s ex_ir /\
  usize reg (units (ir_q1 (xenv reg) s)) = usize reg u_CWm2 /\
  usize reg (units (ir_q2 (xenv reg) s)) = usize reg u_CWm2 /\
  ir_constant_forcing_response reg s 4 T1 T2 T N.
Proof. exact c17_impulse_response_case. Qed.

Theorem C18_boxes_are_exact_solutions : forall reg parse s p e F T1 T2 T N,
  ir_setup reg parse s p e F -> ir_reports reg s e T1 T2 T N ->
  ((0 < npoints e)%nat -> T1 0%nat = 0 /\ T2 0%nat = 0) /\
  forall i, (S i < npoints e)%nat ->
    (exists y, box_ode (p_q1 p) (p_d1 p) (F i) (T1 i) (p_idt p) y) /\
    (forall y, box_ode (p_q1 p) (p_d1 p) (F i) (T1 i) (p_idt p) y -> T1 (S i) = y (p_idt p)) /\
    (exists y, box_ode (p_q2 p) (p_d2 p) (F i) (T2 i) (p_idt p) y) /\
    (forall y, box_ode (p_q2 p) (p_d2 p) (F i) (T2 i) (p_idt p) y -> T2 (S i) = y (p_idt p)) /\
    T (S i) = T1 (S i) + T2 (S i).
Proof. exact c18_boxes_are_exact_solutions. Qed.
Print Assumptions C18_boxes_are_exact_solutions.

Example C18_case : forall reg parse, exists s e T1 T2 T N,
  ir_setup reg parse s ex_ir e (fun i => INR i) /\ npoints e = 4%nat /\ ir_reports reg s e T1 T2 T N /\ T1 2%nat > 0.
Proof. exact c18_case. Qed.

Theorem C19_step_size_does_not_matter : forall reg parse s s' p e F k T1 T2 T N T1' T2' T' N',
  (0 < k)%nat ->
  ir_setup reg parse s p e F ->
  ir_setup reg parse s' (mkIRPhys (p_q1 p) (p_q2 p) (p_d1 p) (p_d2 p) (p_ieps p) (p_idt p / INR k)) (stretched k e)
    (fun i => F (i / k)%nat) ->
  (2 <= npoints e)%nat ->
  ir_reports reg s e T1 T2 T N -> ir_reports reg s' (stretched k e) T1' T2' T' N' ->
  forall i, (i < npoints e)%nat -> T1' (k * i)%nat = T1 i /\ T2' (k * i)%nat = T2 i /\ T' (k * i)%nat = T i.
Proof. exact c19_step_size_does_not_matter. Qed.
Print Assumptions C19_step_size_does_not_matter.

(** The drivers of the finer run are those values, and the finer run succeeds
    whenever the coarser one does. *)
Theorem C19_finer_run_succeeds : forall reg parse s s' p e F k q T1 T2 T N,
  (0 < k)%nat ->
  ir_setup reg parse s p e F -> (2 <= npoints e)%nat -> ir_reports reg s e T1 T2 T N ->
  is_qty reg q (p_idt p / INR k) u_yr ->
  ir_set_delta_t (xenv reg) (PQ q) s = (s', Ok tt) ->
  ir_setup reg parse s' (mkIRPhys (p_q1 p) (p_q2 p) (p_d1 p) (p_d2 p) (p_ieps p) (p_idt p / INR k)) (stretched k e)
    (fun i => F (i / k)%nat) /\
  npoints (stretched k e) = (k * npoints e)%nat /\
  exists T1' T2' T' N', ir_reports reg s' (stretched k e) T1' T2' T' N'.
Proof. exact c19_finer_run_succeeds. Qed.
Print Assumptions C19_finer_run_succeeds.

(** The two-layer model does not have this property: halving the step changes
    the temperature after two coarse steps. *)
Theorem C19_two_layer_depends_on_the_step : forall reg parse, exists p s s' e T TD N T' TD' N',
  positive_tl p /\ small_step p /\
  tl_setup reg parse s p e (fun _ => 1) /\
  tl_setup reg parse s' (mkTLPhys (p_du p) (p_dl p) (p_lambda0 p) (p_a p) (p_eps p) (p_eta p) (p_dt p / 2)) (stretched 2 e) (fun _ => 1) /\
  npoints e = 3%nat /\
  tl_reports reg s e T TD N /\ tl_reports reg s' (stretched 2 e) T' TD' N' /\ T' 4%nat <> T 2%nat.
Proof. exact c19_two_layer_depends_on_the_step. Qed.
Print Assumptions C19_two_layer_depends_on_the_step.

Example C19_case : forall reg parse, exists s s' e q T1 T2 T N T1' T2' T' N',
  ir_setup reg parse s ex_ir e (fun i => INR i) /\ npoints e = 3%nat /\ ir_reports reg s e T1 T2 T N /\
  is_qty reg q (p_idt ex_ir / INR 4) u_yr /\ ir_set_delta_t (xenv reg) (PQ q) s = (s', Ok tt) /\
  ir_reports reg s' (stretched 4 e) T1' T2' T' N' /\ T' 8%nat = T 2%nat.
Proof. exact c19_case. Qed.

Theorem C20_sign : forall reg parse s p e F T1 T2 T N,
  ir_setup reg parse s p e F -> ir_reports reg s e T1 T2 T N -> positive_ir p ->
  (forall i, (i < npoints e)%nat -> 0 <= F i) ->
  forall i, (i < npoints e)%nat -> 0 <= T1 i /\ 0 <= T2 i /\ 0 <= T i.
Proof. exact c20_sign. Qed.
Print Assumptions C20_sign.

Theorem C20_monotone : forall reg parse s s' p e e' F G T1 T2 T N T1' T2' T' N',
  ir_setup reg parse s p e F -> ir_setup reg parse s' p e' G -> npoints e = npoints e' ->
  ir_reports reg s e T1 T2 T N -> ir_reports reg s' e' T1' T2' T' N' -> positive_ir p ->
  (forall i, (i < npoints e)%nat -> F i <= G i) ->
  forall i, (i < npoints e)%nat -> T1 i <= T1' i /\ T2 i <= T2' i /\ T i <= T' i.
Proof. exact c20_monotone. Qed.
Print Assumptions C20_monotone.

Theorem C20_bounded : forall reg parse s p e F T1 T2 T N M,
  ir_setup reg parse s p e F -> ir_reports reg s e T1 T2 T N -> positive_ir p ->
  (forall i, (i < npoints e)%nat -> Rabs (F i) <= M) ->
  forall i, (i < npoints e)%nat -> Rabs (T1 i) <= p_q1 p * M /\ Rabs (T2 i) <= p_q2 p * M /\ Rabs (T i) <= (p_q1 p + p_q2 p) * M.
Proof. exact c20_bounded. Qed.
Print Assumptions C20_bounded.

(** A step ten times the short timescale is no problem. *)
Example C20_case : forall reg parse, exists s e T1 T2 T N,
  positive_ir (mkIRPhys (3/10) (4/10) 9 400 1 90) /\
  ir_setup reg parse s (mkIRPhys (3/10) (4/10) 9 400 1 90) e (fun i => INR i) /\ npoints e = 4%nat /\
  ir_reports reg s e T1 T2 T N /\ 0 < T1 2%nat.
Proof. exact c20_case. Qed.

Theorem C40_impulse_response_efficacy : forall reg parse p eps s s' e F T1 T2 T N T1' T2' T' N',
  ir_setup reg parse s p e F ->
  ir_setup reg parse s' (mkIRPhys (p_q1 p) (p_q2 p) (p_d1 p) (p_d2 p) eps (p_idt p)) e F ->
  ir_reports reg s e T1 T2 T N -> ir_reports reg s' e T1' T2' T' N' ->
  forall i, (i < npoints e)%nat -> T1' i = T1 i /\ T2' i = T2 i /\ T' i = T i.
Proof. exact c40_impulse_response_efficacy. Qed.
Print Assumptions C40_impulse_response_efficacy.
