(** Generated by tools/gen_props.py from FactsLong.v: the property theorems. *)
From Coq Require Import List String QArith Reals Qreals Bool Arith Lra Lia Psatz.
From Verif Require Import Arith Pint Base TwoLayer Impulse Scm Api Spec Exact SpecReal SpecStep SpecLong
  GenTL GenTLHist GenIR GenIRHist GenMeta RealUnits RealTL RealGeo RealConv RealIR RealModels RealEuler RealBox RealEquiv RealStep RealLong
  FactsTL FactsTL2 FactsConv FactsIR FactsStep FactsLong.
Import ListNotations.
Local Open Scope R_scope.

(** The two-layer model settles exactly when its forcing does. *)
Theorem C62_settles : forall reg s p q1 q2 d1 d2 F T TD N L,
  tl_values reg s p -> positive_tl p -> tl_converts reg s q1 q2 d1 d2 -> p_dt p < 2 * d1 ->
  forcing_response reg p F T TD N -> Un_cv F L ->
  Un_cv T (L / p_lambda0 p) /\ Un_cv TD (L / p_lambda0 p) /\ Un_cv N 0.
Proof. exact c62_settles. Qed.
Print Assumptions C62_settles.

Theorem C62_settles_only_then : forall reg s p q1 q2 d1 d2 F T TD N x,
  tl_values reg s p -> positive_tl p -> tl_converts reg s q1 q2 d1 d2 -> p_dt p < 2 * d1 ->
  forcing_response reg p F T TD N -> Un_cv T x -> Un_cv F (p_lambda0 p * x).
Proof. exact c62_settles_only_then. Qed.
Print Assumptions C62_settles_only_then.

(** What was forced long ago is forgotten. *)
Theorem C62_forgets : forall reg s p q1 q2 d1 d2 F G T TD N T' TD' N',
  tl_values reg s p -> positive_tl p -> tl_converts reg s q1 q2 d1 d2 -> p_dt p < 2 * d1 ->
  forcing_response reg p F T TD N -> forcing_response reg p G T' TD' N' -> merges F G ->
  merges T T' /\ merges TD TD' /\ merges N N'.
Proof. exact c62_forgets. Qed.
Print Assumptions C62_forgets.

(** A forcing that repeats itself has a response that does so in the long run. *)
Theorem C62_cycles : forall reg s p q1 q2 d1 d2 F T TD N m,
  tl_values reg s p -> positive_tl p -> tl_converts reg s q1 q2 d1 d2 -> p_dt p < 2 * d1 ->
  forcing_response reg p F T TD N -> merges (fun i => F (i + m)%nat) F ->
  merges (fun i => T (i + m)%nat) T /\ merges (fun i => TD (i + m)%nat) TD /\ merges (fun i => N (i + m)%nat) N.
Proof. exact c62_cycles. Qed.
Print Assumptions C62_cycles.

(** Averages over a window respond like a constant. *)
Theorem C62_averages : forall reg s p q1 q2 d1 d2 F T TD N m L,
  tl_values reg s p -> positive_tl p -> tl_converts reg s q1 q2 d1 d2 -> p_dt p < 2 * d1 ->
  forcing_response reg p F T TD N -> Un_cv (window m F) L ->
  Un_cv (window m T) (L / p_lambda0 p) /\ Un_cv (window m TD) (L / p_lambda0 p).
Proof. exact c62_averages. Qed.
Print Assumptions C62_averages.

(** Under a steady increase of the forcing by [g] a step the model warms at
    [g] / [lambda0] a step, [lag] seconds behind the equilibrium, for every step. *)
Theorem C62_ramp : forall reg s p q1 q2 d1 d2 F T TD N g c,
  tl_values reg s p -> positive_tl p -> tl_converts reg s q1 q2 d1 d2 -> p_dt p < 2 * d1 ->
  forcing_response reg p F T TD N -> merges F (fun i => g * INR i + c) ->
  let lag := (p_C p + p_eps p * p_CD p) / p_lambda0 p in
  merges T (fun i => (g * (INR i - lag / p_dt p) + c) / p_lambda0 p) /\
  merges TD (fun i => (g * (INR i - (lag + p_CD p / p_eta p) / p_dt p) + c) / p_lambda0 p) /\
  Un_cv N ((p_C p + p_CD p) * (g / p_lambda0 p) / p_dt p).
Proof. exact c62_ramp. Qed.
Print Assumptions C62_ramp.

(** The whole response to a forcing that adds up to [A], and the heat it leaves. *)
Theorem C62_totals : forall reg s p q1 q2 d1 d2 F T TD N A,
  tl_values reg s p -> positive_tl p -> tl_converts reg s q1 q2 d1 d2 -> p_dt p < 2 * d1 ->
  forcing_response reg p F T TD N -> Un_cv (sum_f_R0 F) A ->
  Un_cv (sum_f_R0 T) (A / p_lambda0 p) /\ Un_cv (sum_f_R0 TD) (A / p_lambda0 p) /\ Un_cv (sum_f_R0 N) 0.
Proof. exact c62_totals. Qed.
Print Assumptions C62_totals.

Theorem C62_impulse_response_settles : forall reg parse s p F T1 T2 T N L,
  ir_reachable (xenv reg) parse s -> ir_values reg s p -> 0 < p_d1 p -> 0 < p_d2 p -> 0 < p_idt p ->
  ir_forcing_response reg s F T1 T2 T N -> Un_cv F L ->
  Un_cv T1 (p_q1 p * L) /\ Un_cv T2 (p_q2 p * L) /\ Un_cv T ((p_q1 p + p_q2 p) * L).
Proof. exact c62_impulse_response_settles. Qed.
Print Assumptions C62_impulse_response_settles.

Theorem C62_impulse_response_settles_only_then : forall reg parse s p F T1 T2 T N x,
  ir_reachable (xenv reg) parse s -> ir_values reg s p -> 0 < p_q1 p -> 0 < p_q2 p -> 0 < p_d1 p -> 0 < p_d2 p -> 0 < p_idt p ->
  ir_forcing_response reg s F T1 T2 T N -> Un_cv T x -> Un_cv F (x / (p_q1 p + p_q2 p)).
Proof. exact c62_impulse_response_settles_only_then. Qed.
Print Assumptions C62_impulse_response_settles_only_then.

Theorem C62_impulse_response_heat_uptake : forall reg parse s p F T1 T2 T N,
  ir_reachable (xenv reg) parse s -> ir_values reg s p ->
  0 < p_q1 p -> 0 < p_q2 p -> 0 < p_d1 p -> p_d1 p < p_d2 p -> 0 < p_ieps p -> 0 < p_idt p ->
  usize reg (units (ir_q1 (xenv reg) s)) = usize reg u_CWm2 ->
  usize reg (units (ir_q2 (xenv reg) s)) = usize reg u_CWm2 ->
  ir_forcing_response reg s F T1 T2 T N ->
  (forall L, Un_cv F L -> Un_cv N 0) /\ (forall A, Un_cv (sum_f_R0 F) A -> Un_cv (sum_f_R0 N) 0).
Proof. exact c62_impulse_response_heat_uptake. Qed.
Print Assumptions C62_impulse_response_heat_uptake.

Theorem C62_impulse_response_forgets : forall reg parse s p F G T1 T2 T N T1' T2' T' N',
  ir_reachable (xenv reg) parse s -> ir_values reg s p -> 0 < p_d1 p -> 0 < p_d2 p -> 0 < p_idt p ->
  ir_forcing_response reg s F T1 T2 T N -> ir_forcing_response reg s G T1' T2' T' N' -> merges F G ->
  merges T1 T1' /\ merges T2 T2' /\ merges T T' /\ merges N N'.
Proof. exact c62_impulse_response_forgets. Qed.
Print Assumptions C62_impulse_response_forgets.

Theorem C62_impulse_response_cycles : forall reg parse s p F T1 T2 T N m,
  ir_reachable (xenv reg) parse s -> ir_values reg s p -> 0 < p_d1 p -> 0 < p_d2 p -> 0 < p_idt p ->
  ir_forcing_response reg s F T1 T2 T N -> merges (fun i => F (i + m)%nat) F ->
  merges (fun i => T1 (i + m)%nat) T1 /\ merges (fun i => T2 (i + m)%nat) T2 /\
  merges (fun i => T (i + m)%nat) T /\ merges (fun i => N (i + m)%nat) N.
Proof. exact c62_impulse_response_cycles. Qed.
Print Assumptions C62_impulse_response_cycles.

Theorem C62_impulse_response_averages : forall reg parse s p F T1 T2 T N m L,
  ir_reachable (xenv reg) parse s -> ir_values reg s p -> 0 < p_d1 p -> 0 < p_d2 p -> 0 < p_idt p ->
  ir_forcing_response reg s F T1 T2 T N -> Un_cv (window m F) L ->
  Un_cv (window m T1) (p_q1 p * L) /\ Un_cv (window m T2) (p_q2 p * L) /\ Un_cv (window m T) ((p_q1 p + p_q2 p) * L).
Proof. exact c62_impulse_response_averages. Qed.
Print Assumptions C62_impulse_response_averages.

(** Each box follows a ramp [dt] / (1 - exp(- [dt] / [d])) seconds behind. *)
Theorem C62_impulse_response_ramp : forall reg parse s p F T1 T2 T N g c,
  ir_reachable (xenv reg) parse s -> ir_values reg s p -> 0 < p_d1 p -> 0 < p_d2 p -> 0 < p_idt p ->
  ir_forcing_response reg s F T1 T2 T N -> merges F (fun i => g * INR i + c) ->
  let lag d := p_idt p / (1 - exp (- p_idt p / d)) in
  let box q d i := q * (g * (INR i - lag d / p_idt p) + c) in
  merges T1 (box (p_q1 p) (p_d1 p)) /\ merges T2 (box (p_q2 p) (p_d2 p)) /\
  merges T (fun i => box (p_q1 p) (p_d1 p) i + box (p_q2 p) (p_d2 p) i) /\
  (forall d, 0 < d -> d < lag d < d + p_idt p).
Proof. exact c62_impulse_response_ramp. Qed.
Print Assumptions C62_impulse_response_ramp.

Theorem C62_impulse_response_totals : forall reg parse s p F T1 T2 T N A,
  ir_reachable (xenv reg) parse s -> ir_values reg s p -> 0 < p_d1 p -> 0 < p_d2 p -> 0 < p_idt p ->
  ir_forcing_response reg s F T1 T2 T N -> Un_cv (sum_f_R0 F) A ->
  Un_cv (sum_f_R0 T1) (p_q1 p * A) /\ Un_cv (sum_f_R0 T2) (p_q2 p * A) /\ Un_cv (sum_f_R0 T) ((p_q1 p + p_q2 p) * A).
Proof. exact c62_impulse_response_totals. Qed.
Print Assumptions C62_impulse_response_totals.

Example C62_case : forall reg parse F, exists s q1 q2 d1 d2 T TD N,
  tl_reachable (xenv reg) parse s /\ tl_values reg s (ex_step 5) /\ positive_tl (ex_step 5) /\ tl_converts reg s q1 q2 d1 d2 /\
  p_dt (ex_step 5) < 2 * d1 /\ forcing_response reg (ex_step 5) F T TD N.
Proof. exact c62_case. Qed.

Example C62_forcing_cases :
  Un_cv (fun i => 4 + / INR (S i)) 4 /\
  merges (fun i => 3 * INR i + (1 + / INR (S i))) (fun i => 3 * INR i + 1) /\
  merges (fun i => (-1) ^ (i + 2)) (fun i => (-1) ^ i) /\ Un_cv (window 1 (fun i => (-1) ^ i)) 0 /\
  Un_cv (sum_f_R0 (fun i => if (i <? 2)%nat then 5 else 0)) 10.
Proof. exact c62_forcing_cases. Qed.

Example C62_impulse_response_case : forall reg parse F, exists s T1 T2 T N,
  ir_reachable (xenv reg) parse s /\ ir_values reg s ex_ir /\
  usize reg (units (ir_q1 (xenv reg) s)) = usize reg u_CWm2 /\
  usize reg (units (ir_q2 (xenv reg) s)) = usize reg u_CWm2 /\
  ir_forcing_response reg s F T1 T2 T N.
Proof. exact c62_impulse_response_case. Qed.
