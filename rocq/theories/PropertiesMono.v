(** Generated by tools/gen_props.py from FactsMono.v: the property theorems. *)
From Coq Require Import List String QArith Reals Qreals Bool Arith Lra Lia Psatz.
From Verif Require Import Arith Pint Base TwoLayer Impulse Scm Api Spec Exact SpecReal SpecStep
  GenTL GenTLHist GenIR GenIRHist GenMeta RealUnits RealTL RealGeo RealConv RealIR RealModels RealEuler RealBox RealEquiv
  FactsTL FactsTL2 FactsIR FactsTL3 FactsIR2 FactsMono.
Import ListNotations.
Local Open Scope R_scope.

(** A stronger climate feedback gives less warming under every forcing that is
    never negative. *)
Theorem C59_feedback : forall reg parse s s' p lam' e F T TD N T' TD' N',
  tl_setup reg parse s p e F -> tl_reports reg s e T TD N ->
  tl_setup reg parse s' (with_lambda0 lam' p) e F -> tl_reports reg s' e T' TD' N' ->
  positive_tl p -> small_step (with_lambda0 lam' p) -> p_lambda0 p <= lam' ->
  (forall i, (i < npoints e)%nat -> 0 <= F i) ->
  forall i, (i < npoints e)%nat -> 0 <= T' i <= T i /\ 0 <= TD' i <= TD i.
Proof. exact c59_feedback. Qed.
Print Assumptions C59_feedback.

(** Deeper layers, a stronger feedback and a larger efficacy slow the warming
    of both layers under rising forcing. *)
Theorem C59_slower_warming : forall reg parse s s' p p' e F T TD N T' TD' N',
  tl_setup reg parse s p e F -> tl_reports reg s e T TD N ->
  tl_setup reg parse s' p' e F -> tl_reports reg s' e T' TD' N' ->
  positive_tl p -> small_step p -> positive_tl p' -> small_step p' ->
  p_du p <= p_du p' -> p_dl p <= p_dl p' -> p_lambda0 p <= p_lambda0 p' -> p_eps p <= p_eps p' ->
  p_eta p' = p_eta p -> p_dt p' = p_dt p ->
  0 <= F 0%nat -> (forall i, (S i < npoints e)%nat -> F i <= F (S i)) ->
  forall i, (i < npoints e)%nat -> 0 <= T' i <= T i /\ 0 <= TD' i <= TD i.
Proof. exact c59_slower_warming. Qed.
Print Assumptions C59_slower_warming.

Theorem C59_sensitivities : forall reg parse s s' p q1' q2' e e' F T1 T2 T N T1' T2' T' N',
  ir_setup reg parse s p e F -> ir_reports reg s e T1 T2 T N ->
  ir_setup reg parse s' (with_sensitivities q1' q2' p) e' F -> ir_reports reg s' e' T1' T2' T' N' ->
  npoints e' = npoints e -> positive_ir p -> p_q1 p <= q1' -> p_q2 p <= q2' ->
  (forall i, (i < npoints e)%nat -> 0 <= F i) ->
  forall i, (i < npoints e)%nat -> 0 <= T1 i <= T1' i /\ 0 <= T2 i <= T2' i /\ 0 <= T i <= T' i.
Proof. exact c59_sensitivities. Qed.
Print Assumptions C59_sensitivities.

Theorem C59_timescales : forall reg parse s s' p d1' d2' e e' F T1 T2 T N T1' T2' T' N',
  ir_setup reg parse s p e F -> ir_reports reg s e T1 T2 T N ->
  ir_setup reg parse s' (with_timescales d1' d2' p) e' F -> ir_reports reg s' e' T1' T2' T' N' ->
  npoints e' = npoints e -> positive_ir p -> p_d1 p <= d1' -> p_d2 p <= d2' ->
  0 <= F 0%nat -> (forall i, (S i < npoints e)%nat -> F i <= F (S i)) ->
  forall i, (i < npoints e)%nat -> 0 <= T1' i <= T1 i /\ 0 <= T2' i <= T2 i /\ 0 <= T' i <= T i.
Proof. exact c59_timescales. Qed.
Print Assumptions C59_timescales.

(** The hypotheses can be met with different parameters and results. *)
Example C59_two_layer_case : forall reg parse, exists s s' e T TD N T' TD' N',
  tl_setup reg parse s ex_tl e (fun i => INR i) /\ tl_reports reg s e T TD N /\ npoints e = 4%nat /\
  tl_setup reg parse s' (with_lambda0 2 ex_tl) e (fun i => INR i) /\ tl_reports reg s' e T' TD' N' /\
  positive_tl ex_tl /\ small_step (with_lambda0 2 ex_tl) /\ T' 3%nat < T 3%nat.
Proof. exact c59_two_layer_case. Qed.

Example C59_slower_case : forall reg parse, let p' := mkTLPhys 80 2000 (3/2) 0 (6/5) (4/5) 31557600 in
  exists s s' e T TD N T' TD' N',
  tl_setup reg parse s ex_tl e (fun i => INR i) /\ tl_reports reg s e T TD N /\ npoints e = 4%nat /\
  tl_setup reg parse s' p' e (fun i => INR i) /\ tl_reports reg s' e T' TD' N' /\
  positive_tl p' /\ small_step p' /\ T' 3%nat < T 3%nat /\ TD' 3%nat < TD 3%nat.
Proof. exact c59_slower_case. Qed.

(** After a pulse a deeper layer stays warmer, so rising forcing is needed. *)
Example C59_pulse : forall reg parse, let F := fun i => if (i =? 0)%nat then 4 else 0 in
  let p := mkTLPhys (21/5) 1200 (1/4) 0 1 (1/4) 31557600 in let p' := mkTLPhys (42/5) 1200 (1/4) 0 1 (1/4) 31557600 in
  exists s s' e T TD N T' TD' N',
  tl_setup reg parse s p e F /\ tl_reports reg s e T TD N /\ npoints e = 3%nat /\
  tl_setup reg parse s' p' e F /\ tl_reports reg s' e T' TD' N' /\
  positive_tl p /\ small_step p /\ positive_tl p' /\ small_step p' /\ T 2%nat < T' 2%nat.
Proof. exact c59_pulse. Qed.

Example C59_impulse_response_case : forall reg parse, exists s s' s'' e e' e'' T1 T2 T N T1' T2' T' N' T1'' T2'' T'' N'',
  ir_setup reg parse s ex_ir2 e (fun i => INR i) /\ npoints e = 4%nat /\ ir_reports reg s e T1 T2 T N /\
  ir_setup reg parse s' (with_sensitivities 1 2 ex_ir2) e' (fun i => INR i) /\ npoints e' = 4%nat /\ ir_reports reg s' e' T1' T2' T' N' /\
  ir_setup reg parse s'' (with_timescales 20 1000 ex_ir2) e'' (fun i => INR i) /\ npoints e'' = 4%nat /\ ir_reports reg s'' e'' T1'' T2'' T'' N'' /\
  positive_ir ex_ir2 /\ p_q1 ex_ir2 <= 1 /\ p_q2 ex_ir2 <= 2 /\ p_d1 ex_ir2 <= 20 /\ p_d2 ex_ir2 <= 1000.
Proof. exact c59_impulse_response_case. Qed.
