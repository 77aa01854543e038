(** Generated by tools/gen_props.py from FactsFeedback.v: the property theorems. *)
From Coq Require Import List String QArith Reals Qreals Bool Arith Lra Lia Psatz.
From Verif Require Import Arith Pint Base TwoLayer Impulse Scm Api Spec Exact SpecReal
  RealUnits RealTL RealGeo RealModels RealEuler FactsRun FactsTL FactsTL2 SpecFeedback FactsFeedback.
Import ListNotations.
Local Open Scope R_scope.

(** Never negative, and (if the feedback does not weaken with temperature) never above the
    warming the largest forcing would give without state dependence. *)
Theorem C70_range : forall reg parse s p e F T TD N M,
  tl_setup reg parse s p e F -> tl_reports reg s e T TD N -> feedback_step p (M / p_lambda0 p) ->
  (forall i, (i < npoints e)%nat -> 0 <= F i <= M) ->
  forall i, (i < npoints e)%nat -> 0 <= T i /\ 0 <= TD i /\ (p_a p <= 0 -> T i <= M / p_lambda0 p /\ TD i <= M / p_lambda0 p).
Proof. exact c70_range. Qed.
Print Assumptions C70_range.

(** A larger forcing, a larger a and a smaller lambda0 give nowhere smaller temperatures. *)
Theorem C70_compare : forall reg parse s s' p lam a e e' F F' T TD N T' TD' N' M,
  tl_setup reg parse s p e F -> tl_reports reg s e T TD N ->
  tl_setup reg parse s' (with_feedback lam a p) e' F' -> tl_reports reg s' e' T' TD' N' -> npoints e' = npoints e ->
  0 < lam -> lam <= p_lambda0 p -> p_a p <= a -> feedback_step p (M / lam) ->
  (forall i, (i < npoints e)%nat -> 0 <= F i <= F' i /\ F' i <= M) ->
  forall i, (i < npoints e)%nat -> T i <= T' i /\ TD i <= TD' i.
Proof. exact c70_compare. Qed.
Print Assumptions C70_compare.

(** Forcings added: the temperatures are at least the sum if a >= 0, at most if a <= 0. *)
Theorem C70_forcings_added : forall reg parse s1 s2 s p e1 e2 e F G T1 TD1 N1 T2 TD2 N2 T TD N M1 M2,
  tl_setup reg parse s1 p e1 F -> tl_reports reg s1 e1 T1 TD1 N1 ->
  tl_setup reg parse s2 p e2 G -> tl_reports reg s2 e2 T2 TD2 N2 ->
  tl_setup reg parse s p e (fun i => F i + G i) -> tl_reports reg s e T TD N ->
  npoints e1 = npoints e -> npoints e2 = npoints e ->
  feedback_step p ((M1 + M2) / p_lambda0 p) -> (forall i, (i < npoints e)%nat -> 0 <= F i <= M1 /\ 0 <= G i <= M2) ->
  forall i, (i < npoints e)%nat ->
    (0 <= p_a p -> T1 i + T2 i <= T i /\ TD1 i + TD2 i <= TD i) /\ (p_a p <= 0 -> T i <= T1 i + T2 i /\ TD i <= TD1 i + TD2 i).
Proof. exact c70_forcings_added. Qed.
Print Assumptions C70_forcings_added.

(** A forcing multiplied by k >= 1: at least k times the temperatures if a >= 0, at most if a <= 0. *)
Theorem C70_forcing_multiplied : forall reg parse s s' p e e' F k T TD N T' TD' N' M,
  tl_setup reg parse s p e F -> tl_reports reg s e T TD N ->
  tl_setup reg parse s' p e' (fun i => k * F i) -> tl_reports reg s' e' T' TD' N' -> npoints e' = npoints e ->
  1 <= k -> feedback_step p (k * M / p_lambda0 p) -> (forall i, (i < npoints e)%nat -> 0 <= F i <= M) ->
  forall i, (i < npoints e)%nat ->
    (0 <= p_a p -> k * T i <= T' i /\ k * TD i <= TD' i) /\ (p_a p <= 0 -> T' i <= k * T i /\ TD' i <= k * TD i).
Proof. exact c70_forcing_multiplied. Qed.
Print Assumptions C70_forcing_multiplied.

(** A forcing that starts at or above zero and never falls: nothing ever cools, the deep
    layer is never warmer than the surface, and heat is taken up. *)
Theorem C70_rising : forall reg parse s p e F T TD N M,
  tl_setup reg parse s p e F -> tl_reports reg s e T TD N -> feedback_step p (M / p_lambda0 p) ->
  (forall i, (i < npoints e)%nat -> 0 <= F i <= M) -> (forall i, (S i < npoints e)%nat -> F i <= F (S i)) ->
  (forall i, (S i < npoints e)%nat -> T i <= T (S i) /\ TD i <= TD (S i)) /\
  forall i, (i < npoints e)%nat -> TD i <= T i /\ 0 <= N i.
Proof. exact c70_rising. Qed.
Print Assumptions C70_rising.

(** No tipping: as long as a forcing, however it varies, stays at or below a level for which
    some temperature r is an equilibrium (or cools), neither layer ever gets warmer than r. *)
Theorem C70_no_tipping : forall reg parse s p e F T TD N M r,
  tl_setup reg parse s p e F -> tl_reports reg s e T TD N -> feedback_step p (M / p_lambda0 p) ->
  0 <= p_a p -> 0 <= r -> p_a p * (r * r) - p_lambda0 p * r + M <= 0 -> (forall i, (i < npoints e)%nat -> 0 <= F i <= M) ->
  forall i, (i < npoints e)%nat -> T i <= r /\ TD i <= r.
Proof. exact c70_no_tipping. Qed.
Print Assumptions C70_no_tipping.

Example C70_case : forall reg parse a, -5/100 <= a <= 5/100 -> exists s e T TD N s' e' T' TD' N',
  feedback_step (ex_warm a) (8 / p_lambda0 (ex_warm a)) /\
  tl_setup reg parse s (ex_warm a) e (fun i => INR i) /\ npoints e = 4%nat /\ tl_reports reg s e T TD N /\
  tl_setup reg parse s' (ex_warm a) e' (fun i => INR i + INR i) /\ npoints e' = 4%nat /\ tl_reports reg s' e' T' TD' N' /\
  (0 < a -> 2 * T 3%nat < T' 3%nat) /\ (a < 0 -> T' 3%nat < 2 * T 3%nat).
Proof. exact c70_case. Qed.
