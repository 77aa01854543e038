(** Vocabulary for state-dependent feedback (C70). *)
From Coq Require Import Reals.
From Verif Require Import SpecReal.
Local Open Scope R_scope.

(** Parameters in their usual ranges (any [a]), and a step small enough for temperatures from
    0 to [B]: with a < 0 the feedback lambda0 - 2 a T grows with the temperature; with a >= 0
    this is the step condition of the model without state dependence, whatever [B]. *)
Definition feedback_step (p : TLP) (B : R) : Prop :=
  0 < p_du p /\ 0 < p_dl p /\ 0 < p_lambda0 p /\ 0 <= p_eps p /\ 0 <= p_eta p /\ 0 < p_dt p /\
  p_dt p * (p_lambda0 p + 2 * Rmax 0 (- p_a p) * B + p_eps p * p_eta p) <= p_C p /\ p_dt p * p_eta p <= p_CD p.
(** The same model with another feedback. *)
Definition with_feedback (lambda0 a : R) (p : TLP) : TLP :=
  mkTLPhys (p_du p) (p_dl p) lambda0 a (p_eps p) (p_eta p) (p_dt p).
