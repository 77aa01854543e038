(** Specification vocabulary for C62: the response to a forcing that goes on for ever. *)
From Coq Require Import Reals String List.
From Verif Require Import Arith Pint Base TwoLayer Impulse Exact SpecReal.
Local Open Scope R_scope.

(** [T], [TD] and [N] are what every two-layer model with the parameters [p]
    reports for every stretch of the forcing [F], however long. *)
Definition forcing_response (reg : Registry) (p : TLP) (F T TD N : nat -> R) : Prop :=
  forall parse s e, tl_setup reg parse s p e F -> tl_reports reg s e T TD N.
(** The same of the impulse-response model [s]. *)
Definition ir_forcing_response (reg : Registry) (s : IR (xenv reg)) (F T1 T2 T N : nat -> R) : Prop :=
  forall e, is_series reg e F u_Wm2 -> ir_reports reg s e T1 T2 T N.

(** The sum of [z] over the [m] + 1 points from [i] on. *)
Definition window (m : nat) (z : nat -> R) (i : nat) : R := sum_f_R0 (fun k => z (i + k)%nat) m.
(** The difference of two series vanishes in the long run. *)
Definition merges (x y : nat -> R) : Prop := Un_cv (fun i => x i - y i) 0.
