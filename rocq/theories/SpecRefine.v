(** Vocabulary for C55: the same model with another step, and exact solutions of
    the two-layer equations when each forcing value is held for one step. *)
From Coq Require Import Reals.
From Verif Require Import SpecReal.
Local Open Scope R_scope.

(** The same parameters with the timestep [h] (seconds). *)
Definition with_step (p : TLP) (h : R) : TLP :=
  mkTLPhys (p_du p) (p_dl p) (p_lambda0 p) (p_a p) (p_eps p) (p_eta p) h.

(** [y], [yD] solve the two-layer equations from time 0 to [dt], the forcing held at [F]. *)
Definition two_layer_ode (p : TLP) (F dt : R) (y yD : R -> R) : Prop :=
  forall t, 0 <= t <= dt -> derivable_pt_lim y t (dT_dt p F (y t) (yD t)) /\
                            derivable_pt_lim yD t (dTD_dt p (y t) (yD t)).

(** [T i], [TD i] are the temperatures at time [i * p_dt p] of the exact solution
    from rest under the forcing [F 0], [F 1], ..., each held for [p_dt p]. *)
Definition exact_two_layer (p : TLP) (F : nat -> R) (T TD : nat -> R) : Prop :=
  T 0%nat = 0 /\ TD 0%nat = 0 /\
  forall i, exists y yD, two_layer_ode p (F i) (p_dt p) y yD /\
    y 0 = T i /\ yD 0 = TD i /\ y (p_dt p) = T (S i) /\ yD (p_dt p) = TD (S i).
