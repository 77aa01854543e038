(** Vocabulary for C71: driver values taken from a forcing that changes all the time. *)
From Coq Require Import Reals.
From Verif Require Import SpecReal.
Local Open Scope R_scope.

(** Over step [i] (from time [i dt] to [(i+1) dt]) the forcing [G] stays within [D] of
    the driver value [F i], for the first [n] steps. *)
Definition stays_within (dt D : R) (G : R -> R) (F : nat -> R) (n : nat) : Prop :=
  forall i t, (i < n)%nat -> INR i * dt <= t <= INR (S i) * dt -> Rabs (G t - F i) <= D.
(** Driver value [i] is the forcing at time [i dt]. *)
Definition sampled (dt : R) (G : R -> R) (F : nat -> R) : Prop := forall i, F i = G (INR i * dt).
(** The forcing changes by at most [K] per unit of time. *)
Definition slope_at_most (K : R) (G : R -> R) : Prop :=
  forall s t, 0 <= s -> s <= t -> Rabs (G t - G s) <= K * (t - s).
(** The forcing never falls. *)
Definition never_falls (G : R -> R) : Prop := forall s t, 0 <= s -> s <= t -> G s <= G t.
(** The heat (J/m^2) in the two layers at time [t]. *)
Definition layers_heat (p : TLP) (Y YD : R -> R) (t : R) : R := p_C p * Y t + p_CD p * YD t.
(** The same impulse-response parameters with the timestep [h] (years). *)
Definition with_istep (p : IRP) (h : R) : IRP :=
  mkIRPhys (p_q1 p) (p_q2 p) (p_d1 p) (p_d2 p) (p_ieps p) h.
