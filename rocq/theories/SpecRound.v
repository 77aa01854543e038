(** Specification vocabulary for the rounding properties (C44): the equations of
    the two models with given real numbers as coefficients, and what it means for
    a double to be read off a quantity. *)
From Coq Require Import List String QArith Reals Bool Arith.
From Flocq Require Import Core IEEE754.BinarySingleNaN.
From Verif Require Import Arith Pint Base TwoLayer Impulse Scm Api Spec Float.
Import ListNotations.
Local Open Scope R_scope.

(** 2^n and 2^-n. *)
Definition two (n : positive) : R := IZR (2 ^ Zpos n).
Definition half (n : positive) : R := / IZR (2 ^ Zpos n).

(** The numbers in a two-layer run: timestep, lambda0, a, efficacy, eta and the
    two heat capacities. *)
Record TLN : Type := mkTLN { n_dt : R; n_lambda0 : R; n_a : R; n_eps : R; n_eta : R; n_C : R; n_CD : R }.

Definition exact_upper (c : TLN) (F T TD : R) : R :=
  T + n_dt c * ((F - (n_lambda0 c - n_a c * T) * T - n_eps c * n_eta c * (T - TD)) / n_C c).
Definition exact_lower (c : TLN) (T TD : R) : R :=
  TD + n_dt c * (n_eta c * (T - TD) / n_CD c).
Definition exact_uptake (c : TLN) (T TD T' TD' : R) : R :=
  n_C c * (T' - T) / n_dt c + n_CD c * (TD' - TD) / n_dt c.
Fixpoint exact_run (c : TLN) (F : nat -> R) (n : nat) : R * R :=
  match n with
  | O => (0, 0)
  | S k => let (T, TD) := exact_run c F k in (exact_upper c (F k) T TD, exact_lower c T TD)
  end.

Definition exact_uptakes (c : TLN) (F : nat -> R) (n : nat) : R :=
  match n with
  | O => 0
  | S k => exact_uptake c (fst (exact_run c F k)) (snd (exact_run c F k))
             (fst (exact_run c F (S k))) (snd (exact_run c F (S k)))
  end.

(** Size of the terms added up in one step. *)
Definition upper_size (c : TLN) (F T TD : R) : R :=
  Rabs T + Rabs (n_dt c) * ((Rabs F + (Rabs (n_lambda0 c) + Rabs (n_a c) * Rabs T) * Rabs T
                             + Rabs (n_eps c) * Rabs (n_eta c) * (Rabs T + Rabs TD)) / Rabs (n_C c)).
Definition lower_size (c : TLN) (T TD : R) : R :=
  Rabs TD + Rabs (n_dt c) * (Rabs (n_eta c) * (Rabs T + Rabs TD) / Rabs (n_CD c)).

(** Magnitudes far from overflow and underflow: at most 2^150, divisors at
    least 2^-150. *)
Definition moderate (x : R) : Prop := Rabs x <= two 150.
Definition moderate_divisor (x : R) : Prop := half 150 <= Rabs x.
Definition moderate_tl (c : TLN) : Prop :=
  moderate (n_dt c) /\ moderate (n_lambda0 c) /\ moderate (n_a c) /\ moderate (n_eps c) /\ moderate (n_eta c) /\
  moderate (n_C c) /\ moderate (n_CD c) /\ moderate_divisor (n_C c) /\ moderate_divisor (n_CD c).

(** Positive coefficients, no state-dependent feedback, small timestep. *)
Definition stable_tl (c : TLN) : Prop :=
  0 < n_dt c /\ 0 < n_lambda0 c /\ n_a c = 0 /\ 0 < n_eps c /\ 0 < n_eta c /\ 0 < n_C c /\ 0 < n_CD c /\
  n_dt c * (n_lambda0 c + n_eps c * n_eta c) <= n_C c /\ n_dt c * n_eta c <= n_CD c.
(** Damping per timestep of a perturbation of the lower layer [1 + theta] times
    as large as that of the upper layer. *)
Definition theta (c : TLN) : R := n_lambda0 c / (2 * (n_eps c * n_eta c)).
Definition damping (c : TLN) : R :=
  Rmin (n_dt c * n_lambda0 c / (2 * n_C c)) (theta c / (1 + theta c) * (n_dt c * n_eta c / n_CD c)).

(** Impulse-response boxes: the temperature after one timestep and the run. *)
Definition exact_box (q d dt F T : R) : R := T * exp (- dt / d) + F * q * (1 - exp (- dt / d)).
Fixpoint exact_boxes (q d dt : R) (F : nat -> R) (n : nat) : R :=
  match n with O => 0 | S k => exact_box q d dt (F k) (exact_boxes q d dt F k) end.

(** An implementation of [exp] with an absolute error of at most 2^-52 on
    arguments that are not positive. *)
Definition good_exp (bexp : b64 -> b64) : Prop :=
  forall z, is_finite z = true -> B2R z <= 0 ->
    is_finite (bexp z) = true /\ Rabs (B2R (bexp z) - exp (B2R z)) <= half 52.

Section Reads.
Variable bexp : b64 -> b64.
Variable nd : nat.
Variable sd : string -> nat -> Q.
Variable rf : Units -> b64.
Notation E := (fenv bexp nd sd rf).

(** [q.to(u).magnitude] is the finite double with value [x]. *)
Definition reads (q : Qty E) (u : Units) (x : R) : Prop :=
  exists z : b64, to_mag E q u = Ok (z : num E) /\ is_finite z = true /\ B2R z = x.

(** The numbers a two-layer model computes with. *)
Definition tl_numbers (s : TL E) (c : TLN) : Prop :=
  reads (tl_delta_t E s) u_s (n_dt c) /\ reads (tl_lambda0 E s) u_Wm2C (n_lambda0 c) /\
  reads (tl_a E s) u_Wm2C2 (n_a c) /\ reads (tl_efficacy E s) u_none (n_eps c) /\ reads (tl_eta E s) u_Wm2C (n_eta c) /\
  reads (tl_heat_capacity_upper E s) u_JCm2 (n_C c) /\ reads (tl_heat_capacity_lower E s) u_JCm2 (n_CD c).

(** [e.to("W/m^2").magnitude] are the finite doubles with values [F 0], [F 1], ... *)
Definition reads_series (e : QArr E) (F : nat -> R) : Prop :=
  nan_free E e /\
  exists l : list b64, to_mags E e u_Wm2 = Ok (l : list (num E)) /\
    forall i z, nth_error l i = Some z -> is_finite z = true /\ B2R z = F i.

(** All entries of an output are finite and off by at most [tol] from [X]. *)
Definition close_series (l : list (num E)) (X : nat -> R) (tol : R) : Prop :=
  forall i (z : b64), nth_error l i = Some (z : num E) -> is_finite z = true /\ Rabs (B2R z - X i) <= tol.

(** [set_drivers(e); reset(); run()] succeeds with these outputs. *)
Definition tl_gives (s : TL E) (e : QArr E) (U L R : list (num E)) : Prop :=
  exists s', tl_drive E e s = (s', Ok tt) /\
    tl_outputs E s' = [("Surface Temperature|Upper", "delta_degC", U); ("Surface Temperature|Lower", "delta_degC", L);
                       ("Heat Uptake", "W/m^2", R)]%string /\
    List.length U = List.length (mags e) /\ List.length L = List.length (mags e) /\ List.length R = List.length (mags e).
Definition ir_gives (s : IR E) (e : QArr E) (T1 T2 T R : list (num E)) : Prop :=
  exists s', ir_drive E e s = (s', Ok tt) /\
    ir_outputs E s' = [("Surface Temperature|Box 1", "delta_degC", T1); ("Surface Temperature|Box 2", "delta_degC", T2);
                       ("Surface Temperature", "delta_degC", T); ("Heat Uptake", "W/m^2", R)]%string.

(** The numbers the boxes of an impulse-response model compute with. *)
Definition ir_numbers (s : IR E) (q1 d1 q2 d2 dt : R) : Prop :=
  reads (ir_q1 E s) u_CWm2 q1 /\ reads (ir_d1 E s) u_yr d1 /\ reads (ir_q2 E s) u_CWm2 q2 /\
  reads (ir_d2 E s) u_yr d2 /\ reads (ir_delta_t E s) u_yr dt.
End Reads.
