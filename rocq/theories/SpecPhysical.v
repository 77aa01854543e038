(** Vocabulary for C60: what the doubles of a model stand for physically, whatever
    units the user chose, when the registry's conversion factors are themselves
    rounded. *)
From Coq Require Import List String QArith Reals.
From Flocq Require Import Core IEEE754.BinarySingleNaN.
From Verif Require Import Arith Pint Base TwoLayer Impulse Scm Api Spec Exact SpecReal Float SpecRound.
Local Open Scope R_scope.

(** Between 2^-100 and 2^100. *)
Definition ordinary (x : R) : Prop := half 100 <= x <= two 100.

(** The registry [reg] with its conversion factors stored as doubles [rf]: every
    factor of ordinary size is off by at most 2^-50 of itself. *)
Definition accurate_registry (reg : Registry) (rf : Units -> b64) : Prop :=
  forall u, ordinary (usize reg u) -> is_finite (rf u) = true /\ Rabs (B2R (rf u) - usize reg u) <= half 50 * usize reg u.

Section Physical.
Variable reg : Registry.
Variable bexp : b64 -> b64.
Variable rf : Units -> b64.
Notation E := (fenv bexp (rg_ndim reg) (rg_dim reg) rf).

(** [u] and [v] measure the same thing and differ by an ordinary factor. *)
Definition comparable (u v : Units) : Prop := same_dim E u v /\ ordinary (usize reg u / usize reg v).

(** The quantity [q] (a double and a unit) is exactly [x] times the unit [u]. *)
Definition stands_for (q : Qty E) (x : R) (u : Units) : Prop :=
  comparable (units q) u /\ is_finite (mag q : b64) = true /\ B2R (mag q : b64) * usize reg (units q) = x * usize reg u.
Definition series_stands_for (e : QArr E) (F : nat -> R) (u : Units) : Prop :=
  comparable (aunits e) u /\
  forall i (z : b64), nth_error (mags e) i = Some (z : num E) -> is_finite z = true /\ B2R z * usize reg (aunits e) = F i * usize reg u.

(** The physical parameters of the models. *)
Definition tl_stands_for (s : TL E) (p : TLP) : Prop :=
  stands_for (tl_du E s) (p_du p) u_m /\ stands_for (tl_dl E s) (p_dl p) u_m /\
  stands_for (tl_lambda0 E s) (p_lambda0 p) u_Wm2C /\ stands_for (tl_a E s) (p_a p) u_Wm2C2 /\
  stands_for (tl_efficacy E s) (p_eps p) u_none /\ stands_for (tl_eta E s) (p_eta p) u_Wm2C /\
  stands_for (tl_delta_t E s) (p_dt p) u_s.
Definition ir_stands_for (s : IR E) (p : IRP) : Prop :=
  stands_for (ir_q1 E s) (p_q1 p) u_CWm2 /\ stands_for (ir_q2 E s) (p_q2 p) u_CWm2 /\
  stands_for (ir_d1 E s) (p_d1 p) u_yr /\ stands_for (ir_d2 E s) (p_d2 p) u_yr /\
  stands_for (ir_efficacy E s) (p_ieps p) u_none /\ stands_for (ir_delta_t E s) (p_idt p) u_yr.
End Physical.

(** Positive parameters of ordinary size, no state-dependent feedback. *)
Definition ordinary_tl (p : TLP) : Prop :=
  ordinary (p_du p) /\ ordinary (p_dl p) /\ ordinary (p_lambda0 p) /\ p_a p = 0 /\ ordinary (p_eps p) /\
  ordinary (p_eta p) /\ ordinary (p_dt p).
Definition ordinary_ir (p : IRP) : Prop :=
  ordinary (p_q1 p) /\ ordinary (p_q2 p) /\ ordinary (p_d1 p) /\ ordinary (p_d2 p) /\ ordinary (p_idt p).

(** The coefficients of the two-layer equations. *)
Definition coefficients (p : TLP) : TLN :=
  mkTLN (p_dt p) (p_lambda0 p) (p_a p) (p_eps p) (p_eta p) (p_C p) (p_CD p).

(** [T i] is the temperature at time [i * dt] of the box d dT/dt = q F - T from
    rest, each forcing value held for [dt]. *)
Definition exact_box_run (q d dt : R) (F : nat -> R) (T : nat -> R) : Prop :=
  T 0%nat = 0 /\ forall i, exists y, box_ode q d (F i) (T i) dt y /\ y dt = T (S i).
