(** Specification vocabulary for the properties that hold in IEEE binary64
    without any rounding error (C56). *)
From Coq Require Import List String QArith Reals Bool Arith.
From Flocq Require Import Core IEEE754.BinarySingleNaN.
From Verif Require Import Arith Pint Base TwoLayer Impulse Scm Api Spec Float SpecRound.
Import ListNotations.
Local Open Scope R_scope.

(** The same double, or two zeros ([0.0 == -0.0]); NaN counts as the same as NaN. *)
Definition is_zero (x : b64) : Prop := exists s, x = B754_zero s.
Definition same (x y : b64) : Prop := x = y \/ (is_zero x /\ is_zero y).

(** An implementation of [exp] that maps minus infinity and finite numbers that are not positive into [0, 1]. *)
Definition unit_exp (bexp : b64 -> b64) : Prop :=
  forall z, (is_finite z = true /\ B2R z <= 0) \/ z = B754_infinity true ->
    is_finite (bexp z) = true /\ 0 <= B2R (bexp z) <= 1.

Section Exact.
Variable bexp : b64 -> b64.
Variable nd : nat.
Variable sd : string -> nat -> Q.
Variable rf : Units -> b64.
Notation E := (fenv bexp nd sd rf).

(** Entry by entry the same. *)
Definition same_series (l l' : list (num E)) : Prop := Forall2 same (l : list b64) (l' : list b64).
(** All entries with the opposite sign. *)
Definition opposite (l : list (num E)) : list (num E) := map (fun x : b64 => Bopp x) l.
(** [-e] *)
Definition negated (e : QArr E) : QArr E := mkQA (env := E) (opposite (mags e)) (aunits e).
(** [k] zeros in front of [e]. *)
Definition zeros (k : nat) : list (num E) := repeat (B754_zero false : b64) k.
Definition delayed (k : nat) (e : QArr E) : QArr E := mkQA (env := E) (zeros k ++ mags e) (aunits e).
(** Wherever both series have a finite entry, the first is not the larger one. *)
Definition below (l l' : list (num E)) : Prop :=
  forall i (x y : b64), nth_error l i = Some (x : num E) -> nth_error l' i = Some (y : num E) ->
    is_finite x = true -> is_finite y = true -> B2R x <= B2R y.
End Exact.
