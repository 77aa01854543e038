(** Specification vocabulary for C64: forcings without an end. *)
From Coq Require Import List String QArith Bool Arith.
From Flocq Require Import Core IEEE754.BinarySingleNaN.
From Verif Require Import Arith Pint Base TwoLayer Impulse Scm Api Float.
Import ListNotations.

Section Repeat.
Variable bexp : b64 -> b64.
Variable nd : nat.
Variable sd : string -> nat -> Q.
Variable rf : Units -> b64.
Notation E := (fenv bexp nd sd rf).

(** The first [n] values of a forcing without an end, in the units [u]. *)
Definition first (n : nat) (f : nat -> b64) (u : Units) : QArr E := mkQA (env := E) (map f (seq 0 n) : list (num E)) u.
(** It repeats itself after [m] steps. *)
Definition repeats (m : nat) (f : nat -> b64) : Prop := forall i, f (i + m)%nat = f i.
(** From index [N] on a series repeats itself after [p] entries. *)
Definition repeats_from (N p : nat) (l : list (num E)) : Prop :=
  forall i, (N <= i)%nat -> (i + p < List.length l)%nat -> nth_error l (i + p) = nth_error l i.
End Repeat.
