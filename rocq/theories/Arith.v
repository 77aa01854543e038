(** Number systems, exceptions and array access.

    Nothing here is specific to the package: it is the Python/numpy substrate
    on which the model of [src/openscm_twolayermodel] is written. *)
From Coq Require Import List String QArith Bool Arith.
Import ListNotations.

(** The exceptions the modelled code can end with.  [UnitError] and
    [ModelStateError] are errors.py:6-15 (both subclasses of ValueError);
    [DimensionalityError] and [UndefinedUnitError] come from pint,
    [NonUniqueMetadataError] from scmdata, the others are Python built-ins.
    [ComplexValue] is not an exception: it marks the point where Python would
    leave the floats because [x ** 0.5] with [x < 0] is a complex number. *)
Inductive exn : Type :=
| TypeError | UnitError | AssertionError | AttributeError | IndexError
| ModelStateError | ValueError | ZeroDivisionError | DimensionalityError
| ComplexValue | NotImplementedError | NonUniqueMetadataError
| UndefinedUnitError | KeyError | NotThisMethod.

(** Result of an expression: a value or an exception. (Result of a Python expression: a value or a raised exception.) *)
Inductive Res (A : Type) : Type :=
| Ok (a : A)
| Err (e : exn).
Arguments Ok {A} a.
Arguments Err {A} e.

(** Sequencing of expressions: an exception ends the evaluation (Python semantics). *)
Definition bind {A B} (r : Res A) (f : A -> Res B) : Res B :=
  match r with Ok a => f a | Err e => Err e end.
Notation "'do' x <- r ; f" := (bind r (fun x => f))
  (at level 200, x name, r at level 100, f at level 200).

(** A method call on an object: it returns the object's state afterwards
    (also when an exception escapes) and the result. (A Python method: new object state and result; the state is kept when it raises.) *)
Definition Meth (S A : Type) : Type := S -> S * Res A.
(** Python [return]. *)
Definition mret {S A} (a : A) : Meth S A := fun s => (s, Ok a).
(** Python [raise]. *)
Definition mraise {S A} (e : exn) : Meth S A := fun s => (s, Err e).
(** Sequencing of Python statements. *)
Definition mbind {S A B} (m : Meth S A) (f : A -> Meth S B) : Meth S B :=
  fun s => match m s with
           | (s', Ok a) => f a s'
           | (s', Err e) => (s', Err e)
           end.
(** An expression that reads the state. (A Python expression that reads attributes.) *)
Definition mread {S A} (r : S -> Res A) : Meth S A := fun s => (s, r s).
(** An assignment to attributes. (Python attribute assignment.) *)
Definition mmod {S} (f : S -> S) : Meth S unit := fun s => (f s, Ok tt).
Notation "'mdo' x <- m ; f" := (mbind m (fun x => f))
  (at level 200, x name, m at level 100, f at level 200).
Notation "m ';;' f" := (mbind m (fun _ => f))
  (at level 199, right associativity).

(** A number system: the operations the code applies to floats.  No algebraic
    law is assumed, only that [isnan(nan)] holds; so IEEE doubles with any
    implementation of [np.exp] are an instance.
    [nsqr x] is [x ** 2] and [nsqrt x] is [x ** 0.5] for [x >= 0];
    [nQ q] is the float literal [q]; [neqb] is [==], [nleb] is [<=]. (Python/numpy float arithmetic, abstractly.) *)
Record Arith : Type := mkArith {
  num : Type;
  nadd : num -> num -> num;
  nsub : num -> num -> num;
  nmul : num -> num -> num;
  ndiv : num -> num -> num;
  nneg : num -> num;
  nexp : num -> num;
  nsqr : num -> num;
  nsqrt : num -> num;
  nQ : Q -> num;
  nnan : num;
  nisnan : num -> bool;
  neqb : num -> num -> bool;
  nleb : num -> num -> bool;
  nisnan_nan : nisnan nnan = true
}.

(** Python float [x < 0.0]. *)
Definition nneg_p (A : Arith) (x : num A) : bool :=
  nleb A x (nQ A 0) && negb (neqb A x (nQ A 0)).

(** [arr[i]] for a non-negative index of a one-dimensional numpy array. *)
Definition lget {A} (l : list A) (i : nat) : Res A :=
  match nth_error l i with Some x => Ok x | None => Err IndexError end.

(** numpy [arr[i] = v] for an index in range: the array afterwards. *)
Fixpoint upd {A} (l : list A) (i : nat) (v : A) : list A :=
  match l, i with
  | [], _ => []
  | _ :: t, O => v :: t
  | x :: t, S j => x :: upd t j v
  end.

(** [arr[i] = v] for a non-negative index. (numpy [arr[i] = v] (two_layer_model.py:210-243, impulse_response_model.py:181-207).) *)
Definition lset {A} (l : list A) (i : nat) (v : A) : Res (list A) :=
  if Nat.ltb i (List.length l) then Ok (upd l i v) else Err IndexError.
