(** Ensembles: a driver with several columns assigned to [model.erf], and
    array-valued parameters.

    The [erf] setter (base.py:108-112) accepts arrays of any shape; with an
    array of shape (n, k+1) the expressions of [_step]
    (two_layer_model.py:202-277, impulse_response_model.py:173-244) work on rows
    of [k+1] entries instead of numbers, element by element, and a number is
    used in every column (numpy's broadcasting).  So the code is the code of
    TwoLayer.v and Impulse.v with rows in place of numbers. *)
From Coq Require Import List String QArith Bool Arith.
From Verif Require Import Arith Pint Base TwoLayer Impulse Scm Api.
Import ListNotations.

(** numpy arithmetic on rows with the columns 0 .. k; a row is a function of
    the column, of which only these columns matter.  [nisnan] is
    [np.isnan(row).any()] as in [_reset] (two_layer_model.py:187).  Simplification:
    a comparison holds if it holds in every column (in numpy the truth value of
    a comparison of rows is an error; it is used only where rows are numbers). *)
Definition row_arith (A : Arith) (k : nat) : Arith.
Proof.
  refine (mkArith (nat -> num A)
    (fun x y j => nadd A (x j) (y j)) (fun x y j => nsub A (x j) (y j))
    (fun x y j => nmul A (x j) (y j)) (fun x y j => ndiv A (x j) (y j))
    (fun x j => nneg A (x j)) (fun x j => nexp A (x j)) (fun x j => nsqr A (x j)) (fun x j => nsqrt A (x j))
    (fun q _ => nQ A q) (fun _ => nnan A)
    (fun x => existsb (fun j => nisnan A (x j)) (seq 0 (S k)))
    (fun x y => forallb (fun j => neqb A (x j) (y j)) (seq 0 (S k)))
    (fun x y => forallb (fun j => nleb A (x j) (y j)) (seq 0 (S k))) _).
  cbn [seq existsb]. rewrite nisnan_nan. reflexivity.
Defined.

(** The same registry: a conversion factor is a number, the same in every
    column (pint, base.py:98, 112). *)
Definition rows (env : Env) (k : nat) : Env :=
  mkEnv (row_arith env k) (ndim env) (sdim env) (fun u _ => rootf env u).
