(** pint quantities, as far as the package uses them.

    The package imports [openscm_units.unit_registry] (base.py:11,
    two_layer_model.py:5); pint itself is not part of /repo, so this file is a
    model of a dependency, written from pint's documented behaviour
    (Quantity._mul_div, _add_sub, compare, to; UnitRegistry.convert). *)
From Coq Require Import List String QArith Bool Arith.
From Verif Require Import Arith.
Import ListNotations.
Local Open Scope string_scope.
Local Open Scope list_scope.

(** A unit is a formal product of symbols with rational exponents, e.g.
    [W/m^2] is [("watt",1); ("meter",-2)].  pint keeps a normalised map; here
    the list is not normalised and all comparisons go through [expo]. *)
Definition Units : Type := list (string * Q).

(** Exponent of a symbol in a unit (pint UnitsContainer lookup). *)
Fixpoint expo (u : Units) (s : string) : Q :=
  match u with
  | [] => 0
  | (t, e) :: r => if String.eqb t s then e + expo r s else expo r s
  end.

(** [UnitsContainer.__eq__]. (pint.) *)
Definition units_eqb (u v : Units) : bool :=
  forallb (fun s => Qeq_bool (expo u s) (expo v s)) (map fst (u ++ v)).

(** pint UnitsContainer product, power, inverse, quotient. *)
Definition umul (u v : Units) : Units := u ++ v.
(** pint, as above. *)
Definition upow (u : Units) (p : Q) : Units := map (fun x => (fst x, snd x * p)) u.
(** pint, as above. *)
Definition uinv (u : Units) : Units := upow u (-1).
(** pint, as above. *)
Definition udiv (u v : Units) : Units := umul u (uinv v).

(** Units with a ["delta_"] symbol (Quantity._get_delta_units). (pint.) *)
Definition has_delta (u : Units) : bool :=
  existsb (fun x => String.prefix "delta_" (fst x) && negb (Qeq_bool (expo u (fst x)) 0)) u.

(** A number system together with a unit registry: every symbol has a
    dimension (a vector of [ndim] rational exponents), and [rootf u] is the
    factor from [u] to root units (UnitRegistry._get_root_units). (pint.) *)
Record Env : Type := mkEnv {
  ar :> Arith;
  ndim : nat;
  sdim : string -> nat -> Q;
  rootf : Units -> num ar
}.

Section Pint.
Variable env : Env.
Notation num := (num env).

(** k-th dimension exponent of a unit. (pint UnitRegistry dimensionality.) *)
Fixpoint dimx (u : Units) (k : nat) : Q :=
  match u with
  | [] => 0
  | (s, e) :: r => e * sdim env s k + dimx r k
  end.

(** Equal dimensionality. (pint dimensionality comparison.) *)
Definition dim_eqb (u v : Units) : bool :=
  forallb (fun k => Qeq_bool (dimx u k) (dimx v k)) (seq 0 (ndim env)).

(** A scalar quantity. (pint.Quantity.) *)
Record Qty : Type := mkQ { mag : num; units : Units }.

(** A one-dimensional array quantity. (pint.Quantity.) *)
Record QArr : Type := mkQA { mags : list num; aunits : Units }.

(** UnitRegistry.convert: the same units short-cut, otherwise multiplication
    by the root factor of [src/dst]. (pint.) *)
Definition conv (x : num) (u v : Units) : Res num :=
  if dim_eqb u v then
    Ok (if units_eqb u v then x else nmul env x (rootf env (udiv u v)))
  else Err DimensionalityError.

(** [q.to(u).magnitude] (pint, used e.g. two_layer_model.py:96-99.) *)
Definition to_mag (q : Qty) (u : Units) : Res num := conv (mag q) (units q) u.

(** [q.to(u)] (pint.) *)
Definition to (q : Qty) (u : Units) : Res Qty :=
  do m <- to_mag q u; Ok (mkQ m u).

(** [arr.to(u).magnitude] (pint, base.py:112.) *)
Definition to_mags (q : QArr) (u : Units) : Res (list num) :=
  if dim_eqb (aunits q) u then
    Ok (if units_eqb (aunits q) u then mags q
        else map (fun x => nmul env x (rootf env (udiv (aunits q) u))) (mags q))
  else Err DimensionalityError.

(** Quantity * Quantity, -Quantity, float * Quantity. (pint, base.py:279-314.) *)
Definition qmul (p q : Qty) : Qty := mkQ (nmul env (mag p) (mag q)) (umul (units p) (units q)).
(** pint. *)
Definition qneg (p : Qty) : Qty := mkQ (nneg env (mag p)) (units p).
(** pint, base.py:286-287. *)
Definition qscale (c : num) (p : Qty) : Qty := mkQ (nmul env c (mag p)) (units p).

(** Quantity / Quantity with Python-float magnitudes: a zero divisor raises.
    (Simplification: with numpy scalars it would give inf/nan.) *)
Definition qdiv (p q : Qty) : Res Qty :=
  if neqb env (mag q) (nQ env 0) then Err ZeroDivisionError
  else Ok (mkQ (ndiv env (mag p) (mag q)) (udiv (units p) (units q))).

(** float / Quantity (pint, impulse_response_model.py:284-321.) *)
Definition rdiv (c : num) (q : Qty) : Res Qty := qdiv (mkQ c []) q.

(** Quantity._add_sub for multiplicative units: equal units add directly; if
    only the left operand has a delta unit the right one determines the unit of
    the result; otherwise the left one does. (pint.) *)
Definition addsub (op : num -> num -> num) (p q : Qty) : Res Qty :=
  if negb (dim_eqb (units p) (units q)) then Err DimensionalityError
  else if units_eqb (units p) (units q) then Ok (mkQ (op (mag p) (mag q)) (units p))
  else if has_delta (units p) && negb (has_delta (units q)) then
    do m <- to_mag p (units q); Ok (mkQ (op m (mag q)) (units q))
  else
    do m <- to_mag q (units p); Ok (mkQ (op (mag p) m) (units p)).
(** pint addition and subtraction. *)
Definition qadd := addsub (nadd env).
(** pint, as above. *)
Definition qsub := addsub (nsub env).

(** float - Quantity: only for dimensionless quantities, result without unit. (pint, impulse_response_model.py:236.) *)
Definition rsub (c : num) (q : Qty) : Res Qty :=
  do m <- to_mag q []; Ok (mkQ (nsub env c m) []).

(** [q ** 2] and [q ** 0.5]; the latter is complex for negative floats. (pint, base.py:286-294.) *)
Definition qsq (q : Qty) : Qty := mkQ (nsqr env (mag q)) (upow (units q) 2).
(** pint, base.py:289-294. *)
Definition qsqrt (q : Qty) : Res Qty :=
  if nneg_p env (mag q) then Err ComplexValue
  else Ok (mkQ (nsqrt env (mag q)) (upow (units q) (1 # 2))).

(** [p >= q] (Quantity.compare): equal units compare magnitudes, otherwise
    magnitudes in root units. (pint, impulse_response_model.py:78.) *)
Definition qge (p q : Qty) : Res bool :=
  if units_eqb (units p) (units q) then Ok (nleb env (mag q) (mag p))
  else if dim_eqb (units p) (units q) then
    Ok (nleb env (nmul env (mag q) (rootf env (units q)))
                 (nmul env (mag p) (rootf env (units p))))
  else Err DimensionalityError.

(** [c * ur("...")] (pint, e.g. constants.py:6-9.) *)
Definition mkQty (q : Q) (u : Units) : Qty := mkQ (nQ env q) u.

(** What a caller can hand to a parameter setter: a scalar quantity or
    something that is not a [pint.Quantity].  (Array-valued quantities as
    parameters: Rows.v.) *)
Inductive PyVal : Type := PQ (q : Qty) | POther.

(** What a caller can hand to [set_drivers]: a one-dimensional array quantity,
    an array quantity with another number of dimensions (its values never
    matter), a one-dimensional array without
    units, another array without units, or an object without [shape]. (base.py:114-133.) *)
Inductive ErfArg : Type :=
| EQ1 (q : QArr)
| EQnot1 (u : Units)
| EArr1
| EArrNot1
| ENoShape.

End Pint.

Arguments mag {env} _.
Arguments units {env} _.
Arguments mags {env} _.
Arguments aunits {env} _.
Arguments mkQ {env} _ _.
Arguments mkQA {env} _ _.
Arguments PQ {env} _.
Arguments POther {env}.
Arguments EQ1 {env} _.
Arguments EQnot1 {env} _.
Arguments EArr1 {env}.
Arguments EArrNot1 {env}.
Arguments ENoShape {env}.

(** Unit expressions of the package (two_layer_model.py:26-40,
    impulse_response_model.py:31-42, base.py:83-84, constants.py:6-9). *)
Definition sW := "watt".
Definition sm := "meter".
Definition ss := "second".
Definition sJ := "joule".
Definition skg := "kilogram".
Definition syr := "year".
Definition smonth := "month".
Definition sK := "kelvin".
Definition sdC := "delta_degree_Celsius".

Definition u_m : Units := [(sm, 1)].
Definition u_s : Units := [(ss, 1)].
Definition u_yr : Units := [(syr, 1)].
Definition u_month : Units := [(smonth, 1)].
Definition u_none : Units := [].
Definition u_dC : Units := [(sdC, 1)].
Definition u_Wm2 : Units := [(sW, 1); (sm, -2)].
Definition u_Wm2C : Units := [(sW, 1); (sm, -2); (sdC, -1)].
Definition u_Wm2C2 : Units := [(sW, 1); (sm, -2); (sdC, -2)].
Definition u_JCm2 : Units := [(sJ, 1); (sdC, -1); (sm, -2)].
Definition u_CWm2 : Units := [(sdC, 1); (sW, -1); (sm, 2)].
Definition u_kgm3 : Units := [(skg, 1); (sm, -3)].
Definition u_JCkg : Units := [(sJ, 1); (sdC, -1); (skg, -1)].
