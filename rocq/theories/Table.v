(** base.py:256-269: the table [run_scenarios] returns.

    [pd.concat] of the blocks of all scenarios (outer join of their time
    points), then [ScmRun(...)]: one time axis for all rows, in ascending order,
    with NaN where a row has no point.  ([pd.concat] and [ScmRun] are not part of
    /repo.) *)
From Coq Require Import List String QArith ZArith Bool Arith.
From Verif Require Import Arith Pint Base Scm.
Import ListNotations.

(** Insertion of a time point into an axis in ascending order (base.py:263-267, the union of
    the time columns). *)
Fixpoint tinsert (t : Z) (l : list Z) : list Z :=
  match l with
  | [] => [t]
  | x :: r => if Z.ltb t x then t :: l else if Z.eqb t x then l else x :: tinsert t r
  end.

Section Table.
Variable env : Env.

(** The time axis of the result (base.py:263-267). *)
Definition result_times (out : list (OutRow env)) : list Z :=
  fold_right tinsert [] (List.concat (map (fun o => map fst (o_points env o)) out)).

(** The entry of a row at a time: its value there, NaN if it has none
    (base.py:263-267, outer join). *)
Fixpoint value_at (pts : list (Z * num env)) (t : Z) : num env :=
  match pts with
  | [] => nnan env
  | (t', v) :: r => if Z.eqb t' t then v else value_at r t
  end.

(** The returned table (base.py:263-269). *)
Definition result_table (out : list (OutRow env)) : Scm env :=
  mkScm env (result_times out)
    (map (fun o => mkRow env (o_meta env o) (map (value_at (o_points env o)) (result_times out))) out).
End Table.
