(** Generated by tools/gen_props.py from FactsRows.v: the property theorems. *)
From Coq Require Import List String QArith Bool Arith Lia.
From Verif Require Import Arith Pint Base TwoLayer Impulse Scm Api Rows SpecRows GenRows GenRowsIR Demo FactsRows.
Import ListNotations.

(** After any history of calls, column [j] of the ensemble is the model built
    from the [j]-th parameters and driven by the [j]-th column: same results,
    same parameters, and the next call succeeds or raises alike. *)
Theorem C63_columns : forall (env : Env) k pE pe args s0 cs j,
  tl_new (rows env k) args = Ok s0 -> Forall (assigns_no_nan env k) cs -> (j <= k)%nat ->
  exists s0', tl_new env (col_tl_args env k j args) = Ok s0' /\
    let s := tl_calls (rows env k) pE (map (on_ensemble env k) cs) s0 in
    let s' := tl_calls env pe (map (on_column env k j) cs) s0' in
    tl_outputs env s' = col_outputs env k j (tl_outputs (rows env k) s) /\
    same_parameters env k j s s' /\
    forall c, assigns_no_nan env k c ->
      snd (tl_call env pe (on_column env k j c) s') = snd (tl_call (rows env k) pE (on_ensemble env k c) s).
Proof. exact c63_columns. Qed.
Print Assumptions C63_columns.

(** The constructor accepts the arrays exactly when it accepts the numbers of
    each column, and raises the same exception otherwise. *)
Theorem C63_constructor : forall (env : Env) k args j e,
  (tl_new (rows env k) args = Err e <-> tl_new env (col_tl_args env k j args) = Err e) /\
  ((exists s, tl_new (rows env k) args = Ok s) <-> exists s', tl_new env (col_tl_args env k j args) = Ok s').
Proof. exact c63_constructor. Qed.
Print Assumptions C63_constructor.

(** One ensemble run: it raises exactly what the separate runs raise, and
    column [j] of its results is the separate run for column [j]. *)
Theorem C63_run : forall (env : Env) k pE pe args s0 cs j e,
  tl_new (rows env k) args = Ok s0 -> Forall (assigns_no_nan env k) cs -> (j <= k)%nat -> no_nan env k e ->
  exists s0', tl_new env (col_tl_args env k j args) = Ok s0' /\
    let s := tl_calls (rows env k) pE (map (on_ensemble env k) cs) s0 in
    let s' := tl_calls env pe (map (on_column env k j) cs) s0' in
    snd (tl_drive env (col_driver env k j e) s') = snd (tl_drive_columns env k e s) /\
    tl_outputs env (fst (tl_drive env (col_driver env k j e) s')) =
      col_outputs env k j (tl_outputs (rows env k) (fst (tl_drive_columns env k e s))).
Proof. exact c63_run. Qed.
Print Assumptions C63_run.

(** The columns are independent: what is assigned to the other columns makes no
    difference to column [j]. *)
Theorem C63_independent : forall (env : Env) k pE args args2 s1 s2 cs cs2 j,
  tl_new (rows env k) args = Ok s1 -> tl_new (rows env k) args2 = Ok s2 ->
  Forall (assigns_no_nan env k) cs -> Forall (assigns_no_nan env k) cs2 -> (j <= k)%nat ->
  col_tl_args env k j args = col_tl_args env k j args2 ->
  map (on_column env k j) cs = map (on_column env k j) cs2 ->
  col_outputs env k j (tl_outputs (rows env k) (tl_calls (rows env k) pE (map (on_ensemble env k) cs) s1)) =
  col_outputs env k j (tl_outputs (rows env k) (tl_calls (rows env k) pE (map (on_ensemble env k) cs2) s2)).
Proof. exact c63_independent. Qed.
Print Assumptions C63_independent.

(** [reset] after an accepted assignment to [erf]: [ModelStateError] exactly if
    a value is missing in some row and column. *)
Theorem C63_missing : forall (env : Env) k q s,
  snd (tl_set_erf (rows env k) (Some q) s) = Ok tt ->
  let s1 := fst (tl_set_erf (rows env k) (Some q) s) in
  ((exists r j, In r (mags q) /\ (j <= k)%nat /\ nisnan env (r j) = true) -> tl_reset (rows env k) s1 = (s1, Err ModelStateError)) /\
  (no_nan env k q -> snd (tl_reset (rows env k) s1) = Ok tt).
Proof. exact c63_missing. Qed.
Print Assumptions C63_missing.

(** The impulse-response model: parameters are numbers, the driver has columns. *)
Theorem C63_ir_columns : forall (env : Env) k pE pe args s0 cs j,
  ir_new (rows env k) (number_args env k args) = Ok s0 -> Forall (ir_assigns_no_nan env k) cs -> (j <= k)%nat ->
  exists s0', ir_new env args = Ok s0' /\
    let s := ir_calls (rows env k) pE (map (on_ir_ensemble env k) cs) s0 in
    let s' := ir_calls env pe (map (on_ir_column env k j) cs) s0' in
    ir_outputs env s' = col_outputs env k j (ir_outputs (rows env k) s) /\
    forall c, ir_assigns_no_nan env k c ->
      snd (ir_call env pe (on_ir_column env k j c) s') = snd (ir_call (rows env k) pE (on_ir_ensemble env k c) s).
Proof. exact c63_ir_columns. Qed.
Print Assumptions C63_ir_columns.

Theorem C63_ir_constructor : forall (env : Env) k args e,
  (ir_new (rows env k) (number_args env k args) = Err e <-> ir_new env args = Err e) /\
  ((exists s, ir_new (rows env k) (number_args env k args) = Ok s) <-> exists s', ir_new env args = Ok s').
Proof. exact c63_ir_constructor. Qed.
Print Assumptions C63_ir_constructor.

Theorem C63_ir_run : forall (env : Env) k pE pe args s0 cs j e,
  ir_new (rows env k) (number_args env k args) = Ok s0 -> Forall (ir_assigns_no_nan env k) cs -> (j <= k)%nat -> no_nan env k e ->
  exists s0', ir_new env args = Ok s0' /\
    let s := ir_calls (rows env k) pE (map (on_ir_ensemble env k) cs) s0 in
    let s' := ir_calls env pe (map (on_ir_column env k j) cs) s0' in
    snd (ir_drive env (col_driver env k j e) s') = snd (ir_drive_columns env k e s) /\
    ir_outputs env (fst (ir_drive env (col_driver env k j e) s')) =
      col_outputs env k j (ir_outputs (rows env k) (fst (ir_drive_columns env k e s))).
Proof. exact c63_ir_run. Qed.
Print Assumptions C63_ir_run.

Example C63_case :
  no_nan demo 1 two_erf /\
  match tl_new (rows demo 1) two_args with
  | Err _ => False
  | Ok s =>
      snd (tl_drive_columns demo 1 two_erf s) = Ok tt /\
      let t := tl_temp_upper _ (fst (tl_drive_columns demo 1 two_erf s)) in
      let t0 := nth 1 (col_values demo 1 0 t) None in let t1 := nth 1 (col_values demo 1 1 t) None in
      t0 <> None /\ t1 <> None /\ t0 <> t1
  end.
Proof. exact c63_case. Qed.

Example C63_ir_case :
  match ir_new (rows demo 1) (number_args demo 1 (ir_defaults demo)) with
  | Err _ => False
  | Ok s => snd (ir_drive_columns demo 1 two_erf s) = Ok tt /\
      let t := ir_temp1 _ (fst (ir_drive_columns demo 1 two_erf s)) in
      nth 2 (col_values demo 1 0 t) None <> nth 2 (col_values demo 1 1 t) None
  end.
Proof. exact c63_ir_case. Qed.
