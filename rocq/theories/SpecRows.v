(** Specification vocabulary for C63: the columns of an ensemble. *)
From Coq Require Import List String QArith Bool Arith.
From Verif Require Import Arith Pint Base TwoLayer Impulse Scm Api Rows.
Import ListNotations.

Section Columns.
Variables (env : Env) (k : nat).
Notation E := (rows env k).

(** Column [j] of an array-valued quantity, of a driver, of an argument. *)
Definition col_qty (j : nat) (q : Qty E) : Qty env := mkQ (mag q j) (units q).
Definition col_values (j : nat) (l : list (num E)) : list (num env) := map (fun r => r j) l.
Definition col_driver (j : nat) (q : QArr E) : QArr env := mkQA (col_values j (mags q)) (aunits q).
Definition col_val (j : nat) (v : PyVal E) : PyVal env :=
  match v with PQ q => PQ (col_qty j q) | POther => POther end.
(** Column [j] of the reported results. *)
Definition col_outputs (j : nat) (o : list (string * string * list (num E))) : list (string * string * list (num env)) :=
  map (fun x => (fst (fst x), snd (fst x), col_values j (snd x))) o.

(** A parameter that is a number: used in every column. *)
Definition number (q : Qty env) : Qty E := @mkQ E (fun _ => mag q) (units q).
Definition number_val (v : PyVal env) : PyVal E := match v with PQ q => PQ (number q) | POther => POther end.

(** No entry of the driver is missing. *)
Definition no_nan (q : QArr E) : Prop := forall r j, In r (mags q) -> (j <= k)%nat -> nisnan env (r j) = false.

(** Column [j] of the constructor arguments of the two-layer model. *)
Definition col_tl_args (j : nat) (g : TLArgs E) : TLArgs env :=
  mkTLArgs env (col_val j (ta_du _ g)) (col_val j (ta_dl _ g)) (col_val j (ta_lambda0 _ g)) (col_val j (ta_a _ g))
    (col_val j (ta_efficacy _ g)) (col_val j (ta_eta _ g)) (col_val j (ta_delta_t _ g)).

(** The calls a user of an ensemble makes: parameters are assigned arrays or
    numbers, [erf] a driver with columns. *)
Inductive EnsembleCall : Type :=
| EDu (v : PyVal E) | EDl (v : PyVal E) | ELambda0 (v : PyVal E) | EA (v : PyVal E) | EEfficacy (v : PyVal E)
| EEta (v : PyVal E) | EDeltaT (v : PyVal E) | EErf (q : QArr E) | EReset | EStep | ERun.
(** The call on the ensemble, and the corresponding one on the model of column [j]. *)
Definition on_ensemble (c : EnsembleCall) : TLOp E :=
  match c with
  | EDu v => TSetDu _ v | EDl v => TSetDl _ v | ELambda0 v => TSetLambda0 _ v | EA v => TSetA _ v
  | EEfficacy v => TSetEfficacy _ v | EEta v => TSetEta _ v | EDeltaT v => TSetDeltaT _ v
  | EErf q => TSetErf _ (Some q) | EReset => TReset _ | EStep => TStep _ | ERun => TRun _
  end.
Definition on_column (j : nat) (c : EnsembleCall) : TLOp env :=
  match c with
  | EDu v => TSetDu _ (col_val j v) | EDl v => TSetDl _ (col_val j v) | ELambda0 v => TSetLambda0 _ (col_val j v)
  | EA v => TSetA _ (col_val j v) | EEfficacy v => TSetEfficacy _ (col_val j v) | EEta v => TSetEta _ (col_val j v)
  | EDeltaT v => TSetDeltaT _ (col_val j v) | EErf q => TSetDrivers _ (EQ1 (col_driver j q))
  | EReset => TReset _ | EStep => TStep _ | ERun => TRun _
  end.
Definition assigns_no_nan (c : EnsembleCall) : Prop := match c with EErf q => no_nan q | _ => True end.

(** [model.erf = e; model.reset(); model.run()] for a driver with columns
    (base.py:108-112, 45-61). *)
Definition tl_drive_columns (e : QArr E) : Meth (TL E) unit := tl_set_erf E (Some e) ;; tl_reset E ;; tl_run E.
Definition ir_drive_columns (e : QArr E) : Meth (IR E) unit := ir_set_erf E (Some e) ;; ir_reset E ;; ir_run E.

(** The two-layer model [s] has in column [j] the parameters of [s']. *)
Definition same_parameters (j : nat) (s : TL E) (s' : TL env) : Prop :=
  col_qty j (tl_du _ s) = tl_du _ s' /\ col_qty j (tl_dl _ s) = tl_dl _ s' /\
  col_qty j (tl_lambda0 _ s) = tl_lambda0 _ s' /\ col_qty j (tl_a _ s) = tl_a _ s' /\
  col_qty j (tl_efficacy _ s) = tl_efficacy _ s' /\ col_qty j (tl_eta _ s) = tl_eta _ s' /\
  col_qty j (tl_delta_t _ s) = tl_delta_t _ s'.

(** The calls on an impulse-response model with numbers as parameters and a
    driver with columns. *)
Inductive IRCall : Type :=
| CQ1 (v : PyVal env) | CQ2 (v : PyVal env) | CD1 (v : PyVal env) | CD2 (v : PyVal env) | CEfficacy (v : PyVal env)
| CDeltaT (v : PyVal env) | CErf (q : QArr E) | CReset | CStep | CRun.
Definition on_ir_ensemble (c : IRCall) : IROp E :=
  match c with
  | CQ1 v => ISetQ1 _ (number_val v) | CQ2 v => ISetQ2 _ (number_val v) | CD1 v => ISetD1 _ (number_val v)
  | CD2 v => ISetD2 _ (number_val v) | CEfficacy v => ISetEfficacy _ (number_val v) | CDeltaT v => ISetDeltaT _ (number_val v)
  | CErf q => ISetErf _ (Some q) | CReset => IReset _ | CStep => IStep _ | CRun => IRun _
  end.
Definition on_ir_column (j : nat) (c : IRCall) : IROp env :=
  match c with
  | CQ1 v => ISetQ1 _ v | CQ2 v => ISetQ2 _ v | CD1 v => ISetD1 _ v
  | CD2 v => ISetD2 _ v | CEfficacy v => ISetEfficacy _ v | CDeltaT v => ISetDeltaT _ v
  | CErf q => ISetDrivers _ (EQ1 (col_driver j q)) | CReset => IReset _ | CStep => IStep _ | CRun => IRun _
  end.
Definition ir_assigns_no_nan (c : IRCall) : Prop := match c with CErf q => no_nan q | _ => True end.
Definition number_args (g : IRArgs env) : IRArgs E :=
  mkIRArgs E (number_val (ia_q1 _ g)) (number_val (ia_q2 _ g)) (number_val (ia_d1 _ g)) (number_val (ia_d2 _ g))
    (number_val (ia_efficacy _ g)) (number_val (ia_delta_t _ g)).
End Columns.
