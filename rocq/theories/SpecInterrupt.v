(** Vocabulary for interrupted calls (C67). *)
From Coq Require Import List String QArith Bool Arith.
From Verif Require Import Arith Pint Base TwoLayer Impulse Scm Api Spec Interrupt.
Import ListNotations.

(** The object after a call, and how the call ended. *)
Definition object_after {S A} (x : S * option nat * Ends A) : S := fst (fst x).
Definition how_ended {S A} (x : S * option nat * Ends A) : Ends A := snd x.

(** Interrupted after [k] writes, the call stops in [s']. *)
Definition stops {S A} (m : IMeth S A) (k : nat) (s s' : S) : Prop :=
  object_after (m (Some k) s) = s' /\ how_ended (m (Some k) s) = Stopped.

(** What a call assigns: parameters ([Some]) and the driver ([None]).
    run_scenarios assigns the timestep and the driver. *)
Definition tl_assigns {env} (o : TLOp env) (x : option tl_param) : bool :=
  match o, x with
  | TSetDu _ _, Some Pdu | TSetDl _ _, Some Pdl | TSetLambda0 _ _, Some Plambda0 | TSetA _ _, Some Pa
  | TSetEfficacy _ _, Some Pefficacy | TSetEta _ _, Some Peta | TSetDeltaT _ _, Some Pdelta_t
  | TSetErf _ _, None | TSetDrivers _ _, None
  | TRunScenarios _ _ _, Some Pdelta_t | TRunScenarios _ _ _, None => true
  | _, _ => false
  end.
Definition ir_assigns {env} (o : IROp env) (x : option ir_param) : bool :=
  match o, x with
  | ISetQ1 _ _, Some Pq1 | ISetQ2 _ _, Some Pq2 | ISetD1 _ _, Some Pd1 | ISetD2 _ _, Some Pd2
  | ISetEfficacy _ _, Some Peff | ISetDeltaT _ _, Some Pdt
  | ISetErf _ _, None | ISetDrivers _ _, None
  | IRunScenarios _ _ _, Some Pdt | IRunScenarios _ _ _, None => true
  | _, _ => false
  end.

Section Sessions.
Variable env : Env.
Variable parse_unit : string -> option (Qty env).

(** Objects after any sequence of calls, each of which returned, raised, or was
    interrupted anywhere; with what is in doubt: those attributes of which an
    assignment was interrupted and none has succeeded since. *)
Inductive tl_session : TL env -> (option tl_param -> bool) -> Prop :=
| tls_new : forall g s, tl_new env g = Ok s -> tl_session s (fun _ => false)
| tls_returned : forall s D o s', tl_session s D -> tl_call env parse_unit o s = (s', Ok tt) ->
    tl_session s' (fun x => D x && negb (tl_assigns o x))
| tls_raised : forall s D o s' e, tl_session s D -> tl_call env parse_unit o s = (s', Err e) -> tl_session s' D
| tls_interrupted : forall s D o k s', tl_session s D -> stops (itl_call env parse_unit o) k s s' ->
    tl_session s' (fun x => D x || tl_assigns o x).

Inductive ir_session : IR env -> (option ir_param -> bool) -> Prop :=
| irs_new : forall g s, ir_new env g = Ok s -> ir_session s (fun _ => false)
| irs_returned : forall s D o s', ir_session s D -> ir_call env parse_unit o s = (s', Ok tt) ->
    ir_session s' (fun x => D x && negb (ir_assigns o x))
| irs_raised : forall s D o s' e, ir_session s D -> ir_call env parse_unit o s = (s', Err e) -> ir_session s' D
| irs_interrupted : forall s D o k s', ir_session s D -> stops (iir_call env parse_unit o) k s s' ->
    ir_session s' (fun x => D x || ir_assigns o x).
End Sessions.

(** The first [k] values of the run that was not interrupted, then NaN. *)
Definition begun {env : Env} (k : nat) (full part : list (num env)) : Prop :=
  List.length part = List.length full /\
  forall i, ((i < k)%nat -> nth_error part i = nth_error full i) /\
            ((k <= i < List.length full)%nat -> nth_error part i = Some (nnan env)).

(** Assigning to a parameter. *)
Definition tl_assign {env : Env} (p : tl_param) (v : PyVal env) : TLOp env :=
  match p with
  | Pdu => TSetDu env v | Pdl => TSetDl env v | Plambda0 => TSetLambda0 env v | Pa => TSetA env v
  | Pefficacy => TSetEfficacy env v | Peta => TSetEta env v | Pdelta_t => TSetDeltaT env v
  end.
Definition ir_assign {env : Env} (p : ir_param) (v : PyVal env) : IROp env :=
  match p with
  | Pq1 => ISetQ1 env v | Pq2 => ISetQ2 env v | Pd1 => ISetD1 env v | Pd2 => ISetD2 env v
  | Peff => ISetEfficacy env v | Pdt => ISetDeltaT env v
  end.
