(** Vocabulary for the properties about shared arrays. *)
From Coq Require Import List String QArith Bool Arith.
From Verif Require Import Arith Pint Base TwoLayer Impulse Scm Api Heap.
Import ListNotations.

Section SpecHeap.
Variable env : Env.

(** The attributes of a model object, arrays by contents. *)
Inductive ObjState : Type := STL (s : TL env) | SIR (s : IR env).
Definition state_of (h : Heap env) (x : Obj env) : ObjState :=
  match x with
  | OTL o => STL (view env (tl_class env) h o)
  | OIR o => SIR (view env (ir_class env) h o)
  end.
(** State of the [k]-th model object of a world. *)
Definition model_state (w : World env) (k : nat) : option ObjState :=
  option_map (state_of (w_heap w)) (nth_error (w_objs w) k).

(** The operations that run code of the package; the others are the caller's
    own array manipulations. *)
Definition package_call (op : WOp env) : Prop :=
  match op with
  | WNewTL _ | WNewIR _ | WTL _ _ | WIR _ _ => True
  | _ => False
  end.
(** The model object a call is made on. *)
Definition call_on (op : WOp env) : option nat :=
  match op with WTL k _ | WIR k _ => Some k | _ => None end.

(** A call with its quantity argument replaced by the quantity's value. *)
Definition tl_by_value (h : Heap env) (o : HTLOp env) : TLOp env :=
  match o with
  | HTSetErf q => TSetErf env (Some (hqty env h q))
  | HTSetDrivers q => TSetDrivers env (EQ1 (hqty env h q))
  | HT o => o
  end.
Definition ir_by_value (h : Heap env) (o : HIROp env) : IROp env :=
  match o with
  | HISetErf q => ISetErf env (Some (hqty env h q))
  | HISetDrivers q => ISetDrivers env (EQ1 (hqty env h q))
  | HI o => o
  end.

(** The calls made on the [k]-th model, in order. *)
Definition tl_calls_on (k : nat) (ops : list (WOp env)) : list (HTLOp env) :=
  flat_map (fun op => match op with WTL j c => if Nat.eqb j k then [c] else [] | _ => [] end) ops.
Definition ir_calls_on (k : nat) (ops : list (WOp env)) : list (HIROp env) :=
  flat_map (fun op => match op with WIR j c => if Nat.eqb j k then [c] else [] | _ => [] end) ops.
(** The quantity object a call is given exists in [h]. *)
Definition arg_exists (h : Heap env) (op : WOp env) : Prop :=
  match op with
  | WTL _ (HTSetErf q) | WTL _ (HTSetDrivers q) | WIR _ (HISetErf q) | WIR _ (HISetDrivers q) =>
      (q < List.length (h_qtys h))%nat
  | _ => True
  end.

(** An array that some model refers to as its forcing. *)
Definition drives {S} (h : Heap env) (o : HObj S) (a : nat) : Prop :=
  o_erf_mag o = Some a \/
  exists q k, o_erf o = Some q /\ nth_error (h_qtys h) q = Some k /\ q_arr k = a.
Definition in_use (w : World env) (a : nat) : Prop :=
  (exists k o, nth_error (w_objs w) k = Some (OTL o) /\ drives (w_heap w) o a) \/
  (exists k o, nth_error (w_objs w) k = Some (OIR o) /\ drives (w_heap w) o a).

(** The caller does not modify in place an array that a model refers to. *)
Definition quiet_op (w : World env) (op : WOp env) : Prop :=
  match op with
  | WWrite a _ _ => ~ in_use w a
  | WIto q _ => forall k, nth_error (h_qtys (w_heap w)) q = Some k -> ~ in_use w (q_arr k)
  | _ => True
  end.
Variable parse_unit : string -> option (Qty env).
Fixpoint quiet (ops : list (WOp env)) (w : World env) : Prop :=
  match ops with
  | [] => True
  | op :: r => quiet_op w op /\ quiet r (fst (w_step env parse_unit op w))
  end.
End SpecHeap.
Arguments STL {env}. Arguments SIR {env}.
