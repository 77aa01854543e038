(** Generated by tools/gen_props.py from FactsThreads.v: the property theorems. *)
From Coq Require Import List String QArith ZArith Bool Arith Lia.
From RecordUpdate Require Import RecordUpdate.
From Verif Require Import Arith Pint Base TwoLayer Impulse Scm Api Spec Threads SpecThreads ThreadsProof NonInterf FactsThreads.
Import ListNotations.

(** Without other threads, the actions of a thread are the calls of the model. *)
Theorem C68_alone : forall (env : Env) parse_unit,
  (forall ops s, alone (ptl_thread env parse_unit ops) s = (tl_calls env parse_unit ops s, Ok (tl_outcomes env parse_unit ops s))) /\
  (forall ops s, alone (pir_thread env parse_unit ops) s = (ir_calls env parse_unit ops s, Ok (ir_outcomes env parse_unit ops s))).
Proof. exact c68_alone. Qed.
Print Assumptions C68_alone.

(** Threads that work on different objects: whatever the order in which they act, when
    all have ended every object is what its thread alone would have made of it, every
    call has returned or raised what it would have, and other objects are unchanged. *)
Theorem C68_different_objects : forall (env : Env) parse_unit workers memory sched,
  NoDup (map (object_of env) workers) ->
  let x := play sched (memory, map (worker_thread env parse_unit) workers) in
  finished x ->
  (forall k i ops, nth_error workers k = Some (OnTL env i ops) ->
     fst (fst x) i = tl_calls env parse_unit ops (fst memory i) /\ ended x k (Ok (tl_outcomes env parse_unit ops (fst memory i)))) /\
  (forall k i ops, nth_error workers k = Some (OnIR env i ops) ->
     snd (fst x) i = ir_calls env parse_unit ops (snd memory i) /\ ended x k (Ok (ir_outcomes env parse_unit ops (snd memory i)))) /\
  (forall i, ~ In (inl i) (map (object_of env) workers) -> fst (fst x) i = fst memory i) /\
  (forall i, ~ In (inr i) (map (object_of env) workers) -> snd (fst x) i = snd memory i).
Proof. exact c68_different_objects. Qed.
Print Assumptions C68_different_objects.

(** They do end: some number of turns each is enough, in any order. *)
Theorem C68_different_objects_end : forall (env : Env) parse_unit workers memory,
  NoDup (map (object_of env) workers) ->
  exists n, forall sched, turns_each (List.length workers) n sched ->
    finished (play sched (memory, map (worker_thread env parse_unit) workers)).
Proof. exact c68_different_objects_end. Qed.
Print Assumptions C68_different_objects_end.

(** Threads that assign parameters, no two of them the same: whatever the order, at the
    end the object is that of one thread after the other, and every assignment has
    succeeded or raised as it would have. *)
Theorem C68_two_layer_parameters : forall (env : Env) parse_unit threads s sched,
  separate threads ->
  let x := play sched (s, map (fun l => ptl_thread env parse_unit (tl_assigning env l)) threads) in
  finished x ->
  fst x = tl_calls env parse_unit (List.concat (map (tl_assigning env) threads)) s /\
  forall i l, nth_error threads i = Some l -> ended x i (Ok (tl_outcomes env parse_unit (tl_assigning env l) s)).
Proof. exact c68_two_layer_parameters. Qed.
Print Assumptions C68_two_layer_parameters.

Theorem C68_impulse_response_parameters : forall (env : Env) parse_unit threads s sched,
  separate threads ->
  let x := play sched (s, map (fun l => pir_thread env parse_unit (ir_assigning env l)) threads) in
  finished x ->
  fst x = ir_calls env parse_unit (List.concat (map (ir_assigning env) threads)) s /\
  forall i l, nth_error threads i = Some l -> ended x i (Ok (ir_outcomes env parse_unit (ir_assigning env l) s)).
Proof. exact c68_impulse_response_parameters. Qed.
Print Assumptions C68_impulse_response_parameters.
