(** Generated by tools/gen_props.py from FactsThreadRunIR.v: the property theorems. *)
From Coq Require Import List String QArith ZArith Bool Arith Lia.
From Verif Require Import Arith Pint Base TwoLayer Impulse Scm Api Spec Demo GenTL GenIR FactsInterrupt Threads SpecThreads ThreadsProof NonInterf
  FactsThreads ThreadRun FactsThreadRun ThreadRunIR FactsThreadRunIR.
Import ListNotations.

(** The same for the impulse-response model: if the run ends normally, every number in the
    steps of its temperatures is the one in effect after some first part of the
    assignments, more and more of them as the run goes on.  When both threads have ended
    the object is, except for the results, as after the assignments. *)
Theorem C68_impulse_response_assign_during_run : forall (env : Env) parse_unit s e s1 s2 l sched,
  ir_set_drivers env (EQ1 e) s = (s1, Ok tt) -> ir_reset env s1 = (s2, Ok tt) ->
  let ops := ir_assigning env l in
  let x := play sched (s2, [pir_thread env parse_unit [IRun env]; pir_thread env parse_unit ops]) in
  (ended x 0 (Ok [Ok []]) ->
   exists F r, to_mags env e u_Wm2 = Ok F /\ box_order r /\ (forall j i, (r j i <= List.length l)%nat) /\
     box_stepwise env (fun j i => ir_calls env parse_unit (firstn (r j i) ops) s2) (entry env F) (List.length F) (fst x)) /\
  (finished x -> ir_reset env (fst x) = ir_reset env (ir_calls env parse_unit ops s2) /\
                 ended x 1 (Ok (ir_outcomes env parse_unit ops s2))).
Proof. exact c68_impulse_response_assign_during_run. Qed.
Print Assumptions C68_impulse_response_assign_during_run.

(** When one of q1, q2, d1 and d2 is assigned during a run, there is a step from which
    on the temperatures are computed with the new value, and with the old one before. *)
Theorem C68_impulse_response_one_assignment : forall (env : Env) parse_unit s e s1 s2 p v sched,
  ir_set_drivers env (EQ1 e) s = (s1, Ok tt) -> ir_reset env s1 = (s2, Ok tt) -> p <> Pdt ->
  let ops := ir_assigning env [(p, v)] in
  let x := play sched (s2, [pir_thread env parse_unit [IRun env]; pir_thread env parse_unit ops]) in
  ended x 0 (Ok [Ok []]) ->
  exists F k, to_mags env e u_Wm2 = Ok F /\
    box_stepwise env (fun j _ => if (j <? k)%nat then s2 else ir_calls env parse_unit ops s2) (entry env F) (List.length F) (fst x).
Proof. exact c68_impulse_response_one_assignment. Qed.
Print Assumptions C68_impulse_response_one_assignment.

Example C68_impulse_response_during_case :
  snd (ir_set_drivers demo (EQ1 demo_three) demo_ir) = Ok tt /\
  snd (ir_reset demo (fst (ir_set_drivers demo (EQ1 demo_three) demo_ir))) = Ok tt /\
  ended demo_during 0 (Ok [Ok []]) /\ finished demo_during /\
  ir_temp1 demo (fst demo_during) = ([Some 0; Some (3 # 1090); Some (7792 # 59405)] : list (num demo)) /\
  ir_temp1 demo (fst (ir_run demo demo_ready)) = ([Some 0; Some (3 # 1090); Some (489 # 59405)] : list (num demo)).
Proof. exact c68_impulse_response_during_case. Qed.
