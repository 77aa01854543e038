(** Generated by tools/gen_props.py from FactsThreadRun.v: the property theorems. *)
From Coq Require Import List String QArith ZArith Bool Arith Lia.
From Verif Require Import Arith Pint Base TwoLayer Impulse Scm Api Spec Demo GenTL FactsInterrupt Threads SpecThreads ThreadsProof NonInterf
  FactsThreads ThreadRun FactsThreadRun.
Import ListNotations.

(** A run in one thread while another assigns parameters: whatever the order in which
    the two act, the run ends normally; the series are Euler steps, and every number in them is the one
    in effect after some first part of the assignments, more and more of them as the
    run goes on.  When both have ended the object is, except for the results, as after
    the assignments. *)
Theorem C68_assign_during_run : forall (env : Env) parse_unit s e s1 s2 l sched,
  tl_set_drivers env (EQ1 e) s = (s1, Ok tt) -> tl_reset env s1 = (s2, Ok tt) ->
  let ops := tl_assigning env l in
  let x := play sched (s2, [ptl_thread env parse_unit [TRun env]; ptl_thread env parse_unit ops]) in
  forall y, ended x 0 y ->
  y = Ok [Ok []] /\
  (exists F r, to_mags env e u_Wm2 = Ok F /\ in_order r /\ (forall j i, (r j i <= List.length l)%nat) /\
     stepwise env (fun j i => tl_calls env parse_unit (firstn (r j i) ops) s2) (entry env F) (List.length F) (fst x)) /\
  (finished x -> tl_reset env (fst x) = tl_reset env (tl_calls env parse_unit ops s2) /\
                 ended x 1 (Ok (tl_outcomes env parse_unit ops s2))).
Proof. exact c68_assign_during_run. Qed.
Print Assumptions C68_assign_during_run.

(** When one of lambda0, a and efficacy is assigned during a run, there is a step from
    which on the run uses the new value, and it used the old one before: no step mixes
    the two. *)
Theorem C68_one_assignment : forall (env : Env) parse_unit s e s1 s2 p v sched,
  tl_set_drivers env (EQ1 e) s = (s1, Ok tt) -> tl_reset env s1 = (s2, Ok tt) ->
  p = Plambda0 \/ p = Pa \/ p = Pefficacy ->
  let ops := tl_assigning env [(p, v)] in
  let x := play sched (s2, [ptl_thread env parse_unit [TRun env]; ptl_thread env parse_unit ops]) in
  forall y, ended x 0 y ->
  exists F k, to_mags env e u_Wm2 = Ok F /\
    stepwise env (fun j _ => if (j <? k)%nat then s2 else tl_calls env parse_unit ops s2) (entry env F) (List.length F) (fst x).
Proof. exact c68_one_assignment. Qed.
Print Assumptions C68_one_assignment.

Example C68_different_objects_case :
  NoDup (map (object_of demo) demo_workers) /\ finished demo_driven /\
  tl_temp_upper demo (fst (fst demo_driven) 0%nat) = ([Some 0; Some (78894 # 522625)] : list (num demo)) /\
  ir_temp1 demo (snd (fst demo_driven) 0%nat) = ([Some 0; Some (3 # 1090)] : list (num demo)).
Proof. exact c68_different_objects_case. Qed.

Example C68_parameters_case :
  separate demo_pair /\ finished demo_assigned /\
  mag (tl_lambda0 demo (fst demo_assigned)) = (Some 4 : num demo) /\ mag (tl_eta demo (fst demo_assigned)) = (Some (1 # 2) : num demo).
Proof. exact c68_parameters_case. Qed.

Example C68_same_parameter_case :
  finished demo_same /\ mag (tl_lambda0 demo (fst demo_same)) = (Some 3 : num demo) /\
  tl_lambda0_mag demo (fst demo_same) = (Some 4 : num demo).
Proof. exact c68_same_parameter_case. Qed.

Example C68_during_case :
  snd (tl_set_drivers demo (EQ1 demo_three) demo_tl) = Ok tt /\
  snd (tl_reset demo (fst (tl_set_drivers demo (EQ1 demo_three) demo_tl))) = Ok tt /\
  ended demo_during 0 (Ok [Ok []]) /\ finished demo_during /\
  tl_temp_upper demo (fst demo_during) <> tl_temp_upper demo (fst (tl_run demo demo_ready)).
Proof. exact c68_during_case. Qed.

Example C68_torn_step_case :
  finished demo_torn /\
  tl_temp_upper demo (fst demo_torn) = ([Some 0; Some (78894 # 522625); Some (2736059185989 # 6828422265625)] : list (num demo)) /\
  tl_temp_upper demo (fst (tl_run demo demo_ready)) = ([Some 0; Some (78894 # 522625); Some (2736059185989 # 6828422265625)] : list (num demo)) /\
  tl_temp_lower demo (fst demo_torn) = ([Some 0; Some 0; Some (518688603 # 1092547562500)] : list (num demo)) /\
  tl_temp_lower demo (fst (tl_run demo (fst (tl_set_eta demo new_eta demo_ready)))) = ([Some 0; Some 0; Some (518688603 # 1092547562500)] : list (num demo)) /\
  tl_temp_lower demo (fst (tl_run demo demo_ready)) = ([Some 0; Some 0; Some (1037377206 # 1365684453125)] : list (num demo)).
Proof. exact c68_torn_step_case. Qed.

Example C68_two_runs_case :
  ended demo_both 0 (Ok [Err IndexError]) /\ ended demo_both 1 (Ok [Err IndexError]).
Proof. exact c68_two_runs_case. Qed.
