(** Generated by tools/gen_props.py from FactsInterrupt.v: the property theorems. *)
From Coq Require Import List String QArith ZArith Bool Arith Lia.
From RecordUpdate Require Import RecordUpdate.
From Verif Require Import Arith Pint Base TwoLayer Impulse Scm Api Spec Demo GenTL GenTLHist GenIR GenIRHist
  GenScm GenMeta GenRun GenRunInst GenLayout GenModel Interrupt SpecInterrupt InterruptProof InterruptRun GenInterrupt FactsRun FactsInterrupt.
Import ListNotations.

(** A call that is not interrupted is the call of the model.  A call makes some number
    of writes; interrupted before the last of them it stops, otherwise it ends by itself. *)
Theorem C67_uninterrupted_two_layer : forall (env : Env) parse_unit (o : TLOp env) s,
  let m := tl_call env parse_unit o in let im := itl_call env parse_unit o in
  (object_after (im None s) = fst (m s) /\ how_ended (im None s) = Fin (snd (m s))) /\
  exists n, forall k,
    ((n <= k)%nat -> object_after (im (Some k) s) = fst (m s) /\ how_ended (im (Some k) s) = Fin (snd (m s))) /\
    ((k < n)%nat -> how_ended (im (Some k) s) = Stopped).
Proof. exact c67_uninterrupted_two_layer. Qed.
Print Assumptions C67_uninterrupted_two_layer.

Theorem C67_uninterrupted_impulse_response : forall (env : Env) parse_unit (o : IROp env) s,
  let m := ir_call env parse_unit o in let im := iir_call env parse_unit o in
  (object_after (im None s) = fst (m s) /\ how_ended (im None s) = Fin (snd (m s))) /\
  exists n, forall k,
    ((n <= k)%nat -> object_after (im (Some k) s) = fst (m s) /\ how_ended (im (Some k) s) = Fin (snd (m s))) /\
    ((k < n)%nat -> how_ended (im (Some k) s) = Stopped).
Proof. exact c67_uninterrupted_impulse_response. Qed.
Print Assumptions C67_uninterrupted_impulse_response.

(** If no parameter is in doubt, driving the object gives what it gives on a new
    object with the parameters the object shows. *)
Theorem C67_two_layer_settled : forall (env : Env) parse_unit s D e,
  tl_session env parse_unit s D -> (forall p, D (Some p) = false) ->
  exists s0, tl_new env (tl_args_of env s) = Ok s0 /\
    snd (tl_drive env e s) = snd (tl_drive env e s0) /\
    (snd (tl_drive env e s) = Ok tt -> fst (tl_drive env e s) = fst (tl_drive env e s0)).
Proof. exact c67_two_layer_settled. Qed.
Print Assumptions C67_two_layer_settled.

(** The same for the other class: any object without interrupted calls in its history
    that shows the same parameters (a new one where the constructor accepts them). *)
Theorem C67_impulse_response_settled : forall (env : Env) parse_unit s D s0 e,
  ir_session env parse_unit s D -> (forall p, D (Some p) = false) ->
  ir_reachable env parse_unit s0 -> ir_same_visible env s s0 ->
  snd (ir_drive env e s) = snd (ir_drive env e s0) /\
  (snd (ir_drive env e s) = Ok tt -> fst (ir_drive env e s) = fst (ir_drive env e s0)).
Proof. exact c67_impulse_response_settled. Qed.
Print Assumptions C67_impulse_response_settled.

(** run_scenarios assigns the timestep and the driver itself: it does not matter
    whether these are in doubt. *)
Theorem C67_two_layer_scenarios : forall (env : Env) parse_unit s D s0 sc dv,
  tl_session env parse_unit s D -> (forall p, p <> Pdelta_t -> D (Some p) = false) ->
  tl_reachable env parse_unit s0 -> same_but_delta_t env Mtl s s0 ->
  snd (run_scn env parse_unit Mtl sc dv s) = snd (run_scn env parse_unit Mtl sc dv s0).
Proof. exact c67_two_layer_scenarios. Qed.
Print Assumptions C67_two_layer_scenarios.

Theorem C67_impulse_response_scenarios : forall (env : Env) parse_unit s D s0 sc dv,
  ir_session env parse_unit s D -> (forall p, p <> Pdt -> D (Some p) = false) ->
  ir_reachable env parse_unit s0 -> same_but_delta_t env Mir s s0 ->
  snd (run_scn env parse_unit Mir sc dv s) = snd (run_scn env parse_unit Mir sc dv s0).
Proof. exact c67_impulse_response_scenarios. Qed.
Print Assumptions C67_impulse_response_scenarios.

Theorem C67_two_layer_again : forall (env : Env) parse_unit s sc dv k s' sc' dv',
  tl_reachable env parse_unit s -> stops (itl_run_scenarios env parse_unit sc dv) k s s' ->
  snd (run_scn env parse_unit Mtl sc' dv' s') = snd (run_scn env parse_unit Mtl sc' dv' s).
Proof. exact c67_two_layer_again. Qed.
Print Assumptions C67_two_layer_again.

Theorem C67_impulse_response_again : forall (env : Env) parse_unit s sc dv k s' sc' dv',
  ir_reachable env parse_unit s -> stops (iir_run_scenarios env parse_unit sc dv) k s s' ->
  snd (run_scn env parse_unit Mir sc' dv' s') = snd (run_scn env parse_unit Mir sc' dv' s).
Proof. exact c67_impulse_response_again. Qed.
Print Assumptions C67_impulse_response_again.

(** Four writes per step: after [k] writes the series have got as far as this; the
    rest is NaN. *)
Theorem C67_two_layer_partial_run : forall (env : Env) s e s1 s2 k s',
  tl_set_drivers env (EQ1 e) s = (s1, Ok tt) -> tl_reset env s1 = (s2, Ok tt) ->
  stops (itl_run env) k s2 s' ->
  exists s3, tl_run env s2 = (s3, Ok tt) /\ (k < 4 * List.length (mags e))%nat /\
    begun ((k + 2) / 4) (tl_temp_upper env s3) (tl_temp_upper env s') /\
    begun ((k + 1) / 4) (tl_temp_lower env s3) (tl_temp_lower env s') /\
    begun (k / 4) (tl_rndt env s3) (tl_rndt env s').
Proof. exact c67_two_layer_partial_run. Qed.
Print Assumptions C67_two_layer_partial_run.

Theorem C67_impulse_response_partial_run : forall (env : Env) s e s1 s2 k s' s3,
  ir_set_drivers env (EQ1 e) s = (s1, Ok tt) -> ir_reset env s1 = (s2, Ok tt) ->
  stops (iir_run env) k s2 s' -> ir_run env s2 = (s3, Ok tt) ->
  (k < 4 * List.length (mags e))%nat /\
  begun ((k + 2) / 4) (ir_temp1 env s3) (ir_temp1 env s') /\
  begun ((k + 1) / 4) (ir_temp2 env s3) (ir_temp2 env s') /\
  begun (k / 4) (ir_rndt env s3) (ir_rndt env s').
Proof. exact c67_impulse_response_partial_run. Qed.
Print Assumptions C67_impulse_response_partial_run.

(** The attribute shows the old or the new value, all others are unchanged; runs are as
    if the assignment had not begun (even if the attribute shows the new value). *)
Theorem C67_two_layer_cut_assignment : forall (env : Env) parse_unit p v k s s',
  stops (itl_call env parse_unit (tl_assign p v)) k s s' ->
  (forall p', p' <> p -> tl_param_get env p' s' = tl_param_get env p' s) /\
  (tl_param_get env p s' = tl_param_get env p s \/ v = PQ (tl_param_get env p s')) /\
  tl_outputs env s' = tl_outputs env s /\
  forall e, snd (tl_drive env e s') = snd (tl_drive env e s) /\
    (snd (tl_drive env e s') = Ok tt ->
     tl_outputs env (fst (tl_drive env e s')) = tl_outputs env (fst (tl_drive env e s))).
Proof. exact c67_two_layer_cut_assignment. Qed.
Print Assumptions C67_two_layer_cut_assignment.

Theorem C67_impulse_response_cut_assignment : forall (env : Env) parse_unit p v k s s',
  stops (iir_call env parse_unit (ir_assign p v)) k s s' ->
  (forall p', p' <> p -> ir_param_get env p' s' = ir_param_get env p' s) /\
  (ir_param_get env p s' = ir_param_get env p s \/ v = PQ (ir_param_get env p s')) /\
  ir_outputs env s' = ir_outputs env s /\
  (forall e t t', ir_drive env e s = (t, Ok tt) -> ir_drive env e s' = (t', Ok tt) ->
     ir_temp1 env t' = ir_temp1 env t /\ ir_temp2 env t' = ir_temp2 env t) /\
  (p = Pdt -> forall e, snd (ir_drive env e s') = snd (ir_drive env e s) /\
    (snd (ir_drive env e s') = Ok tt ->
     ir_outputs env (fst (ir_drive env e s')) = ir_outputs env (fst (ir_drive env e s)))).
Proof. exact c67_impulse_response_cut_assignment. Qed.
Print Assumptions C67_impulse_response_cut_assignment.

(** On an object that has been run with [e0]: the object is unchanged, or shows the new
    driver and runs with the old one for the length of the new one: a shorter run, or
    IndexError. *)
Theorem C67_two_layer_cut_driver : forall (env : Env) e0 s0 s e k s',
  tl_drive env e0 s0 = (s, Ok tt) -> stops (itl_set_drivers env (EQ1 e)) k s s' -> nan_free env e ->
  s' = s \/
  tl_erf env s' = Some e /\ exists t, tl_reset env s' = (t, Ok tt) /\
  ((List.length (mags e) <= List.length (mags e0))%nat -> exists t', tl_run env t = (t', Ok tt) /\
     begun (List.length (mags e)) (tl_temp_upper env s) (tl_temp_upper env t') /\
     begun (List.length (mags e)) (tl_temp_lower env s) (tl_temp_lower env t') /\
     begun (List.length (mags e)) (tl_rndt env s) (tl_rndt env t')) /\
  ((List.length (mags e0) < List.length (mags e))%nat -> snd (tl_run env t) = Err IndexError).
Proof. exact c67_two_layer_cut_driver. Qed.
Print Assumptions C67_two_layer_cut_driver.

(** If there was no driver before, [reset] then raises AttributeError. *)
Theorem C67_two_layer_first_driver : forall (env : Env) g s e k s',
  tl_new env g = Ok s -> stops (itl_set_drivers env (EQ1 e)) k s s' -> nan_free env e ->
  s' = s \/ tl_erf env s' = Some e /\ snd (tl_reset env s') = Err AttributeError.
Proof. exact c67_two_layer_first_driver. Qed.
Print Assumptions C67_two_layer_first_driver.

(** An assignment interrupted after its first write: the attribute shows the new value,
    a run uses the old one. *)
Example C67_cut_assignment_case :
  stops (itl_call demo demo_parse (tl_assign Pdu demo_new_du)) 1 demo_tl demo_cut_du /\
  demo_new_du = PQ (tl_du demo demo_cut_du) /\ mag (tl_du demo demo_cut_du) <> mag (tl_du demo demo_tl) /\
  warmed demo_cut_du = warmed demo_tl /\
  tl_set_du demo demo_new_du demo_tl = (demo_full_du, Ok tt) /\ warmed demo_full_du <> warmed demo_tl.
Proof. exact c67_cut_assignment_case. Qed.

(** Scenarios interrupted in the first run, when one temperature has been computed: only
    the timestep and the driver are in doubt. *)
Example C67_session_case :
  stops demo_scn 10 demo_tl demo_cut_scn /\
  (exists D, tl_session demo demo_parse demo_cut_scn D /\
    (forall p, p <> Pdelta_t -> D (Some p) = false) /\ D (Some Pdelta_t) = true /\ D None = true) /\
  tl_reachable demo demo_parse demo_tl /\ same_but_delta_t demo Mtl demo_cut_scn demo_tl /\
  tl_temp_upper demo demo_cut_scn = ([Some 0; None; None] : list (num demo)).
Proof. exact c67_session_case. Qed.

(** A driver of one value over one of two. *)
Example C67_cut_driver_case :
  tl_drive demo demo_short demo_tl = (demo_run1, Ok tt) /\
  stops (itl_set_drivers demo (EQ1 demo_one)) 1 demo_run1 demo_cut_erf /\ nan_free demo demo_one /\
  tl_erf demo demo_cut_erf = Some demo_one /\ (List.length (mags demo_one) <= List.length (mags demo_short))%nat.
Proof. exact c67_cut_driver_case. Qed.
