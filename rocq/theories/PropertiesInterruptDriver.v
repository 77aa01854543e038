(** Generated by tools/gen_props.py from FactsInterruptDriver.v: the property theorems. *)
From Coq Require Import List String QArith ZArith Bool Arith Lia.
From RecordUpdate Require Import RecordUpdate.
From Verif Require Import Arith Pint Base TwoLayer Impulse Scm Api Spec Demo GenTL GenTLHist GenIR GenIRHist
  GenScm GenMeta GenRun GenRunInst GenLayout GenModel Interrupt SpecInterrupt InterruptProof InterruptRun GenInterrupt FactsRun FactsInterrupt FactsInterruptDriver.
Import ListNotations.

(** On an object that has been run with [e0]: the object is unchanged, or shows the new
    driver and runs with the old one for the length of the new one: a shorter run, or
    IndexError (ZeroDivisionError if the first run had only the one point that needs no
    division and the first timescale is zero). *)
Theorem C67_impulse_response_cut_driver : forall (env : Env) e0 s0 s e k s',
  ir_drive env e0 s0 = (s, Ok tt) -> stops (iir_set_drivers env (EQ1 e)) k s s' -> nan_free env e ->
  s' = s \/
  ir_erf env s' = Some e /\ exists t, ir_reset env s' = (t, Ok tt) /\
  ((List.length (mags e) <= List.length (mags e0))%nat -> exists t', ir_run env t = (t', Ok tt) /\
     begun (List.length (mags e)) (ir_temp1 env s) (ir_temp1 env t') /\
     begun (List.length (mags e)) (ir_temp2 env s) (ir_temp2 env t') /\
     begun (List.length (mags e)) (ir_rndt env s) (ir_rndt env t')) /\
  ((List.length (mags e0) < List.length (mags e))%nat ->
     snd (ir_run env t) = Err IndexError \/
     snd (ir_run env t) = Err ZeroDivisionError /\ List.length (mags e0) = 1%nat /\
       neqb env (ir_d1_mag env s) (nQ env 0) = true).
Proof. exact c67_impulse_response_cut_driver. Qed.
Print Assumptions C67_impulse_response_cut_driver.

(** If there was no driver before, [reset] then raises AttributeError. *)
Theorem C67_impulse_response_first_driver : forall (env : Env) g s e k s',
  ir_new env g = Ok s -> stops (iir_set_drivers env (EQ1 e)) k s s' -> nan_free env e ->
  s' = s \/ ir_erf env s' = Some e /\ snd (ir_reset env s') = Err AttributeError.
Proof. exact c67_impulse_response_first_driver. Qed.
Print Assumptions C67_impulse_response_first_driver.

Example C67_impulse_response_cut_driver_case :
  ir_drive demo demo_two demo_ir = (demo_ir_run, Ok tt) /\
  stops (iir_set_drivers demo (EQ1 demo_one)) 1 demo_ir_run demo_ir_cut /\ nan_free demo demo_one /\
  ir_erf demo demo_ir_cut = Some demo_one /\ (List.length (mags demo_one) <= List.length (mags demo_two))%nat.
Proof. exact c67_impulse_response_cut_driver_case. Qed.

Example C67_impulse_response_first_driver_case :
  ir_new demo (ir_defaults demo) = Ok demo_ir /\
  stops (iir_set_drivers demo (EQ1 demo_one)) 1 demo_ir (object_after (iir_set_drivers demo (EQ1 demo_one) (Some 1%nat) demo_ir)) /\
  nan_free demo demo_one.
Proof. exact c67_impulse_response_first_driver_case. Qed.
