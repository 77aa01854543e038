(** Generated by tools/gen_props.py from FactsRun.v: the property theorems. *)
From Coq Require Import List String QArith ZArith Bool Arith Lia.
From Verif Require Import Arith Pint Base TwoLayer Impulse Scm Api Spec Demo
  GenTL GenTLHist GenIR GenIRHist GenScm GenMeta GenRun GenRunInst FactsRun.
Import ListNotations.
Local Open Scope list_scope.

Theorem C01_two_layer_shape : forall (env : Env) (s : TL env) (e : QArr env) (F : list (num env)),
  to_mags env e u_Wm2 = Ok F -> nan_free env e ->
  exists s' U L R,
    tl_drive env e s = (s', Ok tt) /\
    tl_outputs env s' =
      [("Surface Temperature|Upper"%string, "delta_degC"%string, U);
       ("Surface Temperature|Lower"%string, "delta_degC"%string, L);
       ("Heat Uptake"%string, "W/m^2"%string, R)] /\
    List.length F = List.length (mags e) /\
    tl_series env (tl_delta_t_mag env s) (tl_lambda0_mag env s) (tl_a_mag env s)
      (tl_efficacy_mag env s) (tl_eta_mag env s) (tl_hcu_mag env s) (tl_hcl_mag env s) F U L R.
Proof. exact c01_two_layer_shape. Qed.
Print Assumptions C01_two_layer_shape.

Theorem C01_impulse_response_shape : forall (env : Env) (s s' : IR env) (e : QArr env),
  ir_drive env e s = (s', Ok tt) ->
  exists F T1 T2 T R,
    to_mags env e u_Wm2 = Ok F /\ List.length F = List.length (mags e) /\
    ir_outputs env s' =
      [("Surface Temperature|Box 1"%string, "delta_degC"%string, T1);
       ("Surface Temperature|Box 2"%string, "delta_degC"%string, T2);
       ("Surface Temperature"%string, "delta_degC"%string, T);
       ("Heat Uptake"%string, "W/m^2"%string, R)] /\
    ir_series env s F T1 T2 T R.
Proof. exact c01_impulse_response_shape. Qed.
Print Assumptions C01_impulse_response_shape.

(** When an impulse-response run succeeds. *)
Theorem C01_impulse_response_success : forall (env : Env) (s : IR env) (e : QArr env) (F : list (num env)) lambda0,
  to_mags env e u_Wm2 = Ok F -> nan_free env e ->
  neqb env (ir_d1_mag env s) (nQ env 0) = false -> neqb env (ir_d2_mag env s) (nQ env 0) = false ->
  ir_get_two_layer_parameters env s = Ok lambda0 ->
  neqb env (ir_efficacy_mag env s) (nQ env 1) = true ->
  exists s', ir_drive env e s = (s', Ok tt).
Proof. exact c01_impulse_response_success. Qed.
Print Assumptions C01_impulse_response_success.

(** A concrete case: model with du in kilometres, efficacy 1.3, four drivers. *)
Example C01_shape_ex :
  to_mags demo demo_erf u_Wm2 = Ok (mags demo_erf) /\ nan_free demo demo_erf /\
  List.length (mags demo_erf) = 4%nat /\
  snd (ir_drive demo demo_erf demo_ir) = Ok tt /\
  nth_error (tl_temp_upper demo (fst (tl_drive demo demo_erf demo_tl))) 0 = Some (Some 0) /\
  nth_error (tl_temp_upper demo (fst (tl_drive demo demo_erf demo_tl))) 3 <> Some (Some 0).
Proof. exact c01_shape_ex. Qed.

Theorem C02_two_layer_causality : forall (env : Env) (s : TL env) (e e' : QArr env) (F F' : list (num env)) i,
  to_mags env e u_Wm2 = Ok F -> to_mags env e' u_Wm2 = Ok F' ->
  nan_free env e -> nan_free env e' ->
  List.length F = List.length F' -> agree_before env i F F' ->
  outputs_agree_upto env i (tl_outputs env (fst (tl_drive env e s)))
                           (tl_outputs env (fst (tl_drive env e' s))).
Proof. exact c02_two_layer_causality. Qed.
Print Assumptions C02_two_layer_causality.

Theorem C02_impulse_response_causality : forall (env : Env) (s : IR env) (e e' : QArr env) (F F' : list (num env)) i,
  to_mags env e u_Wm2 = Ok F -> to_mags env e' u_Wm2 = Ok F' ->
  snd (ir_drive env e s) = Ok tt -> snd (ir_drive env e' s) = Ok tt ->
  List.length F = List.length F' -> agree_before env i F F' ->
  outputs_agree_upto env i (ir_outputs env (fst (ir_drive env e s)))
                           (ir_outputs env (fst (ir_drive env e' s))).
Proof. exact c02_impulse_response_causality. Qed.
Print Assumptions C02_impulse_response_causality.

(** The last driver value is inert. *)
Theorem C02_last_driver_inert : forall (env : Env) (s : TL env) (r : IR env) (l : list (num env)) (x y : num env),
  nan_free env (mkQA (l ++ [x]) u_Wm2) -> nan_free env (mkQA (l ++ [y]) u_Wm2) ->
  tl_outputs env (fst (tl_drive env (mkQA (l ++ [x]) u_Wm2) s)) =
  tl_outputs env (fst (tl_drive env (mkQA (l ++ [y]) u_Wm2) s)) /\
  (snd (ir_drive env (mkQA (l ++ [x]) u_Wm2) r) = Ok tt ->
   snd (ir_drive env (mkQA (l ++ [y]) u_Wm2) r) = Ok tt ->
   ir_outputs env (fst (ir_drive env (mkQA (l ++ [x]) u_Wm2) r)) =
   ir_outputs env (fst (ir_drive env (mkQA (l ++ [y]) u_Wm2) r))).
Proof. exact c02_last_driver_inert. Qed.
Print Assumptions C02_last_driver_inert.

Example C02_causality_ex :
  agree_before demo 2 (mags demo_erf) [Some 0; Some 1; Some 7; Some 8] /\
  nth_error (tl_temp_upper demo (fst (tl_drive demo demo_erf demo_tl))) 3 <>
  nth_error (tl_temp_upper demo (fst (tl_drive demo (mkQA (env := demo) [Some 0; Some 1; Some 7; Some 8] u_Wm2) demo_tl))) 3.
Proof. exact c02_causality_ex. Qed.

Theorem C03_two_layer_history : forall (env : Env) parse_unit (s1 s2 : TL env) (e : QArr env),
  tl_reachable env parse_unit s1 -> tl_reachable env parse_unit s2 ->
  (forall p, tl_param_get env p s1 = tl_param_get env p s2) ->
  snd (tl_drive env e s1) = snd (tl_drive env e s2) /\
  (snd (tl_drive env e s1) = Ok tt ->
   tl_outputs env (fst (tl_drive env e s1)) = tl_outputs env (fst (tl_drive env e s2))).
Proof. exact c03_two_layer_history. Qed.
Print Assumptions C03_two_layer_history.

(** ... in particular they are those of a newly constructed model. *)
Theorem C03_two_layer_fresh : forall (env : Env) parse_unit (s : TL env) (e : QArr env),
  tl_reachable env parse_unit s ->
  exists s0, tl_new env (tl_args_of env s) = Ok s0 /\
    snd (tl_drive env e s) = snd (tl_drive env e s0) /\
    (snd (tl_drive env e s) = Ok tt ->
     tl_outputs env (fst (tl_drive env e s)) = tl_outputs env (fst (tl_drive env e s0))).
Proof. exact c03_two_layer_fresh. Qed.
Print Assumptions C03_two_layer_fresh.

Theorem C03_impulse_response_history : forall (env : Env) parse_unit (s1 s2 : IR env) (e : QArr env),
  ir_reachable env parse_unit s1 -> ir_reachable env parse_unit s2 ->
  (forall p, ir_param_get env p s1 = ir_param_get env p s2) ->
  snd (ir_drive env e s1) = snd (ir_drive env e s2) /\
  (snd (ir_drive env e s1) = Ok tt ->
   ir_outputs env (fst (ir_drive env e s1)) = ir_outputs env (fst (ir_drive env e s2))).
Proof. exact c03_impulse_response_history. Qed.
Print Assumptions C03_impulse_response_history.

(** Two histories, one with a failed assignment, a run and a re-assignment, that
    end with the same visible parameters. *)
Example C03_history_ex :
  let s2 := tl_calls demo demo_parse
              [TSetEta demo (PQ (mkQty demo 1 u_m)); TSetDrivers demo (EQ1 demo_erf); TReset demo; TRun demo;
               TStep demo; TSetEta demo (PQ (mkQty demo 2 u_Wm2C)); TSetEta demo (PQ (tl_eta demo demo_tl))] demo_tl in
  tl_reachable demo demo_parse demo_tl /\ tl_reachable demo demo_parse s2 /\ s2 <> demo_tl /\
  forall p, tl_param_get demo p demo_tl = tl_param_get demo p s2.
Proof. exact c03_history_ex. Qed.

Theorem C04_two_layer_steps : forall (env : Env) (s : TL env) (e : QArr env) (F : list (num env)),
  to_mags env e u_Wm2 = Ok F -> nan_free env e ->
  exists s0, (tl_set_drivers env (EQ1 e) ;; tl_reset env) s = (s0, Ok tt) /\
    tl_run env s0 = tl_steps env (List.length (mags e)) s0 /\
    snd (tl_run env s0) = Ok tt /\
    forall k, (k <= List.length (mags e))%nat ->
      snd (tl_steps env k s0) = Ok tt /\
      Forall2 (fun part full => fst part = fst full /\
                 partial_series env k (List.length (mags e)) (snd part) (snd full))
        (tl_outputs env (fst (tl_steps env k s0))) (tl_outputs env (fst (tl_run env s0))).
Proof. exact c04_two_layer_steps. Qed.
Print Assumptions C04_two_layer_steps.

Theorem C04_impulse_response_steps : forall (env : Env) (s s0 : IR env) (e : QArr env),
  (ir_set_drivers env (EQ1 e) ;; ir_reset env) s = (s0, Ok tt) ->
  ir_run env s0 = ir_steps env (List.length (mags e)) s0 /\
  (snd (ir_run env s0) = Ok tt ->
   forall k, (k <= List.length (mags e))%nat ->
     snd (ir_steps env k s0) = Ok tt /\
     partial_series env k (List.length (mags e)) (ir_temp1 env (fst (ir_steps env k s0))) (ir_temp1 env (fst (ir_run env s0))) /\
     partial_series env k (List.length (mags e)) (ir_temp2 env (fst (ir_steps env k s0))) (ir_temp2 env (fst (ir_run env s0))) /\
     partial_series env k (List.length (mags e)) (ir_rndt env (fst (ir_steps env k s0))) (ir_rndt env (fst (ir_run env s0)))).
Proof. exact c04_impulse_response_steps. Qed.
Print Assumptions C04_impulse_response_steps.

(** Stepping past the end of the series. *)
Theorem C04_two_layer_overrun : forall (env : Env) (s : TL env) i m,
  tl_idx env s = Some i -> tl_erf_mag env s = Some m ->
  (List.length (tl_temp_upper env s) <= S i)%nat ->
  snd (tl_step env s) = Err IndexError /\
  tl_outputs env (fst (tl_step env s)) = tl_outputs env s /\
  tl_only_results env s (fst (tl_step env s)).
Proof. exact c04_two_layer_overrun. Qed.
Print Assumptions C04_two_layer_overrun.

Theorem C04_impulse_response_overrun : forall (env : Env) (s : IR env) i m,
  ir_idx env s = Some i -> ir_erf_mag env s = Some m ->
  (List.length (ir_temp1 env s) <= S i)%nat ->
  (snd (ir_step env s) = Err IndexError \/
   (snd (ir_step env s) = Err ZeroDivisionError /\ neqb env (ir_d1_mag env s) (nQ env 0) = true)) /\
  ir_outputs env (fst (ir_step env s)) = ir_outputs env s /\
  ir_only_results env s (fst (ir_step env s)).
Proof. exact c04_impulse_response_overrun. Qed.
Print Assumptions C04_impulse_response_overrun.

Theorem C04_two_layer_keeps_earlier : forall (env : Env) (s : TL env) i j,
  tl_idx env s = Some i -> (j <= i)%nat ->
  nth_error (tl_temp_upper env (fst (tl_step env s))) j = nth_error (tl_temp_upper env s) j /\
  nth_error (tl_temp_lower env (fst (tl_step env s))) j = nth_error (tl_temp_lower env s) j /\
  nth_error (tl_rndt env (fst (tl_step env s))) j = nth_error (tl_rndt env s) j.
Proof. exact c04_two_layer_keeps_earlier. Qed.
Print Assumptions C04_two_layer_keeps_earlier.

Theorem C04_impulse_response_keeps_earlier : forall (env : Env) (s : IR env) i j,
  ir_idx env s = Some i -> (j <= i)%nat ->
  nth_error (ir_temp1 env (fst (ir_step env s))) j = nth_error (ir_temp1 env s) j /\
  nth_error (ir_temp2 env (fst (ir_step env s))) j = nth_error (ir_temp2 env s) j /\
  nth_error (ir_rndt env (fst (ir_step env s))) j = nth_error (ir_rndt env s) j.
Proof. exact c04_impulse_response_keeps_earlier. Qed.
Print Assumptions C04_impulse_response_keeps_earlier.

Example C04_overrun_ex :
  let s := fst (tl_drive demo demo_erf demo_tl) in
  tl_idx demo s = Some 3%nat /\ tl_erf_mag demo s = Some (mags demo_erf) /\
  List.length (tl_temp_upper demo s) = 4%nat /\ snd (tl_step demo s) = Err IndexError.
Proof. exact c04_overrun_ex. Qed.

Theorem C05_two_layer_no_stale_values : forall (env : Env) parse_unit (s : TL env),
  tl_reachable env parse_unit s -> tl_coherent env s.
Proof. exact c05_two_layer_no_stale_values. Qed.
Print Assumptions C05_two_layer_no_stale_values.

Theorem C05_impulse_response_no_stale_values : forall (env : Env) parse_unit (s : IR env),
  ir_reachable env parse_unit s -> ir_coherent env s.
Proof. exact c05_impulse_response_no_stale_values. Qed.
Print Assumptions C05_impulse_response_no_stale_values.

Theorem C06_two_layer_setters : forall (env : Env) (s : TL env) p (v : PyVal env),
  match v with
  | POther => tl_param_set env p v s = (s, Err TypeError)
  | PQ q =>
      (~ same_dim env (units q) (tl_param_unit p) -> tl_param_set env p v s = (s, Err UnitError)) /\
      (same_dim env (units q) (tl_param_unit p) ->
       exists s', tl_param_set env p v s = (s', Ok tt) /\ tl_param_get env p s' = q /\
         (forall p', p' <> p -> tl_param_get env p' s' = tl_param_get env p' s) /\
         tl_erf env s' = tl_erf env s /\ tl_outputs env s' = tl_outputs env s /\
         tl_idx env s' = tl_idx env s)
  end.
Proof. exact c06_two_layer_setters. Qed.
Print Assumptions C06_two_layer_setters.

Theorem C06_impulse_response_setters : forall (env : Env) (s : IR env) p (v : PyVal env),
  match v with
  | POther => ir_param_set env p v s = (s, Err TypeError)
  | PQ q =>
      (~ same_dim env (units q) (ir_param_unit p) -> ir_param_set env p v s = (s, Err UnitError)) /\
      (same_dim env (units q) (ir_param_unit p) ->
       exists s', ir_param_set env p v s = (s', Ok tt) /\ ir_param_get env p s' = q /\
         (forall p', p' <> p -> ir_param_get env p' s' = ir_param_get env p' s) /\
         ir_erf env s' = ir_erf env s /\ ir_outputs env s' = ir_outputs env s /\
         ir_idx env s' = ir_idx env s)
  end.
Proof. exact c06_impulse_response_setters. Qed.
Print Assumptions C06_impulse_response_setters.

(** [set_drivers] and assignment to [erf]. *)
Theorem C06_set_drivers : forall (env : Env) (s : TL env) (r : IR env) (e : ErfArg env),
  match e with
  | ENoShape => tl_set_drivers env e s = (s, Err AttributeError) /\ ir_set_drivers env e r = (r, Err AttributeError)
  | EQnot1 _ | EArrNot1 => tl_set_drivers env e s = (s, Err AssertionError) /\ ir_set_drivers env e r = (r, Err AssertionError)
  | EArr1 => tl_set_drivers env e s = (s, Err TypeError) /\ ir_set_drivers env e r = (r, Err TypeError)
  | EQ1 q =>
      (~ same_dim env (aunits q) u_Wm2 ->
         tl_set_drivers env e s = (s, Err UnitError) /\ ir_set_drivers env e r = (r, Err UnitError)) /\
      (same_dim env (aunits q) u_Wm2 ->
         (exists s', tl_set_drivers env e s = (s', Ok tt) /\ tl_erf env s' = Some q /\
            (forall p, tl_param_get env p s' = tl_param_get env p s) /\
            tl_outputs env s' = tl_outputs env s /\ tl_idx env s' = tl_idx env s) /\
         (exists r', ir_set_drivers env e r = (r', Ok tt) /\ ir_erf env r' = Some q /\
            (forall p, ir_param_get env p r' = ir_param_get env p r) /\
            ir_outputs env r' = ir_outputs env r /\ ir_idx env r' = ir_idx env r))
  end.
Proof. exact c06_set_drivers. Qed.
Print Assumptions C06_set_drivers.

(** Construction succeeds exactly when every argument would be accepted by the
    corresponding setter. *)
Theorem C06_two_layer_construction : forall (env : Env) (g : TLArgs env),
  ((exists s, tl_new env g = Ok s) <-> forall p, good_arg env (tl_arg env g p) (tl_param_unit p)) /\
  forall s, tl_new env g = Ok s -> forall p, tl_arg env g p = PQ (tl_param_get env p s).
Proof. exact c06_two_layer_construction. Qed.
Print Assumptions C06_two_layer_construction.

Example C06_setters_ex :
  same_dim demo [("kilometer"%string, 1)] (tl_param_unit Pdu) /\
  ~ same_dim demo u_s (tl_param_unit Pdu).
Proof. exact c06_setters_ex. Qed.

Theorem C07_two_layer_reset : forall (env : Env) parse_unit (s : TL env),
  tl_reachable env parse_unit s ->
  match tl_erf env s with
  | None => tl_reset env s = (s, Err ModelStateError)
  | Some e =>
      (~ nan_free env e -> tl_reset env s = (s, Err ModelStateError)) /\
      (nan_free env e ->
       exists s', tl_reset env s = (s', Ok tt) /\ tl_only_results env s s' /\ tl_idx env s' = None /\
         forall o, In o (tl_outputs env s') -> snd o = repeat (nnan env) (List.length (mags e)))
  end.
Proof. exact c07_two_layer_reset. Qed.
Print Assumptions C07_two_layer_reset.

Theorem C07_impulse_response_reset : forall (env : Env) parse_unit (s : IR env),
  ir_reachable env parse_unit s ->
  match ir_erf env s with
  | None => ir_reset env s = (s, Err ModelStateError)
  | Some e =>
      (~ nan_free env e -> ir_reset env s = (s, Err ModelStateError)) /\
      (nan_free env e ->
       exists s', ir_reset env s = (s', Ok tt) /\ ir_only_results env s s' /\ ir_idx env s' = None /\
         ir_temp1 env s' = repeat (nnan env) (List.length (mags e)) /\
         ir_temp2 env s' = repeat (nnan env) (List.length (mags e)) /\
         ir_rndt env s' = repeat (nnan env) (List.length (mags e)))
  end.
Proof. exact c07_impulse_response_reset. Qed.
Print Assumptions C07_impulse_response_reset.

Example C07_reset_ex :
  let s := fst (tl_set_drivers demo (EQ1 (mkQA (env := demo) [Some 1; None; Some 2] u_Wm2)) demo_tl) in
  tl_reachable demo demo_parse s /\ tl_erf demo s <> None /\ snd (tl_reset demo s) = Err ModelStateError /\
  snd (tl_reset demo (fst (tl_set_drivers demo (EQ1 demo_erf) s))) = Ok tt.
Proof. exact c07_reset_ex. Qed.

Theorem C08_two_layer_uncomputed_are_nan : forall (env : Env) parse_unit (s : TL env),
  tl_reachable env parse_unit s -> tl_nan_inv env s.
Proof. exact c08_two_layer_uncomputed_are_nan. Qed.
Print Assumptions C08_two_layer_uncomputed_are_nan.

Theorem C08_impulse_response_uncomputed_are_nan : forall (env : Env) parse_unit (s : IR env),
  ir_reachable env parse_unit s -> ir_nan_inv env s.
Proof. exact c08_impulse_response_uncomputed_are_nan. Qed.
Print Assumptions C08_impulse_response_uncomputed_are_nan.

Example C08_partial_run_ex :
  let s := tl_calls demo demo_parse [TSetDrivers demo (EQ1 demo_erf); TReset demo; TRun demo;
             TSetDrivers demo (EQ1 demo_erf); TReset demo; TStep demo; TStep demo; TStep demo] demo_tl in
  tl_reachable demo demo_parse s /\ tl_idx demo s = Some 2%nat /\
  nth_error (tl_temp_upper demo s) 3 = Some None /\ nth_error (tl_temp_upper demo s) 2 <> Some None.
Proof. exact c08_partial_run_ex. Qed.

Theorem C09_two_layer_run_without_drivers : forall (env : Env) (g : TLArgs env) (s : TL env),
  tl_new env g = Ok s ->
  tl_reset env s = (s, Err ModelStateError) /\
  snd (tl_run env s) = Ok tt /\
  (forall o, In o (tl_outputs env (fst (tl_run env s))) -> snd o = [nQ env 0]) /\
  snd (tl_run env (fst (tl_run env s))) = Err AttributeError.
Proof. exact c09_two_layer_run_without_drivers. Qed.
Print Assumptions C09_two_layer_run_without_drivers.

Theorem C09_impulse_response_run_without_drivers : forall (env : Env) (g : IRArgs env) (s : IR env),
  ir_new env g = Ok s ->
  ir_reset env s = (s, Err ModelStateError) /\
  snd (ir_run env s) = Ok tt /\
  ir_temp1 env (fst (ir_run env s)) = [nQ env 0] /\ ir_temp2 env (fst (ir_run env s)) = [nQ env 0] /\
  ir_rndt env (fst (ir_run env s)) = [nQ env 0] /\
  snd (ir_run env (fst (ir_run env s))) = Err AttributeError.
Proof. exact c09_impulse_response_run_without_drivers. Qed.
Print Assumptions C09_impulse_response_run_without_drivers.
