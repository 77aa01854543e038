(** Generated by tools/gen_props.py from FactsHeap.v: the property theorems. *)
From Coq Require Import List String QArith Bool Arith Lia.
From Verif Require Import Arith Pint Base TwoLayer Impulse Scm Api Spec Heap SpecHeap GenTL GenIR GenHeap GenWorld GenShare Demo FactsRun FactsHeap.
Import ListNotations.
Local Open Scope nat_scope.

(** No call on a model, and no constructor, changes an array that the caller
    can reach or a quantity object that exists: neither its values nor its
    units, nor which array it points to. *)
Theorem C50_callers_arrays_untouched : forall (env : Env) parse_unit w ops,
  w_reachable env parse_unit w -> Forall (package_call env) ops ->
  let w' := w_steps env parse_unit ops w in
  (forall a, hpublic env (w_heap w) a = true -> harr env (w_heap w') a = harr env (w_heap w) a) /\
  (forall q k, nth_error (h_qtys (w_heap w)) q = Some k ->
     nth_error (h_qtys (w_heap w')) q = Some k /\ hqty env (w_heap w') q = hqty env (w_heap w) q).
Proof. exact c50_callers_arrays_untouched. Qed.
Print Assumptions C50_callers_arrays_untouched.

Example C50_case : w_reachable demo demo_parse case_world /\ Forall (package_call demo) case_calls /\
  hpublic demo (w_heap case_world) 0 = true /\ hpublic demo (w_heap case_world) 1 = true /\
  nth_error (h_qtys (w_heap case_world)) 1 = Some (mkQObj 1 u_Wkm2) /\
  Forall (fun r => r = Ok tt) (case_results case_calls case_world).
Proof. exact c50_case. Qed.

(** Calls on other models, and constructors, do not change a model. *)
Theorem C51_other_models_untouched : forall (env : Env) parse_unit w ops j x,
  w_reachable env parse_unit w ->
  Forall (fun op => package_call env op /\ call_on env op <> Some j) ops ->
  model_state env w j = Some x -> model_state env (w_steps env parse_unit ops w) j = Some x.
Proof. exact c51_other_models_untouched. Qed.
Print Assumptions C51_other_models_untouched.

(** However the calls on several models that share their driver are
    interleaved, each model ends in the state that its own calls alone give. *)
Theorem C51_two_layer_interleaving : forall (env : Env) parse_unit w ops k s,
  w_reachable env parse_unit w -> Forall (package_call env) ops ->
  Forall (arg_exists env (w_heap w)) ops -> model_state env w k = Some (STL s) ->
  model_state env (w_steps env parse_unit ops w) k =
    Some (STL (tl_calls env parse_unit (map (tl_by_value env (w_heap w)) (tl_calls_on env k ops)) s)).
Proof. exact c51_two_layer_interleaving. Qed.
Print Assumptions C51_two_layer_interleaving.

Theorem C51_impulse_response_interleaving : forall (env : Env) parse_unit w ops k s,
  w_reachable env parse_unit w -> Forall (package_call env) ops ->
  Forall (arg_exists env (w_heap w)) ops -> model_state env w k = Some (SIR s) ->
  model_state env (w_steps env parse_unit ops w) k =
    Some (SIR (ir_calls env parse_unit (map (ir_by_value env (w_heap w)) (ir_calls_on env k ops)) s)).
Proof. exact c51_impulse_response_interleaving. Qed.
Print Assumptions C51_impulse_response_interleaving.

Example C51_case : w_reachable demo demo_parse case_world /\ Forall (package_call demo) case_calls /\
  Forall (arg_exists demo (w_heap case_world)) case_calls /\
  (exists s, model_state demo case_world 0 = Some (STL s)) /\ (exists s, model_state demo case_world 1 = Some (SIR s)) /\
  Forall (fun op => package_call demo op /\ call_on demo op <> Some 1)
    [WTL 0 (HTSetDrivers 0); WTL 0 (HT (TReset demo)); WTL 0 (HT (TRun demo)); WNewIR (ir_defaults demo)] /\
  tl_calls_on demo 0 case_calls = [HTSetDrivers 0; HT (TReset demo); HT (TStep demo); HT (TStep demo); HTSetErf 1;
    HT (TReset demo); HT (TRun demo)] /\
  ir_calls_on demo 1 case_calls = [HISetDrivers 0; HI (IReset demo); HI (IRun demo)].
Proof. exact c51_case. Qed.

(** One call acts on the model as if every argument were passed by value, and
    gives the same result. *)
Theorem C52_two_layer_call_by_value : forall (env : Env) parse_unit w k c s,
  w_reachable env parse_unit w -> model_state env w k = Some (STL s) -> arg_exists env (w_heap w) (WTL k c) ->
  let r := w_step env parse_unit (WTL k c) w in
  let r' := tl_call env parse_unit (tl_by_value env (w_heap w) c) s in
  model_state env (fst r) k = Some (STL (fst r')) /\ snd r = snd r'.
Proof. exact c52_two_layer_call_by_value. Qed.
Print Assumptions C52_two_layer_call_by_value.

Theorem C52_impulse_response_call_by_value : forall (env : Env) parse_unit w k c s,
  w_reachable env parse_unit w -> model_state env w k = Some (SIR s) -> arg_exists env (w_heap w) (WIR k c) ->
  let r := w_step env parse_unit (WIR k c) w in
  let r' := ir_call env parse_unit (ir_by_value env (w_heap w) c) s in
  model_state env (fst r) k = Some (SIR (fst r')) /\ snd r = snd r'.
Proof. exact c52_impulse_response_call_by_value. Qed.
Print Assumptions C52_impulse_response_call_by_value.

(** If the caller never modifies in place an array that drives a model, every
    model of the process is in a state of the by-value models, so that all the
    theorems about those hold for it. *)
Theorem C52_quiet_histories_by_value : forall (env : Env) parse_unit ops,
  quiet env parse_unit ops (w_empty env) ->
  forall k x, model_state env (w_steps env parse_unit ops (w_empty env)) k = Some x ->
  match x with
  | STL s => tl_reachable env parse_unit s
  | SIR s => ir_reachable env parse_unit s
  end.
Proof. exact c52_quiet_histories_by_value. Qed.
Print Assumptions C52_quiet_histories_by_value.

Example C52_case : quiet demo demo_parse case_quiet (w_empty demo) /\
  Forall (fun r => r = Ok tt) (case_results case_quiet (w_empty demo)) /\
  (exists s, model_state demo (w_steps demo demo_parse case_quiet (w_empty demo)) 0 = Some (STL s)) /\
  arg_exists demo (w_heap case_world) (WTL 0 (HTSetDrivers 1)) /\
  arg_exists demo (w_heap case_world) (WIR 1 (HISetDrivers 0)).
Proof. exact c52_case. Qed.

(** Two-layer model: the driver's array is written after [set_drivers].  If the driver is in
    W/m^2 the model works on the caller's array: it is in the state that
    [set_drivers] with the new contents gives. *)
Theorem C53_two_layer_shared_driver : forall (env : Env) parse_unit w k s q a u i v l,
  w_reachable env parse_unit w -> model_state env w k = Some (STL s) ->
  nth_error (h_qtys (w_heap w)) q = Some (mkQObj a u) -> same_dim env u u_Wm2 -> units_eqb u u_Wm2 = true ->
  lset (harr env (w_heap w) a) i v = Ok l ->
  let w' := w_steps env parse_unit [WTL k (HTSetDrivers q); WWrite a i v] w in
  model_state env w' k = Some (STL (fst (tl_set_drivers env (EQ1 (mkQA l u)) s))).
Proof. exact c53_two_layer_shared_driver. Qed.
Print Assumptions C53_two_layer_shared_driver.

(** In any other unit the model has converted a copy: [model.erf] shows the new
    contents, but a run gives the results of the old ones. *)
Theorem C53_two_layer_converted_driver : forall (env : Env) parse_unit w k s q a u i v l,
  w_reachable env parse_unit w -> model_state env w k = Some (STL s) ->
  nth_error (h_qtys (w_heap w)) q = Some (mkQObj a u) -> same_dim env u u_Wm2 -> units_eqb u u_Wm2 = false ->
  lset (harr env (w_heap w) a) i v = Ok l -> nan_free env (hqty env (w_heap w) q) -> nan_free env (mkQA l u) ->
  let w' := w_steps env parse_unit [WTL k (HTSetDrivers q); WWrite a i v; WTL k (HT (TReset env)); WTL k (HT (TRun env))] w in
  exists s', model_state env w' k = Some (STL s') /\ tl_erf env s' = Some (mkQA l u) /\
    tl_outputs env s' = tl_outputs env (fst (tl_drive env (hqty env (w_heap w) q) s)).
Proof. exact c53_two_layer_converted_driver. Qed.
Print Assumptions C53_two_layer_converted_driver.

(** [q.ito(u2)] on a driver in W/m^2 leaves the forcing physically the same, and
    [model.erf] reports it so; but the model goes on taking the numbers, now in
    the other unit, as W/m^2. *)
Theorem C53_two_layer_ito_driver : forall (env : Env) parse_unit w k s q a u u2 l,
  w_reachable env parse_unit w -> model_state env w k = Some (STL s) ->
  nth_error (h_qtys (w_heap w)) q = Some (mkQObj a u) -> same_dim env u u_Wm2 -> units_eqb u u_Wm2 = true ->
  to_mags env (hqty env (w_heap w) q) u2 = Ok l -> nan_free env (mkQA l u2) ->
  let w' := w_steps env parse_unit [WTL k (HTSetDrivers q); WIto q u2; WTL k (HT (TReset env)); WTL k (HT (TRun env))] w in
  exists s', model_state env w' k = Some (STL s') /\ tl_erf env s' = Some (mkQA l u2) /\
    tl_outputs env s' = tl_outputs env (fst (tl_drive env (mkQA l u_Wm2) s)).
Proof. exact c53_two_layer_ito_driver. Qed.
Print Assumptions C53_two_layer_ito_driver.

(** Impulse-response model: the driver's array is written after [set_drivers].  If the driver is in
    W/m^2 the model works on the caller's array: it is in the state that
    [set_drivers] with the new contents gives. *)
Theorem C53_impulse_response_shared_driver : forall (env : Env) parse_unit w k s q a u i v l,
  w_reachable env parse_unit w -> model_state env w k = Some (SIR s) ->
  nth_error (h_qtys (w_heap w)) q = Some (mkQObj a u) -> same_dim env u u_Wm2 -> units_eqb u u_Wm2 = true ->
  lset (harr env (w_heap w) a) i v = Ok l ->
  let w' := w_steps env parse_unit [WIR k (HISetDrivers q); WWrite a i v] w in
  model_state env w' k = Some (SIR (fst (ir_set_drivers env (EQ1 (mkQA l u)) s))).
Proof. exact c53_impulse_response_shared_driver. Qed.
Print Assumptions C53_impulse_response_shared_driver.

(** In any other unit the model has converted a copy: [model.erf] shows the new
    contents, but a run gives the results of the old ones. *)
Theorem C53_impulse_response_converted_driver : forall (env : Env) parse_unit w k s q a u i v l,
  w_reachable env parse_unit w -> model_state env w k = Some (SIR s) ->
  nth_error (h_qtys (w_heap w)) q = Some (mkQObj a u) -> same_dim env u u_Wm2 -> units_eqb u u_Wm2 = false ->
  lset (harr env (w_heap w) a) i v = Ok l -> nan_free env (hqty env (w_heap w) q) -> nan_free env (mkQA l u) ->
  let w' := w_steps env parse_unit [WIR k (HISetDrivers q); WWrite a i v; WIR k (HI (IReset env)); WIR k (HI (IRun env))] w in
  exists s', model_state env w' k = Some (SIR s') /\ ir_erf env s' = Some (mkQA l u) /\
    ir_outputs env s' = ir_outputs env (fst (ir_drive env (hqty env (w_heap w) q) s)).
Proof. exact c53_impulse_response_converted_driver. Qed.
Print Assumptions C53_impulse_response_converted_driver.

(** [q.ito(u2)] on a driver in W/m^2 leaves the forcing physically the same, and
    [model.erf] reports it so; but the model goes on taking the numbers, now in
    the other unit, as W/m^2. *)
Theorem C53_impulse_response_ito_driver : forall (env : Env) parse_unit w k s q a u u2 l,
  w_reachable env parse_unit w -> model_state env w k = Some (SIR s) ->
  nth_error (h_qtys (w_heap w)) q = Some (mkQObj a u) -> same_dim env u u_Wm2 -> units_eqb u u_Wm2 = true ->
  to_mags env (hqty env (w_heap w) q) u2 = Ok l -> nan_free env (mkQA l u2) ->
  let w' := w_steps env parse_unit [WIR k (HISetDrivers q); WIto q u2; WIR k (HI (IReset env)); WIR k (HI (IRun env))] w in
  exists s', model_state env w' k = Some (SIR s') /\ ir_erf env s' = Some (mkQA l u2) /\
    ir_outputs env s' = ir_outputs env (fst (ir_drive env (mkQA l u_Wm2) s)).
Proof. exact c53_impulse_response_ito_driver. Qed.
Print Assumptions C53_impulse_response_ito_driver.

Example C53_case : w_reachable demo demo_parse case_world /\
  (exists s, model_state demo case_world 0 = Some (STL s)) /\ (exists s, model_state demo case_world 1 = Some (SIR s)) /\
  nth_error (h_qtys (w_heap case_world)) 0 = Some (mkQObj 0 u_Wm2) /\ units_eqb u_Wm2 u_Wm2 = true /\
  nth_error (h_qtys (w_heap case_world)) 1 = Some (mkQObj 1 u_Wkm2) /\ units_eqb u_Wkm2 u_Wm2 = false /\
  same_dim demo u_Wkm2 u_Wm2 /\
  lset (harr demo (w_heap case_world) 0) 2 (Some 7%Q) = Ok [Some 0; Some 1; Some 7; Some 3]%Q /\
  lset (harr demo (w_heap case_world) 1) 2 (Some 7%Q) = Ok [Some 0; Some 1000000; Some 7]%Q /\
  to_mags demo (hqty demo (w_heap case_world) 0) u_Wkm2 = Ok [Some 0; Some 1000000; Some 2000000; Some 3000000]%Q /\
  nan_free demo (hqty demo (w_heap case_world) 1) /\ nan_free demo (mkQA (env := demo) [Some 0; Some 1000000; Some 7]%Q u_Wkm2) /\
  nan_free demo (mkQA (env := demo) [Some 0; Some 1000000; Some 2000000; Some 3000000]%Q u_Wkm2).
Proof. exact c53_case. Qed.

Example C53_difference :
  let run := [WTL 0 (HT (TReset demo)); WTL 0 (HT (TRun demo))] in
  warming (WTL 0 (HTSetDrivers 0) :: run) <> warming ([WTL 0 (HTSetDrivers 0); WWrite 0 2 (Some 7%Q : num demo)] ++ run) /\
  warming (WTL 0 (HTSetDrivers 0) :: run) <> warming ([WTL 0 (HTSetDrivers 0); WIto 0 u_Wkm2] ++ run) /\
  warming (WTL 0 (HTSetDrivers 1) :: run) = warming ([WTL 0 (HTSetDrivers 1); WWrite 1 1 (Some 7%Q : num demo)] ++ run).
Proof. exact c53_difference. Qed.
