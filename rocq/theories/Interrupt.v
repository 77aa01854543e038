(** The methods once more, as sequences of writes to the object that can be
    interrupted between any two of them (KeyboardInterrupt: Python raises it between
    bytecode instructions, so an attribute or array element is written or not).
    Reading and computing do not change the object, so that an interruption while a
    value is computed is one just before the next write.  Without interruption the
    methods are those of TwoLayer.v, Impulse.v and Scm.v (c67_uninterrupted).  Objects
    other than the model (the copy of the scenarios, the results being collected) are
    lost when a call is interrupted. *)
From Coq Require Import List String QArith ZArith Bool Arith.
From RecordUpdate Require Import RecordUpdate.
From Verif Require Import Arith Pint Base TwoLayer Impulse Scm Api.
Import ListNotations.

(** How a call ends: by itself (Python return or raise) or interrupted. *)
Inductive Ends (A : Type) : Type :=
| Fin (r : Res A)
| Stopped.
Arguments Fin {A} r.
Arguments Stopped {A}.

(** A method with the number of writes after which it is interrupted ([None]: never);
    the number left is handed on.  (Python method calls.) *)
Definition IMeth (S A : Type) : Type := option nat -> S -> S * option nat * Ends A.
(** Python [return]. *)
Definition iret {S A} (a : A) : IMeth S A := fun k s => (s, k, Fin (Ok a)).
(** Python [raise]. *)
Definition iraise {S A} (e : exn) : IMeth S A := fun k s => (s, k, Fin (Err e)).
(** Sequencing of Python statements. *)
Definition ibind {S A B} (m : IMeth S A) (f : A -> IMeth S B) : IMeth S B :=
  fun k s => match m k s with
             | (s', k', Fin (Ok a)) => f a k' s'
             | (s', k', Fin (Err e)) => (s', k', Fin (Err e))
             | (s', k', Stopped) => (s', k', Stopped)
             end.
(** A Python expression that reads attributes. *)
Definition iread {S A} (r : S -> Res A) : IMeth S A := fun k s => (s, k, Fin (r s)).
(** One write (Python assignment to an attribute or array element). *)
Definition iwrite {S} (f : S -> S) : IMeth S unit :=
  fun k s => match k with
             | None => (f s, None, Fin (Ok tt))
             | Some O => (s, Some O, Stopped)
             | Some (S k') => (f s, Some k', Fin (Ok tt))
             end.
Notation "'ido' x <- m ; f" := (ibind m (fun x => f))
  (at level 200, x name, m at level 100, f at level 200).
Notation "m ';;;' f" := (ibind m (fun _ => f))
  (at level 199, right associativity).

Section TwoLayerI.
Variable env : Env.
Notation num := (num env).
Notation TL := (TL env).

#[local] Instance etaTL : Settable _ := settable! (mkTL env)
  <(tl_du env); (tl_dl env); (tl_lambda0 env); (tl_a env); (tl_efficacy env); (tl_eta env); (tl_delta_t env);
   (tl_du_mag env); (tl_dl_mag env); (tl_lambda0_mag env); (tl_a_mag env); (tl_efficacy_mag env); (tl_eta_mag env);
   (tl_delta_t_mag env); (tl_hcu_mag env); (tl_hcl_mag env); (tl_erf env); (tl_erf_mag env);
   (tl_temp_upper env); (tl_temp_lower env); (tl_rndt env); (tl_idx env)>.

(** two_layer_model.py:88-95 [du] setter *)
Definition itl_set_du (v : PyVal env) : IMeth TL unit :=
  ido q <- iread (fun _ => assert_quantity env v u_m);
  iwrite (fun s => s <| (tl_du env) := q |>) ;;;
  ido m <- iread (fun _ => to_mag env q u_m);
  iwrite (fun s => s <| (tl_du_mag env) := m |>) ;;;
  ido h <- iread (fun s => to_mag env (tl_heat_capacity_upper env s) u_JCm2);
  iwrite (fun s => s <| (tl_hcu_mag env) := h |>).
(** two_layer_model.py:113-120 [dl] setter *)
Definition itl_set_dl (v : PyVal env) : IMeth TL unit :=
  ido q <- iread (fun _ => assert_quantity env v u_m);
  iwrite (fun s => s <| (tl_dl env) := q |>) ;;;
  ido m <- iread (fun _ => to_mag env q u_m);
  iwrite (fun s => s <| (tl_dl_mag env) := m |>) ;;;
  ido h <- iread (fun s => to_mag env (tl_heat_capacity_lower env s) u_JCm2);
  iwrite (fun s => s <| (tl_hcl_mag env) := h |>).
(** two_layer_model.py:138-142 [lambda0] setter *)
Definition itl_set_lambda0 (v : PyVal env) : IMeth TL unit :=
  ido q <- iread (fun _ => assert_quantity env v u_Wm2C);
  iwrite (fun s => s <| (tl_lambda0 env) := q |>) ;;;
  ido m <- iread (fun _ => to_mag env q u_Wm2C);
  iwrite (fun s => s <| (tl_lambda0_mag env) := m |>).
(** two_layer_model.py:152-156 [a] setter *)
Definition itl_set_a (v : PyVal env) : IMeth TL unit :=
  ido q <- iread (fun _ => assert_quantity env v u_Wm2C2);
  iwrite (fun s => s <| (tl_a env) := q |>) ;;;
  ido m <- iread (fun _ => to_mag env q u_Wm2C2);
  iwrite (fun s => s <| (tl_a_mag env) := m |>).
(** two_layer_model.py:166-170 [efficacy] setter *)
Definition itl_set_efficacy (v : PyVal env) : IMeth TL unit :=
  ido q <- iread (fun _ => assert_quantity env v u_none);
  iwrite (fun s => s <| (tl_efficacy env) := q |>) ;;;
  ido m <- iread (fun _ => to_mag env q u_none);
  iwrite (fun s => s <| (tl_efficacy_mag env) := m |>).
(** two_layer_model.py:180-184 [eta] setter *)
Definition itl_set_eta (v : PyVal env) : IMeth TL unit :=
  ido q <- iread (fun _ => assert_quantity env v u_Wm2C);
  iwrite (fun s => s <| (tl_eta env) := q |>) ;;;
  ido m <- iread (fun _ => to_mag env q u_Wm2C);
  iwrite (fun s => s <| (tl_eta_mag env) := m |>).
(** base.py:94-98 [delta_t] setter *)
Definition itl_set_delta_t (v : PyVal env) : IMeth TL unit :=
  ido q <- iread (fun _ => assert_quantity env v u_s);
  iwrite (fun s => s <| (tl_delta_t env) := q |>) ;;;
  ido m <- iread (fun _ => to_mag env q u_s);
  iwrite (fun s => s <| (tl_delta_t_mag env) := m |>).
(** base.py:108-112 [erf] setter *)
Definition itl_set_erf (v : option (QArr env)) : IMeth TL unit :=
  ido q <- iread (fun _ => assert_quantity_arr env v u_Wm2);
  iwrite (fun s => s <| (tl_erf env) := Some q |>) ;;;
  ido m <- iread (fun _ => to_mags env q u_Wm2);
  iwrite (fun s => s <| (tl_erf_mag env) := Some m |>).
(** base.py:114-133 [set_drivers] *)
Definition itl_set_drivers (e : ErfArg env) : IMeth TL unit :=
  match e with
  | ENoShape => iraise AttributeError
  | EQnot1 _ | EArrNot1 => iraise AssertionError
  | EArr1 => itl_set_erf None
  | EQ1 q => itl_set_erf (Some q)
  end.

(** two_layer_model.py:186-196 [_reset]: four writes. *)
Definition itl_reset : IMeth TL unit :=
  ido isnan <- iread (fun s => Ok (match tl_erf env s with
                                   | None => true
                                   | Some q => existsb (nisnan env) (mags q)
                                   end));
  if isnan then iraise ModelStateError
  else
    iwrite (fun s => s <| (tl_idx env) := None |>) ;;;
    ido m <- iread (fun s => match tl_erf_mag env s with None => Err AttributeError | Some m => Ok m end);
    let nans := map (fun _ => nnan env) m in
    iwrite (fun s => s <| (tl_temp_upper env) := nans |>) ;;;
    iwrite (fun s => s <| (tl_temp_lower env) := nans |>) ;;;
    iwrite (fun s => s <| (tl_rndt env) := nans |>).

(** two_layer_model.py:210, 215. *)
Definition itl_put_upper (i : nat) (v : num) : IMeth TL unit :=
  ido l <- iread (fun s => lset (tl_temp_upper env s) i v);
  iwrite (fun s => s <| (tl_temp_upper env) := l |>).
(** two_layer_model.py:211, 227. *)
Definition itl_put_lower (i : nat) (v : num) : IMeth TL unit :=
  ido l <- iread (fun s => lset (tl_temp_lower env s) i v);
  iwrite (fun s => s <| (tl_temp_lower env) := l |>).
(** two_layer_model.py:212, 235. *)
Definition itl_put_rndt (i : nat) (v : num) : IMeth TL unit :=
  ido l <- iread (fun s => lset (tl_rndt env s) i v);
  iwrite (fun s => s <| (tl_rndt env) := l |>).

(** two_layer_model.py:205-243, the body of [_step] after the index has been advanced. *)
Definition itl_step_at (i : nat) : IMeth TL unit :=
  match i with
  | O =>
      itl_put_upper O (nQ env 0) ;;;
      itl_put_lower O (nQ env 0) ;;;
      itl_put_rndt O (nQ env 0)
  | S j =>
      ido tu <- iread (fun s =>
        do t_upper <- lget (tl_temp_upper env s) j;
        do t_lower <- lget (tl_temp_lower env s) j;
        do erf <- tl_erf_at env s j;
        Ok (calculate_next_temp_upper env (tl_delta_t_mag env s) t_upper t_lower erf
              (tl_lambda0_mag env s) (tl_a_mag env s) (tl_efficacy_mag env s) (tl_eta_mag env s)
              (tl_hcu_mag env s)));
      itl_put_upper (S j) tu ;;;
      ido tl <- iread (fun s =>
        do t_lower <- lget (tl_temp_lower env s) j;
        do t_upper <- lget (tl_temp_upper env s) j;
        Ok (calculate_next_temp_lower env (tl_delta_t_mag env s) t_lower t_upper
              (tl_eta_mag env s) (tl_hcl_mag env s)));
      itl_put_lower (S j) tl ;;;
      ido r <- iread (fun s =>
        do t_lower_now <- lget (tl_temp_lower env s) (S j);
        do t_lower_prev <- lget (tl_temp_lower env s) j;
        do t_upper_now <- lget (tl_temp_upper env s) (S j);
        do t_upper_prev <- lget (tl_temp_upper env s) j;
        Ok (calculate_next_rndt env (tl_delta_t_mag env s) t_lower_now t_lower_prev (tl_hcl_mag env s)
              t_upper_now t_upper_prev (tl_hcu_mag env s)));
      itl_put_rndt (S j) r
  end.

(** two_layer_model.py:202-243 [_step]. *)
Definition itl_step : IMeth TL unit :=
  iwrite (fun s => s <| (tl_idx env) := match tl_idx env s with None => Some 0%nat | Some i => Some (S i) end |>) ;;;
  ido i <- iread (fun s => match tl_idx env s with None => Err IndexError | Some i => Ok i end);
  itl_step_at i.
(** two_layer_model.py:198-200. *)
Fixpoint itl_steps (n : nat) : IMeth TL unit :=
  match n with
  | O => iret tt
  | S k => itl_step ;;; itl_steps k
  end.
(** two_layer_model.py:198-200 [_run]. *)
Definition itl_run : IMeth TL unit := fun k s => itl_steps (tl_erf_len env s) k s.
End TwoLayerI.

Section ImpulseI.
Variable env : Env.
Notation num := (num env).
Notation IR := (IR env).

#[local] Instance etaIR : Settable _ := settable! (mkIR env)
  <(ir_q1 env); (ir_q2 env); (ir_d1 env); (ir_d2 env); (ir_efficacy env); (ir_delta_t env);
   (ir_q1_mag env); (ir_q2_mag env); (ir_d1_mag env); (ir_d2_mag env); (ir_efficacy_mag env); (ir_delta_t_mag env);
   (ir_erf env); (ir_erf_mag env); (ir_temp1 env); (ir_temp2 env); (ir_rndt env); (ir_idx env)>.

(** impulse_response_model.py:95-99 [d1] setter *)
Definition iir_set_d1 (v : PyVal env) : IMeth IR unit :=
  ido q <- iread (fun _ => assert_quantity env v u_yr);
  iwrite (fun s => s <| (ir_d1 env) := q |>) ;;;
  ido m <- iread (fun _ => to_mag env q u_yr);
  iwrite (fun s => s <| (ir_d1_mag env) := m |>).
(** impulse_response_model.py:109-113 [d2] setter *)
Definition iir_set_d2 (v : PyVal env) : IMeth IR unit :=
  ido q <- iread (fun _ => assert_quantity env v u_yr);
  iwrite (fun s => s <| (ir_d2 env) := q |>) ;;;
  ido m <- iread (fun _ => to_mag env q u_yr);
  iwrite (fun s => s <| (ir_d2_mag env) := m |>).
(** impulse_response_model.py:123-127 [q1] setter *)
Definition iir_set_q1 (v : PyVal env) : IMeth IR unit :=
  ido q <- iread (fun _ => assert_quantity env v u_CWm2);
  iwrite (fun s => s <| (ir_q1 env) := q |>) ;;;
  ido m <- iread (fun _ => to_mag env q u_CWm2);
  iwrite (fun s => s <| (ir_q1_mag env) := m |>).
(** impulse_response_model.py:137-141 [q2] setter *)
Definition iir_set_q2 (v : PyVal env) : IMeth IR unit :=
  ido q <- iread (fun _ => assert_quantity env v u_CWm2);
  iwrite (fun s => s <| (ir_q2 env) := q |>) ;;;
  ido m <- iread (fun _ => to_mag env q u_CWm2);
  iwrite (fun s => s <| (ir_q2_mag env) := m |>).
(** impulse_response_model.py:151-155 [efficacy] setter *)
Definition iir_set_efficacy (v : PyVal env) : IMeth IR unit :=
  ido q <- iread (fun _ => assert_quantity env v u_none);
  iwrite (fun s => s <| (ir_efficacy env) := q |>) ;;;
  ido m <- iread (fun _ => to_mag env q u_none);
  iwrite (fun s => s <| (ir_efficacy_mag env) := m |>).
(** base.py:94-98 [delta_t] setter *)
Definition iir_set_delta_t (v : PyVal env) : IMeth IR unit :=
  ido q <- iread (fun _ => assert_quantity env v u_yr);
  iwrite (fun s => s <| (ir_delta_t env) := q |>) ;;;
  ido m <- iread (fun _ => to_mag env q u_yr);
  iwrite (fun s => s <| (ir_delta_t_mag env) := m |>).
(** base.py:108-112 [erf] setter *)
Definition iir_set_erf (v : option (QArr env)) : IMeth IR unit :=
  ido q <- iread (fun _ => assert_quantity_arr env v u_Wm2);
  iwrite (fun s => s <| (ir_erf env) := Some q |>) ;;;
  ido m <- iread (fun _ => to_mags env q u_Wm2);
  iwrite (fun s => s <| (ir_erf_mag env) := Some m |>).
(** base.py:114-133 [set_drivers] *)
Definition iir_set_drivers (e : ErfArg env) : IMeth IR unit :=
  match e with
  | ENoShape => iraise AttributeError
  | EQnot1 _ | EArrNot1 => iraise AssertionError
  | EArr1 => iir_set_erf None
  | EQ1 q => iir_set_erf (Some q)
  end.

(** impulse_response_model.py:157-167 [_reset]: four writes. *)
Definition iir_reset : IMeth IR unit :=
  ido isnan <- iread (fun s => Ok (match ir_erf env s with
                                   | None => true
                                   | Some q => existsb (nisnan env) (mags q)
                                   end));
  if isnan then iraise ModelStateError
  else
    iwrite (fun s => s <| (ir_idx env) := None |>) ;;;
    ido m <- iread (fun s => match ir_erf_mag env s with None => Err AttributeError | Some m => Ok m end);
    let nans := map (fun _ => nnan env) m in
    iwrite (fun s => s <| (ir_temp1 env) := nans |>) ;;;
    iwrite (fun s => s <| (ir_temp2 env) := nans |>) ;;;
    iwrite (fun s => s <| (ir_rndt env) := nans |>).

(** impulse_response_model.py:181, 186. *)
Definition iir_put_temp1 (i : nat) (v : num) : IMeth IR unit :=
  ido l <- iread (fun s => lset (ir_temp1 env s) i v);
  iwrite (fun s => s <| (ir_temp1 env) := l |>).
(** impulse_response_model.py:182, 194. *)
Definition iir_put_temp2 (i : nat) (v : num) : IMeth IR unit :=
  ido l <- iread (fun s => lset (ir_temp2 env s) i v);
  iwrite (fun s => s <| (ir_temp2 env) := l |>).
(** impulse_response_model.py:183, 202. *)
Definition iir_put_rndt (i : nat) (v : num) : IMeth IR unit :=
  ido l <- iread (fun s => lset (ir_rndt env s) i v);
  iwrite (fun s => s <| (ir_rndt env) := l |>).

(** impulse_response_model.py:177-207, the body of [_step] after the index has been advanced. *)
Definition iir_step_at (i : nat) : IMeth IR unit :=
  match i with
  | O =>
      iir_put_temp1 O (nQ env 0) ;;;
      iir_put_temp2 O (nQ env 0) ;;;
      iir_put_rndt O (nQ env 0)
  | S j =>
      ido t1 <- iread (fun s =>
        do t <- lget (ir_temp1 env s) j;
        do erf <- ir_erf_at env s j;
        calculate_next_temp env (ir_delta_t_mag env s) t (ir_q1_mag env s) (ir_d1_mag env s) erf);
      iir_put_temp1 (S j) t1 ;;;
      ido t2 <- iread (fun s =>
        do t <- lget (ir_temp2 env s) j;
        do erf <- ir_erf_at env s j;
        calculate_next_temp env (ir_delta_t_mag env s) t (ir_q2_mag env s) (ir_d2_mag env s) erf);
      iir_put_temp2 (S j) t2 ;;;
      ido r <- iread (fun s =>
        do t1 <- lget (ir_temp1 env s) j;
        do t2 <- lget (ir_temp2 env s) j;
        do erf <- ir_erf_at env s j;
        ir_calculate_next_rndt env s t1 t2 erf (ir_efficacy_mag env s));
      iir_put_rndt (S j) r
  end.

(** impulse_response_model.py:173-207 [_step]. *)
Definition iir_step : IMeth IR unit :=
  iwrite (fun s => s <| (ir_idx env) := match ir_idx env s with None => Some 0%nat | Some i => Some (S i) end |>) ;;;
  ido i <- iread (fun s => match ir_idx env s with None => Err IndexError | Some i => Ok i end);
  iir_step_at i.
(** impulse_response_model.py:169-171. *)
Fixpoint iir_steps (n : nat) : IMeth IR unit :=
  match n with
  | O => iret tt
  | S k => iir_step ;;; iir_steps k
  end.
(** impulse_response_model.py:169-171 [_run]. *)
Definition iir_run : IMeth IR unit := fun k s => iir_steps (ir_erf_len env s) k s.
End ImpulseI.

Section ScenariosI.
Variable env : Env.
Variable parse_unit : string -> option (Qty env).
Variable V : Variant env.
(** The calls [run_scenarios] makes, interruptible (base.py:227, 241-243). *)
Variable set_delta_t : PyVal env -> IMeth (v_state env V) unit.
Variable set_drivers : ErfArg env -> IMeth (v_state env V) unit.
Variable reset : IMeth (v_state env V) unit.
Variable run : IMeth (v_state env V) unit.

(** base.py:238-254, one iteration of the scenario loop. *)
Definition irun_row (i : nat) (times : list Z) (r : Row env) : IMeth (v_state env V) (list (OutRow env)) :=
  let pts := drop_nan env times (r_vals env r) in
  ido u <- iread (fun _ => row_unit env parse_unit r);
  set_drivers (EQ1 (mkQA (map (fun p => nmul env (snd p) (mag u)) pts) (units u))) ;;;
  reset ;;;
  run ;;;
  ido outs <- iread (fun s => create_tss env (r_meta env r) pts (v_outputs env V s));
  let rows := mkOut env (r_meta env r) pts :: outs in
  if has_dup env (map (o_meta env) rows) then iraise NonUniqueMetadataError
  else iret (map (fun o => mkOut env (mset env (o_meta env o) (KName "run_idx") (MI env i)) (o_points env o)) rows).
(** The loop over scenarios (base.py:232-254). *)
Fixpoint irun_rows (i : nat) (times : list Z) (rows : list (Row env)) : IMeth (v_state env V) (list (OutRow env)) :=
  match rows with
  | [] => iret []
  | r :: rest =>
      ido x <- irun_row i times r;
      ido xs <- irun_rows (S i) times rest;
      iret (x ++ xs)
  end.
(** base.py:175-269 [run_scenarios]. *)
Definition irun_scenarios (scenarios : Scm env) (driver_var : string) : IMeth (v_state env V) (list (OutRow env)) :=
  ido save <- iread (fun s => Ok (save_paras_meta env V s));
  let rows := filter (row_selected env driver_var) (s_rows env scenarios) in
  if Nat.eqb (List.length rows) 0 then iraise ValueError
  else
    let driver := map (fun r => mkRow env (annotate env V save (r_meta env r)) (r_vals env r)) rows in
    ido timestep <- iread (fun _ => select_timestep env (s_times env scenarios));
    set_delta_t (PQ timestep) ;;;
    if has_dup env (map (r_meta env) driver) then iraise NonUniqueMetadataError
    else
      ido out <- irun_rows 0 (s_times env scenarios) driver;
      if has_dup env (map (o_meta env) out) then iraise NonUniqueMetadataError
      else iret out.
End ScenariosI.

Section ApiI.
Variable env : Env.
Variable parse_unit : string -> option (Qty env).

(** A call whose return value is not looked at (base.py:175-269). *)
Definition iforget {S A} (m : IMeth S A) : IMeth S unit := ido x <- m; iret tt.

(** [TwoLayerModel.run_scenarios] (base.py:175-269). *)
Definition itl_run_scenarios : Scm env -> string -> IMeth (TL env) (list (OutRow env)) :=
  irun_scenarios env parse_unit (tl_variant env) (itl_set_delta_t env) (itl_set_drivers env) (itl_reset env) (itl_run env).
(** [ImpulseResponseModel.run_scenarios] (base.py:175-269). *)
Definition iir_run_scenarios : Scm env -> string -> IMeth (IR env) (list (OutRow env)) :=
  irun_scenarios env parse_unit (ir_variant env) (iir_set_delta_t env) (iir_set_drivers env) (iir_reset env) (iir_run env).

(** The calls of Api.v, interruptible (two_layer_model.py:53-243, base.py:82-269). *)
Definition itl_call (o : TLOp env) : IMeth (TL env) unit :=
  match o with
  | TSetDu _ v => itl_set_du env v
  | TSetDl _ v => itl_set_dl env v
  | TSetLambda0 _ v => itl_set_lambda0 env v
  | TSetA _ v => itl_set_a env v
  | TSetEfficacy _ v => itl_set_efficacy env v
  | TSetEta _ v => itl_set_eta env v
  | TSetDeltaT _ v => itl_set_delta_t env v
  | TSetErf _ v => itl_set_erf env v
  | TSetDrivers _ e => itl_set_drivers env e
  | TReset _ => itl_reset env
  | TStep _ => itl_step env
  | TRun _ => itl_run env
  | TRunScenarios _ sc dv => iforget (itl_run_scenarios sc dv)
  end.
(** The same for the other class (impulse_response_model.py:54-207, base.py:82-269). *)
Definition iir_call (o : IROp env) : IMeth (IR env) unit :=
  match o with
  | ISetQ1 _ v => iir_set_q1 env v
  | ISetQ2 _ v => iir_set_q2 env v
  | ISetD1 _ v => iir_set_d1 env v
  | ISetD2 _ v => iir_set_d2 env v
  | ISetEfficacy _ v => iir_set_efficacy env v
  | ISetDeltaT _ v => iir_set_delta_t env v
  | ISetErf _ v => iir_set_erf env v
  | ISetDrivers _ e => iir_set_drivers env e
  | IReset _ => iir_reset env
  | IStep _ => iir_step env
  | IRun _ => iir_run env
  | IRunScenarios _ sc dv => iforget (iir_run_scenarios sc dv)
  end.
End ApiI.
