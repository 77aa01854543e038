(** two_layer_model.py: the class [TwoLayerModel] (with what it inherits from
    base.py's [Model] and [TwoLayerVariant]). *)
From Coq Require Import List String QArith Bool Arith.
From RecordUpdate Require Import RecordUpdate.
From Verif Require Import Arith Pint Base.
Import ListNotations.

Section TwoLayer.
Variable env : Env.
Notation num := (num env).
Notation Qty := (Qty env).

(** The instance attributes (two_layer_model.py:66-78 and the setters).
    [tl_erf = None] is the initial [np.zeros(1) * np.nan] (line 74);
    [tl_erf_mag = None]: attribute [_erf_mag] does not exist yet;
    [tl_idx = None]: [_timestep_idx] is [np.nan]. *)
Record TL : Type := mkTL {
  tl_du : Qty; tl_dl : Qty; tl_lambda0 : Qty; tl_a : Qty; tl_efficacy : Qty;
  tl_eta : Qty; tl_delta_t : Qty;
  tl_du_mag : num; tl_dl_mag : num; tl_lambda0_mag : num; tl_a_mag : num;
  tl_efficacy_mag : num; tl_eta_mag : num; tl_delta_t_mag : num;
  tl_hcu_mag : num; tl_hcl_mag : num;
  tl_erf : option (QArr env); tl_erf_mag : option (list num);
  tl_temp_upper : list num; tl_temp_lower : list num; tl_rndt : list num;
  tl_idx : option nat
}.

#[local] Instance etaTL : Settable _ := settable! mkTL
  <tl_du; tl_dl; tl_lambda0; tl_a; tl_efficacy; tl_eta; tl_delta_t;
   tl_du_mag; tl_dl_mag; tl_lambda0_mag; tl_a_mag; tl_efficacy_mag; tl_eta_mag;
   tl_delta_t_mag; tl_hcu_mag; tl_hcl_mag; tl_erf; tl_erf_mag;
   tl_temp_upper; tl_temp_lower; tl_rndt; tl_idx>.

(** two_layer_model.py:97-103 property [heat_capacity_upper] *)
Definition tl_heat_capacity_upper (s : TL) : Qty :=
  qmul env (qmul env (tl_du s) (DENSITY_WATER env)) (HEAT_CAPACITY_WATER env).
(** two_layer_model.py:122-128 property [heat_capacity_lower] *)
Definition tl_heat_capacity_lower (s : TL) : Qty :=
  qmul env (qmul env (tl_dl s) (DENSITY_WATER env)) (HEAT_CAPACITY_WATER env).

(** two_layer_model.py:88-95 [du] setter *)
Definition tl_set_du (v : PyVal env) : Meth TL unit :=
  mdo q <- mread (fun _ => assert_quantity env v u_m);
  mmod (fun s => s <| tl_du := q |>) ;;
  mdo m <- mread (fun _ => to_mag env q u_m);
  mmod (fun s => s <| tl_du_mag := m |>) ;;
  mdo h <- mread (fun s => to_mag env (tl_heat_capacity_upper s) u_JCm2);
  mmod (fun s => s <| tl_hcu_mag := h |>).

(** two_layer_model.py:113-120 [dl] setter *)
Definition tl_set_dl (v : PyVal env) : Meth TL unit :=
  mdo q <- mread (fun _ => assert_quantity env v u_m);
  mmod (fun s => s <| tl_dl := q |>) ;;
  mdo m <- mread (fun _ => to_mag env q u_m);
  mmod (fun s => s <| tl_dl_mag := m |>) ;;
  mdo h <- mread (fun s => to_mag env (tl_heat_capacity_lower s) u_JCm2);
  mmod (fun s => s <| tl_hcl_mag := h |>).

(** two_layer_model.py:138-142 [lambda0] setter *)
Definition tl_set_lambda0 (v : PyVal env) : Meth TL unit :=
  mdo q <- mread (fun _ => assert_quantity env v u_Wm2C);
  mmod (fun s => s <| tl_lambda0 := q |>) ;;
  mdo m <- mread (fun _ => to_mag env q u_Wm2C);
  mmod (fun s => s <| tl_lambda0_mag := m |>).

(** two_layer_model.py:152-156 [a] setter *)
Definition tl_set_a (v : PyVal env) : Meth TL unit :=
  mdo q <- mread (fun _ => assert_quantity env v u_Wm2C2);
  mmod (fun s => s <| tl_a := q |>) ;;
  mdo m <- mread (fun _ => to_mag env q u_Wm2C2);
  mmod (fun s => s <| tl_a_mag := m |>).

(** two_layer_model.py:166-170 [efficacy] setter *)
Definition tl_set_efficacy (v : PyVal env) : Meth TL unit :=
  mdo q <- mread (fun _ => assert_quantity env v u_none);
  mmod (fun s => s <| tl_efficacy := q |>) ;;
  mdo m <- mread (fun _ => to_mag env q u_none);
  mmod (fun s => s <| tl_efficacy_mag := m |>).

(** two_layer_model.py:180-184 [eta] setter *)
Definition tl_set_eta (v : PyVal env) : Meth TL unit :=
  mdo q <- mread (fun _ => assert_quantity env v u_Wm2C);
  mmod (fun s => s <| tl_eta := q |>) ;;
  mdo m <- mread (fun _ => to_mag env q u_Wm2C);
  mmod (fun s => s <| tl_eta_mag := m |>).

(** base.py:94-98 [delta_t] setter, with [_delta_t_unit = "s"]
    (two_layer_model.py:34) *)
Definition tl_set_delta_t (v : PyVal env) : Meth TL unit :=
  mdo q <- mread (fun _ => assert_quantity env v u_s);
  mmod (fun s => s <| tl_delta_t := q |>) ;;
  mdo m <- mread (fun _ => to_mag env q u_s);
  mmod (fun s => s <| tl_delta_t_mag := m |>).

(** base.py:108-112 [erf] setter for one-dimensional values ([None]: not a
    pint.Quantity).  Simplification: [val.to(unit).magnitude] is a fresh list;
    arrays are values here; sharing with the caller's array is modelled in Heap.v. *)
Definition tl_set_erf (v : option (QArr env)) : Meth TL unit :=
  mdo q <- mread (fun _ => assert_quantity_arr env v u_Wm2);
  mmod (fun s => s <| tl_erf := Some q |>) ;;
  mdo m <- mread (fun _ => to_mags env q u_Wm2);
  mmod (fun s => s <| tl_erf_mag := Some m |>).

(** base.py:114-133 [set_drivers] *)
Definition tl_set_drivers (e : ErfArg env) : Meth TL unit :=
  match e with
  | ENoShape => mraise AttributeError
  | EQnot1 _ | EArrNot1 => mraise AssertionError
  | EArr1 => tl_set_erf None
  | EQ1 q => tl_set_erf (Some q)
  end.

(** Constructor arguments (two_layer_model.py:53-62). *)
Record TLArgs : Type := mkTLArgs {
  ta_du : PyVal env; ta_dl : PyVal env; ta_lambda0 : PyVal env; ta_a : PyVal env;
  ta_efficacy : PyVal env; ta_eta : PyVal env; ta_delta_t : PyVal env
}.

(** Default arguments (two_layer_model.py:55-61); [ur("yr").to("s")] is
    evaluated with the registry (it cannot fail for a registry in which the
    year is a time, so the error case is mapped to a non-quantity). *)
Definition tl_defaults : TLArgs :=
  mkTLArgs (PQ (mkQty env 50 u_m)) (PQ (mkQty env 1200 u_m))
    (PQ (mkQ (ndiv env (nQ env (374 # 100)) (nQ env 3)) u_Wm2C))
    (PQ (mkQty env 0 u_Wm2C2)) (PQ (mkQty env 1 u_none))
    (PQ (mkQty env (8 # 10) u_Wm2C))
    (match to env (mkQty env 1 u_yr) u_s with Ok q => PQ q | Err _ => POther end).

(** The object before [__init__] has assigned anything. (two_layer_model.py:53-78.) *)
Definition tl_blank : TL :=
  let q := mkQ (nnan env) [] in
  let x := nnan env in
  mkTL q q q q q q q x x x x x x x x x None None [x] [x] [x] None.

(** two_layer_model.py:66-78, body of [__init__] *)
Definition tl_init_body (g : TLArgs) : Meth TL unit :=
  tl_set_du (ta_du g) ;;
  tl_set_dl (ta_dl g) ;;
  tl_set_lambda0 (ta_lambda0 g) ;;
  tl_set_a (ta_a g) ;;
  tl_set_efficacy (ta_efficacy g) ;;
  tl_set_eta (ta_eta g) ;;
  tl_set_delta_t (ta_delta_t g) ;;
  mmod (fun s => s <| tl_erf := None |> <| tl_temp_upper := [nnan env] |>
                   <| tl_temp_lower := [nnan env] |> <| tl_rndt := [nnan env] |>
                   <| tl_idx := None |>).

(** [TwoLayerModel(...)]: no object results if [__init__] raises. (two_layer_model.py:53-78.) *)
Definition tl_new (g : TLArgs) : Res TL :=
  match tl_init_body g tl_blank with
  | (s, Ok _) => Ok s
  | (_, Err e) => Err e
  end.

(** two_layer_model.py:186-196 [_reset] (base.py:45-51 [reset]).
    [np.zeros_like(...) * np.nan] is a list of NaN of the same length. *)
Definition tl_reset : Meth TL unit :=
  mdo isnan <- mread (fun s => Ok (match tl_erf s with
                                   | None => true
                                   | Some q => existsb (nisnan env) (mags q)
                                   end));
  if isnan then mraise ModelStateError
  else
    mmod (fun s => s <| tl_idx := None |>) ;;
    mdo m <- mread (fun s => match tl_erf_mag s with
                             | None => Err AttributeError
                             | Some m => Ok m
                             end);
    let nans := map (fun _ => nnan env) m in
    mmod (fun s => s <| tl_temp_upper := nans |> <| tl_temp_lower := nans |>
                     <| tl_rndt := nans |>).

(** two_layer_model.py:245-253 [_calculate_next_temp_upper] *)
Definition calculate_next_temp_upper
  (delta_t t_upper t_lower erf lambda0 a efficacy eta heat_capacity_upper : num) : num :=
  let lambda_now := nsub env lambda0 (nmul env a t_upper) in
  let heat_exchange := nmul env (nmul env efficacy eta) (nsub env t_upper t_lower) in
  let dT_dt := ndiv env (nsub env (nsub env erf (nmul env lambda_now t_upper)) heat_exchange)
                        heat_capacity_upper in
  nadd env t_upper (nmul env delta_t dT_dt).

(** two_layer_model.py:255-262 [_calculate_next_temp_lower] *)
Definition calculate_next_temp_lower (delta_t t_lower t_upper eta heat_capacity_lower : num) : num :=
  let heat_exchange := nmul env eta (nsub env t_upper t_lower) in
  let dT_dt := ndiv env heat_exchange heat_capacity_lower in
  nadd env t_lower (nmul env delta_t dT_dt).

(** two_layer_model.py:264-277 [_calculate_next_rndt] *)
Definition calculate_next_rndt
  (delta_t t_lower_now t_lower_prev heat_capacity_lower
   t_upper_now t_upper_prev heat_capacity_upper : num) : num :=
  let uptake_lower := ndiv env (nmul env heat_capacity_lower (nsub env t_lower_now t_lower_prev)) delta_t in
  let uptake_upper := ndiv env (nmul env heat_capacity_upper (nsub env t_upper_now t_upper_prev)) delta_t in
  nadd env uptake_upper uptake_lower.

(** Reading [self._erf_mag[i]]. (two_layer_model.py:219.) *)
Definition tl_erf_at (s : TL) (i : nat) : Res num :=
  match tl_erf_mag s with None => Err AttributeError | Some m => lget m i end.

(** Writing one array element. (two_layer_model.py:210, 215.) *)
Definition tl_put_upper (i : nat) (v : num) : Meth TL unit :=
  mdo l <- mread (fun s => lset (tl_temp_upper s) i v);
  mmod (fun s => s <| tl_temp_upper := l |>).
(** two_layer_model.py:211, 227. *)
Definition tl_put_lower (i : nat) (v : num) : Meth TL unit :=
  mdo l <- mread (fun s => lset (tl_temp_lower s) i v);
  mmod (fun s => s <| tl_temp_lower := l |>).
(** two_layer_model.py:212, 235. *)
Definition tl_put_rndt (i : nat) (v : num) : Meth TL unit :=
  mdo l <- mread (fun s => lset (tl_rndt s) i v);
  mmod (fun s => s <| tl_rndt := l |>).

(** two_layer_model.py:205-243, the body of [_step] after the index has been
    advanced.  Each right-hand side is evaluated (left to right) before the
    corresponding store. *)
Definition tl_step_at (i : nat) : Meth TL unit :=
  match i with
  | O =>
      tl_put_upper O (nQ env 0) ;;
      tl_put_lower O (nQ env 0) ;;
      tl_put_rndt O (nQ env 0)
  | S j =>
      mdo tu <- mread (fun s =>
        do t_upper <- lget (tl_temp_upper s) j;
        do t_lower <- lget (tl_temp_lower s) j;
        do erf <- tl_erf_at s j;
        Ok (calculate_next_temp_upper (tl_delta_t_mag s) t_upper t_lower erf
              (tl_lambda0_mag s) (tl_a_mag s) (tl_efficacy_mag s) (tl_eta_mag s)
              (tl_hcu_mag s)));
      tl_put_upper (S j) tu ;;
      mdo tl <- mread (fun s =>
        do t_lower <- lget (tl_temp_lower s) j;
        do t_upper <- lget (tl_temp_upper s) j;
        Ok (calculate_next_temp_lower (tl_delta_t_mag s) t_lower t_upper
              (tl_eta_mag s) (tl_hcl_mag s)));
      tl_put_lower (S j) tl ;;
      mdo r <- mread (fun s =>
        do t_lower_now <- lget (tl_temp_lower s) (S j);
        do t_lower_prev <- lget (tl_temp_lower s) j;
        do t_upper_now <- lget (tl_temp_upper s) (S j);
        do t_upper_prev <- lget (tl_temp_upper s) j;
        Ok (calculate_next_rndt (tl_delta_t_mag s) t_lower_now t_lower_prev (tl_hcl_mag s)
              t_upper_now t_upper_prev (tl_hcu_mag s)));
      tl_put_rndt (S j) r
  end.

(** two_layer_model.py:202-243 [_step] (base.py:67-71 [step]).  The timestep
    index is advanced before anything else, and each right-hand side is
    evaluated (left to right) before the corresponding store. *)
Definition tl_step : Meth TL unit :=
  mmod (fun s => s <| tl_idx := match tl_idx s with None => Some 0%nat | Some i => Some (S i) end |>) ;;
  mdo i <- mread (fun s => match tl_idx s with None => Err IndexError | Some i => Ok i end);
  tl_step_at i.

(** [n] loop iterations; an exception leaves the loop. (two_layer_model.py:198-200.) *)
Fixpoint tl_steps (n : nat) : Meth TL unit :=
  match n with
  | O => mret tt
  | S k => tl_step ;; tl_steps k
  end.

(** Number of elements iterated over by [for _ in self.erf]. (two_layer_model.py:199.) *)
Definition tl_erf_len (s : TL) : nat :=
  match tl_erf s with None => 1%nat | Some q => List.length (mags q) end.

(** two_layer_model.py:198-200 [_run] (base.py:57-61 [run]) *)
Definition tl_run : Meth TL unit := fun s => tl_steps (tl_erf_len s) s.

(** two_layer_model.py:279-307 [_get_run_output_tss]: (variable, unit, values) *)
Definition tl_outputs (s : TL) : list (string * string * list num) :=
  [("Surface Temperature|Upper"%string, "delta_degC"%string, tl_temp_upper s);
   ("Surface Temperature|Lower"%string, "delta_degC"%string, tl_temp_lower s);
   ("Heat Uptake"%string, "W/m^2"%string, tl_rndt s)].

(** two_layer_model.py:42-51 [_save_paras], [_name] *)
Definition tl_save_paras (s : TL) : list (string * Qty) :=
  [("du"%string, tl_du s); ("dl"%string, tl_dl s); ("lambda0"%string, tl_lambda0 s);
   ("a"%string, tl_a s); ("efficacy"%string, tl_efficacy s); ("eta"%string, tl_eta s)].
(** two_layer_model.py:51 [_name]. *)
Definition tl_name : string := "two_layer".

(** Result of [get_impulse_response_parameters] (two_layer_model.py:347-353). *)
Record IRParams : Type := mkIRP {
  irp_d1 : Qty; irp_d2 : Qty; irp_q1 : Qty; irp_q2 : Qty; irp_efficacy : Qty
}.

(** two_layer_model.py:309-355 [get_impulse_response_parameters] *)
Definition tl_get_impulse_response_parameters (s : TL) : Res IRParams :=
  if negb (neqb env (mag (tl_a s)) (nQ env 0)) then Err ValueError
  else
    do gh <- geoffroy env (tl_du s) (tl_dl s) (tl_lambda0 s) (tl_efficacy s) (tl_eta s);
    do dphi <- qsub env (g_phi2 gh) (g_phi1 gh);
    let qdenom := qmul env (g_C gh) dphi in
    do q1 <- qdiv env (qmul env (g_tau1 gh) (g_phi2 gh)) qdenom;
    do q2 <- qdiv env (qmul env (qneg env (g_tau2 gh)) (g_phi1 gh)) qdenom;
    Ok (mkIRP (g_tau1 gh) (g_tau2 gh) q1 q2 (tl_efficacy s)).

End TwoLayer.
