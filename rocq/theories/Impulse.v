(** impulse_response_model.py: the class [ImpulseResponseModel] (with what it
    inherits from base.py). *)
From Coq Require Import List String QArith Bool Arith.
From RecordUpdate Require Import RecordUpdate.
From Verif Require Import Arith Pint Base TwoLayer.
Import ListNotations.

Section Impulse.
Variable env : Env.
Notation num := (num env).
Notation Qty := (Qty env).

(** Instance attributes (impulse_response_model.py:71-85 and the setters);
    [None] conventions as in [TwoLayer.TL]. *)
Record IR : Type := mkIR {
  ir_q1 : Qty; ir_q2 : Qty; ir_d1 : Qty; ir_d2 : Qty; ir_efficacy : Qty; ir_delta_t : Qty;
  ir_q1_mag : num; ir_q2_mag : num; ir_d1_mag : num; ir_d2_mag : num;
  ir_efficacy_mag : num; ir_delta_t_mag : num;
  ir_erf : option (QArr env); ir_erf_mag : option (list num);
  ir_temp1 : list num; ir_temp2 : list num; ir_rndt : list num;
  ir_idx : option nat
}.

#[local] Instance etaIR : Settable _ := settable! mkIR
  <ir_q1; ir_q2; ir_d1; ir_d2; ir_efficacy; ir_delta_t;
   ir_q1_mag; ir_q2_mag; ir_d1_mag; ir_d2_mag; ir_efficacy_mag; ir_delta_t_mag;
   ir_erf; ir_erf_mag; ir_temp1; ir_temp2; ir_rndt; ir_idx>.

(** impulse_response_model.py:95-99 [d1] setter *)
Definition ir_set_d1 (v : PyVal env) : Meth IR unit :=
  mdo q <- mread (fun _ => assert_quantity env v u_yr);
  mmod (fun s => s <| ir_d1 := q |>) ;;
  mdo m <- mread (fun _ => to_mag env q u_yr);
  mmod (fun s => s <| ir_d1_mag := m |>).

(** impulse_response_model.py:109-113 [d2] setter *)
Definition ir_set_d2 (v : PyVal env) : Meth IR unit :=
  mdo q <- mread (fun _ => assert_quantity env v u_yr);
  mmod (fun s => s <| ir_d2 := q |>) ;;
  mdo m <- mread (fun _ => to_mag env q u_yr);
  mmod (fun s => s <| ir_d2_mag := m |>).

(** impulse_response_model.py:123-127 [q1] setter *)
Definition ir_set_q1 (v : PyVal env) : Meth IR unit :=
  mdo q <- mread (fun _ => assert_quantity env v u_CWm2);
  mmod (fun s => s <| ir_q1 := q |>) ;;
  mdo m <- mread (fun _ => to_mag env q u_CWm2);
  mmod (fun s => s <| ir_q1_mag := m |>).

(** impulse_response_model.py:137-141 [q2] setter *)
Definition ir_set_q2 (v : PyVal env) : Meth IR unit :=
  mdo q <- mread (fun _ => assert_quantity env v u_CWm2);
  mmod (fun s => s <| ir_q2 := q |>) ;;
  mdo m <- mread (fun _ => to_mag env q u_CWm2);
  mmod (fun s => s <| ir_q2_mag := m |>).

(** impulse_response_model.py:151-155 [efficacy] setter *)
Definition ir_set_efficacy (v : PyVal env) : Meth IR unit :=
  mdo q <- mread (fun _ => assert_quantity env v u_none);
  mmod (fun s => s <| ir_efficacy := q |>) ;;
  mdo m <- mread (fun _ => to_mag env q u_none);
  mmod (fun s => s <| ir_efficacy_mag := m |>).

(** base.py:94-98 [delta_t] setter with [_delta_t_unit = "yr"]
    (impulse_response_model.py:36) *)
Definition ir_set_delta_t (v : PyVal env) : Meth IR unit :=
  mdo q <- mread (fun _ => assert_quantity env v u_yr);
  mmod (fun s => s <| ir_delta_t := q |>) ;;
  mdo m <- mread (fun _ => to_mag env q u_yr);
  mmod (fun s => s <| ir_delta_t_mag := m |>).

(** base.py:108-112 [erf] setter (one-dimensional; sharing is modelled in Heap.v) *)
Definition ir_set_erf (v : option (QArr env)) : Meth IR unit :=
  mdo q <- mread (fun _ => assert_quantity_arr env v u_Wm2);
  mmod (fun s => s <| ir_erf := Some q |>) ;;
  mdo m <- mread (fun _ => to_mags env q u_Wm2);
  mmod (fun s => s <| ir_erf_mag := Some m |>).

(** base.py:114-133 [set_drivers] *)
Definition ir_set_drivers (e : ErfArg env) : Meth IR unit :=
  match e with
  | ENoShape => mraise AttributeError
  | EQnot1 _ | EArrNot1 => mraise AssertionError
  | EArr1 => ir_set_erf None
  | EQ1 q => ir_set_erf (Some q)
  end.

(** Constructor arguments (impulse_response_model.py:54-62). *)
Record IRArgs : Type := mkIRArgs {
  ia_q1 : PyVal env; ia_q2 : PyVal env; ia_d1 : PyVal env; ia_d2 : PyVal env;
  ia_efficacy : PyVal env; ia_delta_t : PyVal env
}.

(** Default arguments (impulse_response_model.py:56-61) *)
Definition ir_defaults : IRArgs :=
  mkIRArgs (PQ (mkQty env (3 # 10) u_CWm2)) (PQ (mkQty env (4 # 10) u_CWm2))
    (PQ (mkQty env 9 u_yr)) (PQ (mkQty env 400 u_yr)) (PQ (mkQty env 1 u_none))
    (PQ (mkQ (ndiv env (nQ env 1) (nQ env 12)) u_yr)).

(** impulse_response_model.py:54-85, the object before the constructor body. *)
Definition ir_blank : IR :=
  let q := mkQ (nnan env) [] in
  let x := nnan env in
  mkIR q q q q q q x x x x x x None None [x] [x] [x] None.

(** impulse_response_model.py:71-85, body of [__init__].  The comparison
    [d1 >= d2] (line 78) is on the constructor arguments. *)
Definition ir_init_body (g : IRArgs) : Meth IR unit :=
  ir_set_q1 (ia_q1 g) ;;
  ir_set_q2 (ia_q2 g) ;;
  ir_set_d1 (ia_d1 g) ;;
  ir_set_d2 (ia_d2 g) ;;
  ir_set_efficacy (ia_efficacy g) ;;
  ir_set_delta_t (ia_delta_t g) ;;
  mdo ge <- mread (fun _ => match ia_d1 g, ia_d2 g with
                            | PQ d1, PQ d2 => qge env d1 d2
                            | _, _ => Err TypeError
                            end);
  if ge then mraise ValueError
  else
    mmod (fun s => s <| ir_erf := None |> <| ir_temp1 := [nnan env] |>
                     <| ir_temp2 := [nnan env] |> <| ir_rndt := [nnan env] |>
                     <| ir_idx := None |>).

(** [ImpulseResponseModel(...)] (impulse_response_model.py:54-85.) *)
Definition ir_new (g : IRArgs) : Res IR :=
  match ir_init_body g ir_blank with
  | (s, Ok _) => Ok s
  | (_, Err e) => Err e
  end.

(** impulse_response_model.py:157-167 [_reset] *)
Definition ir_reset : Meth IR unit :=
  mdo isnan <- mread (fun s => Ok (match ir_erf s with
                                   | None => true
                                   | Some q => existsb (nisnan env) (mags q)
                                   end));
  if isnan then mraise ModelStateError
  else
    mmod (fun s => s <| ir_idx := None |>) ;;
    mdo m <- mread (fun s => match ir_erf_mag s with
                             | None => Err AttributeError
                             | Some m => Ok m
                             end);
    let nans := map (fun _ => nnan env) m in
    mmod (fun s => s <| ir_temp1 := nans |> <| ir_temp2 := nans |>
                     <| ir_rndt := nans |>).

(** Result of [get_two_layer_parameters] (impulse_response_model.py:313-319) *)
Record TLParams : Type := mkTLP {
  tlp_lambda0 : Qty; tlp_du : Qty; tlp_dl : Qty; tlp_eta : Qty; tlp_efficacy : Qty
}.

(** impulse_response_model.py:284-321 [get_two_layer_parameters] *)
Definition ir_get_two_layer_parameters (s : IR) : Res TLParams :=
  do qq <- qadd env (ir_q1 s) (ir_q2 s);
  do lambda0 <- rdiv env (nQ env 1) qq;
  do cden <- qadd env (qmul env (ir_q1 s) (ir_d2 s)) (qmul env (ir_q2 s) (ir_d1 s));
  do C <- qdiv env (qmul env (ir_d1 s) (ir_d2 s)) cden;
  let a1 := qmul env lambda0 (ir_q1 s) in
  let a2 := qmul env lambda0 (ir_q2 s) in
  do da <- qadd env (qmul env (ir_d1 s) a1) (qmul env (ir_d2 s) a2);
  do cd0 <- qsub env (qmul env lambda0 da) C;
  do C_D <- qdiv env cd0 (ir_efficacy s);
  do eden <- qadd env (qmul env (ir_d1 s) a2) (qmul env (ir_d2 s) a1);
  do eta <- qdiv env C_D eden;
  do du <- qdiv env C (qmul env (DENSITY_WATER env) (HEAT_CAPACITY_WATER env));
  do dl <- qdiv env C_D (qmul env (DENSITY_WATER env) (HEAT_CAPACITY_WATER env));
  Ok (mkTLP lambda0 du dl eta (ir_efficacy s)).

(** impulse_response_model.py:209-214 [_calculate_next_temp].  [delta_t] and
    [d] are both parameters (Python floats), so [d = 0] raises. *)
Definition calculate_next_temp (delta_t t q d erf : num) : Res num :=
  if neqb env d (nQ env 0) then Err ZeroDivisionError
  else
    let decay_factor := nexp env (ndiv env (nneg env delta_t) d) in
    let rise := nmul env (nmul env erf q)
                  (nsub env (nQ env 1) (nexp env (ndiv env (nneg env delta_t) d))) in
    Ok (nadd env (nmul env t decay_factor) rise).

(** impulse_response_model.py:216-244 [_calculate_next_rndt].  The string test
    of line 239 is modelled as equality of units with [watt / meter ** 2]. *)
Definition ir_calculate_next_rndt (s : IR) (t1 t2 erf efficacy : num) : Res num :=
  do p <- ir_get_two_layer_parameters s;
  let lambda0 := tlp_lambda0 p in
  do efficacy_term <-
    (if neqb env efficacy (nQ env 1) then
       Ok (qscale env (nQ env 0) (mkQty env 1 u_Wm2))
     else
       do gh <- geoffroy env (tlp_du p) (tlp_dl p) (tlp_lambda0 p) (tlp_efficacy p) (tlp_eta p);
       let t1_h := qscale env t1 (mkQty env 1 u_dC) in
       let t2_h := qscale env t2 (mkQty env 1 u_dC) in
       do omp1 <- rsub env (nQ env 1) (g_phi1 gh);
       do omp2 <- rsub env (nQ env 1) (g_phi2 gh);
       do sum <- qadd env (qmul env omp1 t1_h) (qmul env omp2 t2_h);
       let term := qmul env (qscale env (nsub env efficacy (nQ env 1)) (tlp_eta p)) sum in
       if units_eqb (units term) u_Wm2 then Ok term else Err AssertionError);
  Ok (nsub env (nsub env erf (nmul env (mag lambda0) (nadd env t1 t2))) (mag efficacy_term)).

(** impulse_response_model.py:191 [self._erf_mag[self._timestep_idx - 1]]. *)
Definition ir_erf_at (s : IR) (i : nat) : Res num :=
  match ir_erf_mag s with None => Err AttributeError | Some m => lget m i end.

(** impulse_response_model.py:181, 186. *)
Definition ir_put_temp1 (i : nat) (v : num) : Meth IR unit :=
  mdo l <- mread (fun s => lset (ir_temp1 s) i v);
  mmod (fun s => s <| ir_temp1 := l |>).
(** impulse_response_model.py:182, 194. *)
Definition ir_put_temp2 (i : nat) (v : num) : Meth IR unit :=
  mdo l <- mread (fun s => lset (ir_temp2 s) i v);
  mmod (fun s => s <| ir_temp2 := l |>).
(** impulse_response_model.py:183, 202. *)
Definition ir_put_rndt (i : nat) (v : num) : Meth IR unit :=
  mdo l <- mread (fun s => lset (ir_rndt s) i v);
  mmod (fun s => s <| ir_rndt := l |>).

(** impulse_response_model.py:177-207, the body of [_step] after the index has
    been advanced. *)
Definition ir_step_at (i : nat) : Meth IR unit :=
  match i with
  | O =>
      ir_put_temp1 O (nQ env 0) ;;
      ir_put_temp2 O (nQ env 0) ;;
      ir_put_rndt O (nQ env 0)
  | S j =>
      mdo t1 <- mread (fun s =>
        do t <- lget (ir_temp1 s) j;
        do erf <- ir_erf_at s j;
        calculate_next_temp (ir_delta_t_mag s) t (ir_q1_mag s) (ir_d1_mag s) erf);
      ir_put_temp1 (S j) t1 ;;
      mdo t2 <- mread (fun s =>
        do t <- lget (ir_temp2 s) j;
        do erf <- ir_erf_at s j;
        calculate_next_temp (ir_delta_t_mag s) t (ir_q2_mag s) (ir_d2_mag s) erf);
      ir_put_temp2 (S j) t2 ;;
      mdo r <- mread (fun s =>
        do t1 <- lget (ir_temp1 s) j;
        do t2 <- lget (ir_temp2 s) j;
        do erf <- ir_erf_at s j;
        ir_calculate_next_rndt s t1 t2 erf (ir_efficacy_mag s));
      ir_put_rndt (S j) r
  end.

(** impulse_response_model.py:173-207 [_step] *)
Definition ir_step : Meth IR unit :=
  mmod (fun s => s <| ir_idx := match ir_idx s with None => Some 0%nat | Some i => Some (S i) end |>) ;;
  mdo i <- mread (fun s => match ir_idx s with None => Err IndexError | Some i => Ok i end);
  ir_step_at i.

(** impulse_response_model.py:169-171. *)
Fixpoint ir_steps (n : nat) : Meth IR unit :=
  match n with
  | O => mret tt
  | S k => ir_step ;; ir_steps k
  end.

(** impulse_response_model.py:170 [for _ in self.erf]. *)
Definition ir_erf_len (s : IR) : nat :=
  match ir_erf s with None => 1%nat | Some q => List.length (mags q) end.

(** impulse_response_model.py:169-171 [_run] *)
Definition ir_run : Meth IR unit := fun s => ir_steps (ir_erf_len s) s.

(** Element-wise [self._temp1_mag + self._temp2_mag] (line 270). (impulse_response_model.py:270.) *)
Fixpoint zip_add (l1 l2 : list num) : list num :=
  match l1, l2 with
  | x :: r1, y :: r2 => nadd env x y :: zip_add r1 r2
  | _, _ => []
  end.

(** impulse_response_model.py:246-282 [_get_run_output_tss] *)
Definition ir_outputs (s : IR) : list (string * string * list num) :=
  [("Surface Temperature|Box 1"%string, "delta_degC"%string, ir_temp1 s);
   ("Surface Temperature|Box 2"%string, "delta_degC"%string, ir_temp2 s);
   ("Surface Temperature"%string, "delta_degC"%string, zip_add (ir_temp1 s) (ir_temp2 s));
   ("Heat Uptake"%string, "W/m^2"%string, ir_rndt s)].

(** impulse_response_model.py:44-52 [_save_paras], [_name] *)
Definition ir_save_paras (s : IR) : list (string * Qty) :=
  [("d1"%string, ir_d1 s); ("d2"%string, ir_d2 s); ("q1"%string, ir_q1 s);
   ("q2"%string, ir_q2 s); ("efficacy"%string, ir_efficacy s)].
(** impulse_response_model.py:52 [_name]. *)
Definition ir_name : string := "two_timescale_impulse_response".

End Impulse.
