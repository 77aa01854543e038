(** Specification-level vocabulary used in the statements of the property
    theorems; nothing here models code of /repo. *)
From Coq Require Import List String Ascii QArith ZArith Bool Arith.
From Verif Require Import Arith Pint Base TwoLayer Impulse Scm Api.
Import ListNotations.
Local Open Scope list_scope.

(** [Matches p s]: the string [s] matches the pattern [p], in which ["*"] stands
    for any string and every other character for itself. *)
Inductive Matches : string -> string -> Prop :=
| M_nil : Matches EmptyString EmptyString
| M_char c p s : c <> "*"%char -> Matches p s -> Matches (String c p) (String c s)
| M_star p s1 s2 : Matches p s2 -> Matches (String "*" p) (s1 ++ s2)%string.

(** No ["*"] in the pattern. *)
Fixpoint star_free (p : string) : Prop :=
  match p with EmptyString => True | String c r => c <> "*"%char /\ star_free r end.

(** Gregorian leap year. *)
Definition leap (y : Z) : bool :=
  (Z.eqb (y mod 4) 0 && negb (Z.eqb (y mod 100) 0)) || Z.eqb (y mod 400) 0.

(** Seconds from 1970-01-01 to the start of year [y]. *)
Definition year_start (y : Z) : Z := (86400 * (days_before_year y - 719528))%Z.

(** Every two consecutive elements are related. *)
Definition consecutive {A} (R : A -> A -> Prop) (l : list A) : Prop :=
  forall i x y, nth_error l i = Some x -> nth_error l (S i) = Some y -> R x y.

Definition yearly (times : list Z) : Prop :=
  consecutive (fun t t' => year_of t' = (year_of t + 1)%Z) times.

Definition monthly (times : list Z) : Prop :=
  consecutive (fun t t' => (28 * 86400 <= t' - t <= 31 * 86400)%Z) times.

Section Spec.
Variable env : Env.
Notation num := (num env).
Notation TL := (TL env).
Notation IR := (IR env).
Notation Meta := (Meta env).
Notation mget := (mget env).

(** Equality of dimensions, spelled out. *)
Definition same_dim (u v : Units) : Prop :=
  forall k, (k < ndim env)%nat -> dimx env u k == dimx env v k.

Inductive tl_param : Set := Pdu | Pdl | Plambda0 | Pa | Pefficacy | Peta | Pdelta_t.

Definition tl_param_get (p : tl_param) (s : TL) : Qty env :=
  match p with
  | Pdu => tl_du env s | Pdl => tl_dl env s | Plambda0 => tl_lambda0 env s | Pa => tl_a env s
  | Pefficacy => tl_efficacy env s | Peta => tl_eta env s | Pdelta_t => tl_delta_t env s
  end.

Definition tl_param_unit (p : tl_param) : Units :=
  match p with
  | Pdu => u_m | Pdl => u_m | Plambda0 => u_Wm2C | Pa => u_Wm2C2
  | Pefficacy => u_none | Peta => u_Wm2C | Pdelta_t => u_s
  end.

Definition tl_param_set (p : tl_param) : PyVal env -> Meth TL unit :=
  match p with
  | Pdu => tl_set_du env | Pdl => tl_set_dl env | Plambda0 => tl_set_lambda0 env
  | Pa => tl_set_a env | Pefficacy => tl_set_efficacy env | Peta => tl_set_eta env
  | Pdelta_t => tl_set_delta_t env
  end.

Definition tl_arg (g : TLArgs env) (p : tl_param) : PyVal env :=
  match p with
  | Pdu => ta_du env g | Pdl => ta_dl env g | Plambda0 => ta_lambda0 env g | Pa => ta_a env g
  | Pefficacy => ta_efficacy env g | Peta => ta_eta env g | Pdelta_t => ta_delta_t env g
  end.

(** Which arguments a constructor accepts. *)
Definition good_arg (v : PyVal env) (u : Units) : Prop :=
  exists q, v = PQ q /\ same_dim (units q) u.

Record tl_coherent (s : TL) : Prop := {
  tc_du : to_mag env (tl_du env s) u_m = Ok (tl_du_mag env s);
  tc_dl : to_mag env (tl_dl env s) u_m = Ok (tl_dl_mag env s);
  tc_lambda0 : to_mag env (tl_lambda0 env s) u_Wm2C = Ok (tl_lambda0_mag env s);
  tc_a : to_mag env (tl_a env s) u_Wm2C2 = Ok (tl_a_mag env s);
  tc_efficacy : to_mag env (tl_efficacy env s) u_none = Ok (tl_efficacy_mag env s);
  tc_eta : to_mag env (tl_eta env s) u_Wm2C = Ok (tl_eta_mag env s);
  tc_delta_t : to_mag env (tl_delta_t env s) u_s = Ok (tl_delta_t_mag env s);
  tc_hcu : to_mag env (tl_heat_capacity_upper env s) u_JCm2 = Ok (tl_hcu_mag env s);
  tc_hcl : to_mag env (tl_heat_capacity_lower env s) u_JCm2 = Ok (tl_hcl_mag env s);
  tc_erf : match tl_erf env s, tl_erf_mag env s with
           | None, None => True
           | Some q, Some m => to_mags env q u_Wm2 = Ok m
           | _, _ => False
           end
}.

Definition tl_args_of (s : TL) : TLArgs env :=
  mkTLArgs env (PQ (tl_du env s)) (PQ (tl_dl env s)) (PQ (tl_lambda0 env s)) (PQ (tl_a env s))
    (PQ (tl_efficacy env s)) (PQ (tl_eta env s)) (PQ (tl_delta_t env s)).

(** What a caller can read from a model object. *)
Definition tl_same_visible (s1 s2 : TL) : Prop := forall p, tl_param_get p s1 = tl_param_get p s2.

Definition all_nan_from (k : nat) (l : list num) : Prop :=
  forall i x, (k <= i)%nat -> nth_error l i = Some x -> nisnan env x = true.

Definition tl_nan_inv (s : TL) : Prop :=
  List.length (tl_temp_lower env s) = List.length (tl_temp_upper env s) /\
  List.length (tl_rndt env s) = List.length (tl_temp_upper env s) /\
  let k := match tl_idx env s with None => 0%nat | Some i => S i end in
  all_nan_from k (tl_temp_upper env s) /\ all_nan_from k (tl_temp_lower env s) /\
  all_nan_from k (tl_rndt env s).

Inductive ir_param : Set := Pq1 | Pq2 | Pd1 | Pd2 | Peff | Pdt.

Definition ir_param_get (p : ir_param) (s : IR) : Qty env :=
  match p with
  | Pq1 => ir_q1 env s | Pq2 => ir_q2 env s | Pd1 => ir_d1 env s | Pd2 => ir_d2 env s
  | Peff => ir_efficacy env s | Pdt => ir_delta_t env s
  end.

Definition ir_param_unit (p : ir_param) : Units :=
  match p with
  | Pq1 => u_CWm2 | Pq2 => u_CWm2 | Pd1 => u_yr | Pd2 => u_yr
  | Peff => u_none | Pdt => u_yr
  end.

Definition ir_param_set (p : ir_param) : PyVal env -> Meth IR unit :=
  match p with
  | Pq1 => ir_set_q1 env | Pq2 => ir_set_q2 env | Pd1 => ir_set_d1 env
  | Pd2 => ir_set_d2 env | Peff => ir_set_efficacy env | Pdt => ir_set_delta_t env
  end.

Definition ir_arg (g : IRArgs env) (p : ir_param) : PyVal env :=
  match p with
  | Pq1 => ia_q1 env g | Pq2 => ia_q2 env g | Pd1 => ia_d1 env g | Pd2 => ia_d2 env g
  | Peff => ia_efficacy env g | Pdt => ia_delta_t env g
  end.

Record ir_coherent (s : IR) : Prop := {
  ic_q1 : to_mag env (ir_q1 env s) u_CWm2 = Ok (ir_q1_mag env s);
  ic_q2 : to_mag env (ir_q2 env s) u_CWm2 = Ok (ir_q2_mag env s);
  ic_d1 : to_mag env (ir_d1 env s) u_yr = Ok (ir_d1_mag env s);
  ic_d2 : to_mag env (ir_d2 env s) u_yr = Ok (ir_d2_mag env s);
  ic_efficacy : to_mag env (ir_efficacy env s) u_none = Ok (ir_efficacy_mag env s);
  ic_delta_t : to_mag env (ir_delta_t env s) u_yr = Ok (ir_delta_t_mag env s);
  ic_erf : match ir_erf env s, ir_erf_mag env s with
           | None, None => True
           | Some q, Some m => to_mags env q u_Wm2 = Ok m
           | _, _ => False
           end
}.

(** What a caller can read from a model object. *)
Definition ir_same_visible (s1 s2 : IR) : Prop := forall p, ir_param_get p s1 = ir_param_get p s2.

Definition ir_nan_inv (s : IR) : Prop :=
  List.length (ir_temp2 env s) = List.length (ir_temp1 env s) /\
  List.length (ir_rndt env s) = List.length (ir_temp1 env s) /\
  let k := match ir_idx env s with None => 0%nat | Some i => S i end in
  all_nan_from k (ir_temp1 env s) /\ all_nan_from k (ir_temp2 env s) /\
  all_nan_from k (ir_rndt env s).

Definition one_year : Qty env := mkQ (nmul env (nQ env 1) (nQ env 1)) u_yr.

Definition one_month : Qty env := mkQ (nmul env (nQ env 1) (nQ env 1)) u_month.

(** The rows of [scenarios] that are run, with the model's metadata. *)
Definition selected (dv : string) (sc : Scm env) : list (Row env) :=
  filter (row_selected env dv) (s_rows env sc).

(** Keys of a metadata record. *)
Definition mkeys (m : Meta) : list Key := map fst m.

(** Distinct columns. *)
Definition distinct_keys (m : Meta) : Prop := ForallOrdPairs (fun a b => key_eqb a b = false) (mkeys m).

Definition refl_num : Prop := forall x : num, neqb env x x = true \/ nisnan env x = true.

(** The driver row would be indistinguishable from output row [o]. *)
Definition clash (m : Meta) (o : string * string * list num) : Prop :=
  mget m (KName "variable") = Some (MS env (fst (fst o))) /\
  mget m (KName "unit") = Some (MS env (snd (fst o))).

(** A table: all rows have the same, distinct columns (ScmRun's meta frame). *)
Definition table (sc : Scm env) : Prop :=
  (forall r, In r (s_rows env sc) -> distinct_keys (r_meta env r)) /\
  (forall r r', In r (s_rows env sc) -> In r' (s_rows env sc) -> mkeys (r_meta env r) = mkeys (r_meta env r')).

End Spec.

(** ** What a finished run is: every entry of the three series is determined
    from the previous ones by the package's step functions. *)
Section Series.
Variable env : Env.

(** [U], [L], [R]: upper and lower temperature and heat uptake; [F]: the drivers
    in W/m^2; the numbers are the parameters in model units. *)
Definition tl_series (dt lambda0 a efficacy eta hcu hcl : num env) (F U L R : list (num env)) : Prop :=
  List.length U = List.length F /\ List.length L = List.length F /\ List.length R = List.length F /\
  (F <> [] -> nth_error U 0 = Some (nQ env 0) /\ nth_error L 0 = Some (nQ env 0) /\
              nth_error R 0 = Some (nQ env 0)) /\
  forall i f tu tl, (S i < List.length F)%nat ->
    nth_error F i = Some f -> nth_error U i = Some tu -> nth_error L i = Some tl ->
    let tu' := calculate_next_temp_upper env dt tu tl f lambda0 a efficacy eta hcu in
    let tl' := calculate_next_temp_lower env dt tl tu eta hcl in
    nth_error U (S i) = Some tu' /\ nth_error L (S i) = Some tl' /\
    nth_error R (S i) = Some (calculate_next_rndt env dt tl' tl hcl tu' tu hcu).

(** [T1], [T2]: box temperatures; [T]: surface temperature; [R]: heat uptake. *)
Definition ir_series (s : IR env) (F T1 T2 T R : list (num env)) : Prop :=
  List.length T1 = List.length F /\ List.length T2 = List.length F /\
  List.length T = List.length F /\ List.length R = List.length F /\
  (F <> [] -> nth_error T1 0 = Some (nQ env 0) /\ nth_error T2 0 = Some (nQ env 0) /\
              nth_error R 0 = Some (nQ env 0)) /\
  (forall i t1 t2, nth_error T1 i = Some t1 -> nth_error T2 i = Some t2 ->
     nth_error T i = Some (nadd env t1 t2)) /\
  forall i f t1 t2, (S i < List.length F)%nat ->
    nth_error F i = Some f -> nth_error T1 i = Some t1 -> nth_error T2 i = Some t2 ->
    (exists t1', calculate_next_temp env (ir_delta_t_mag env s) t1 (ir_q1_mag env s) (ir_d1_mag env s) f = Ok t1' /\
                 nth_error T1 (S i) = Some t1') /\
    (exists t2', calculate_next_temp env (ir_delta_t_mag env s) t2 (ir_q2_mag env s) (ir_d2_mag env s) f = Ok t2' /\
                 nth_error T2 (S i) = Some t2') /\
    (exists r', ir_calculate_next_rndt env s t1 t2 f (ir_efficacy_mag env s) = Ok r' /\
                nth_error R (S i) = Some r').

(** [part] has length [n], agrees with [full] at the first [k] positions and is
    NaN at the others. *)
Definition partial_series (k n : nat) (part full : list (num env)) : Prop :=
  List.length part = n /\
  (forall j, (j < k)%nat -> nth_error part j = nth_error full j) /\
  (forall j, (k <= j < n)%nat -> nth_error part j = Some (nnan env)).

(** No entry of a driver series is NaN. *)
Definition nan_free (e : QArr env) : Prop := forall x, In x (mags e) -> nisnan env x = false.

(** The model object before and after differ at most in results and timestep. *)
Definition tl_only_results (s s' : TL env) : Prop :=
  (forall p, tl_param_get env p s' = tl_param_get env p s) /\ tl_erf env s' = tl_erf env s.
Definition ir_only_results (s s' : IR env) : Prop :=
  (forall p, ir_param_get env p s' = ir_param_get env p s) /\ ir_erf env s' = ir_erf env s.

(** Same entry, if any, at positions up to [i]. *)
Definition agree_upto (i : nat) (l l' : list (num env)) : Prop :=
  forall j, (j <= i)%nat -> nth_error l j = nth_error l' j.
Definition agree_before (i : nat) (l l' : list (num env)) : Prop :=
  forall j, (j < i)%nat -> nth_error l j = nth_error l' j.

(** The series reported under the same name agree up to position [i]. *)
Definition outputs_agree_upto (i : nat) (o o' : list (string * string * list (num env))) : Prop :=
  Forall2 (fun x y => fst x = fst y /\ agree_upto i (snd x) (snd y)) o o'.
End Series.

(** ** Scenario tables *)
Section Scenarios.
Variable env : Env.
Variable parse_unit : string -> option (Qty env).
Variable V : Variant env.
Notation mget := (mget env).
Notation mval_eqb := (mval_eqb env).

(** [set_drivers(e); reset(); run()] *)
Definition v_drive (e : QArr env) : Meth (v_state env V) unit :=
  v_set_drivers env V (EQ1 e) ;; v_reset env V ;; v_run env V.

(** The driver handed to the model for a row. *)
Definition row_driver (times : list Z) (r : Row env) (u : Qty env) : QArr env :=
  mkQA (map (fun p => nmul env (snd p) (mag u)) (drop_nan env times (r_vals env r))) (units u).

(** Equal metadata values (NaN counts as equal to NaN). *)
Definition mrel (x y : option (MVal env)) : Prop :=
  match x, y with
  | Some a, Some b => mval_eqb a b = true
  | None, None => True
  | _, _ => False
  end.

(** The row is one of the "World" rows of the driver variable. *)
Definition world_row (dv : string) (r : Row env) : Prop :=
  exists v, mget (r_meta env r) (KName "variable") = Some (MS env v) /\
            mget (r_meta env r) (KName "region") = Some (MS env "World") /\ Matches dv v.

(** The timestep chosen for a time axis. *)
Definition chosen_timestep (times : list Z) (ts : Qty env) : Prop :=
  (yearly times /\ ts = one_year env) \/ (~ yearly times /\ monthly times /\ ts = one_month env).

(** The year and the month are times. *)
Definition time_units : Prop := same_dim env u_yr u_s /\ same_dim env u_month u_s.

(** Columns [run_scenarios] writes into the driver rows: climate_model and one
    column per saved parameter. *)
Definition overwritten (s : v_state env V) (k : Key) : Prop :=
  k = KName "climate_model" \/
  exists n q, In (n, q) (v_save_paras env V s) /\ key_eqb (KParam n (units q)) k = true.

(** Metadata of an output row made from input row metadata [m0] in scenario
    number [i]; [vu] is the new variable and unit, if any. *)
Definition out_meta_ok (s : v_state env V) (i : nat) (m0 m : Meta env) (vu : option (string * string)) : Prop :=
  mget m (KName "run_idx") = Some (MI env i) /\
  mget m (KName "climate_model") = Some (MS env (v_name env V)) /\
  (forall n q, In (n, q) (v_save_paras env V s) -> mget m (KParam n (units q)) = Some (MN env (mag q))) /\
  (forall v u, vu = Some (v, u) ->
     mget m (KName "variable") = Some (MS env v) /\ mget m (KName "unit") = Some (MS env u)) /\
  forall k, k <> KName "run_idx" -> ~ overwritten s k ->
    (vu = None \/ (k <> KName "variable" /\ k <> KName "unit")) -> mget m k = mget m0 k.

(** [b] is what a separate run of scenario [r] (number [i]) gives: [s1] is the
    model with the chosen timestep, [s] the model at the time of the call. *)
Definition scenario_rows (s s1 : v_state env V) (i : nat) (times : list Z) (r : Row env) (b : list (OutRow env)) : Prop :=
  exists us u sD d outs,
    mget (r_meta env r) (KName "unit") = Some (MS env us) /\ parse_unit us = Some u /\
    v_drive (row_driver times r u) s1 = (sD, Ok tt) /\
    b = d :: outs /\
    o_points env d = drop_nan env times (r_vals env r) /\
    out_meta_ok s i (r_meta env r) (o_meta env d) None /\
    Forall2 (fun o v => o_points env o = combine (map fst (drop_nan env times (r_vals env r))) (snd v) /\
                        List.length (snd v) = List.length (drop_nan env times (r_vals env r)) /\
                        out_meta_ok s i (r_meta env r) (o_meta env o) (Some (fst v)))
      outs (v_outputs env V sD).

(** Two rows that cannot be told apart once the columns [run_scenarios] writes
    have been overwritten. *)
Definition same_scenario (s : v_state env V) (r r' : Row env) : Prop :=
  forall k, ~ overwritten s k -> mrel (mget (r_meta env r) k) (mget (r_meta env r') k).

(** Equal in all metadata columns. *)
Definition same_meta (m m' : Meta env) : Prop := forall k, mrel (mget m k) (mget m' k).

(** The output row with another scenario number. *)
Definition renumber (i : nat) (o : OutRow env) : OutRow env :=
  mkOut env (mset env (o_meta env o) (KName "run_idx") (MI env i)) (o_points env o).
End Scenarios.

(** ** Both models at once *)
Inductive model : Set := Mtl | Mir.

Section Both.
Variable env : Env.
Variable parse_unit : string -> option (Qty env).

(** [TwoLayerModel] or [ImpulseResponseModel], as seen by [run_scenarios]. *)
Definition variant (m : model) : Variant env :=
  match m with Mtl => tl_variant env | Mir => ir_variant env end.

Definition state (m : model) : Type := v_state env (variant m).

(** Reachable by public calls. *)
Definition reachable (m : model) : state m -> Prop :=
  match m return state m -> Prop with
  | Mtl => tl_reachable env parse_unit
  | Mir => ir_reachable env parse_unit
  end.

(** The [delta_t] property. *)
Definition delta_t_of (m : model) : state m -> Qty env :=
  match m return state m -> Qty env with
  | Mtl => tl_delta_t env
  | Mir => ir_delta_t env
  end.

(** Equal in every parameter except possibly [delta_t]. *)
Definition same_but_delta_t (m : model) : state m -> state m -> Prop :=
  match m return state m -> state m -> Prop with
  | Mtl => fun s s' => forall p, p <> Pdelta_t -> tl_param_get env p s = tl_param_get env p s'
  | Mir => fun s s' => forall p, p <> Pdt -> ir_param_get env p s = ir_param_get env p s'
  end.

(** The parameters a model stores in the metadata of its output, by name. *)
Definition parameters (m : model) : state m -> list (string * Qty env) :=
  match m return state m -> list (string * Qty env) with
  | Mtl => fun s => map (fun np => (fst np, tl_param_get env (snd np) s))
      [("du", Pdu); ("dl", Pdl); ("lambda0", Plambda0); ("a", Pa); ("efficacy", Pefficacy); ("eta", Peta)]%string
  | Mir => fun s => map (fun np => (fst np, ir_param_get env (snd np) s))
      [("d1", Pd1); ("d2", Pd2); ("q1", Pq1); ("q2", Pq2); ("efficacy", Peff)]%string
  end.

(** The time series a model has after a run: variable, unit and values. *)
Definition results (m : model) : state m -> list (string * string * list (num env)) :=
  match m return state m -> list (string * string * list (num env)) with
  | Mtl => fun s =>
      [("Surface Temperature|Upper", "delta_degC", tl_temp_upper env s);
       ("Surface Temperature|Lower", "delta_degC", tl_temp_lower env s);
       ("Heat Uptake", "W/m^2", tl_rndt env s)]%string
  | Mir => fun s =>
      [("Surface Temperature|Box 1", "delta_degC", ir_temp1 env s);
       ("Surface Temperature|Box 2", "delta_degC", ir_temp2 env s);
       ("Surface Temperature", "delta_degC",
        map (fun ab => nadd env (fst ab) (snd ab)) (combine (ir_temp1 env s) (ir_temp2 env s)));
       ("Heat Uptake", "W/m^2", ir_rndt env s)]%string
  end.

(** The model's method [run_scenarios]. *)
Definition run_scn (m : model) : Scm env -> string -> Meth (state m) (list (OutRow env)) :=
  run_scenarios env parse_unit (variant m).
End Both.

(** Variable and unit of the rows a model reports. *)
Definition output_names (m : model) : list (string * string) :=
  match m with
  | Mtl => [("Surface Temperature|Upper", "delta_degC"); ("Surface Temperature|Lower", "delta_degC");
            ("Heat Uptake", "W/m^2")]
  | Mir => [("Surface Temperature|Box 1", "delta_degC"); ("Surface Temperature|Box 2", "delta_degC");
            ("Surface Temperature", "delta_degC"); ("Heat Uptake", "W/m^2")]
  end%string.

(** [l'] is what remains of [l] when exactly the elements without [P] are
    removed. *)
Inductive Filtered {A} (P : A -> Prop) : list A -> list A -> Prop :=
| Fi_nil : Filtered P [] []
| Fi_keep x l l' : P x -> Filtered P l l' -> Filtered P (x :: l) (x :: l')
| Fi_drop x l l' : ~ P x -> Filtered P l l' -> Filtered P (x :: l) l'.

(** [R i x y] for the elements [x], [y] at each position [i]; equal lengths. *)
Definition Forall2i {A B} (R : nat -> A -> B -> Prop) (l : list A) (l' : list B) : Prop :=
  List.length l = List.length l' /\
  forall i x y, nth_error l i = Some x -> nth_error l' i = Some y -> R i x y.
