(** base.py:135-269: scenario tables, choice of the timestep, [run_scenarios].

    The tables are scmdata's [ScmRun] (not part of /repo); the part of it that
    is modelled: metadata columns, wildcard filtering, assignment of a constant
    to a column, the duplicate-metadata check, and a time axis shared by all
    rows with NaN for missing values. *)
From Coq Require Import List String Ascii QArith ZArith Bool Arith.
From Verif Require Import Arith Pint Base.
Import ListNotations.
Local Open Scope list_scope.

(** ** Wildcard matching of [ScmRun.filter] (scmdata.filters.pattern_match):
    only ["*"] is special.  Simplification: the other regular-expression
    characters scmdata does not escape ([^ ? { } [ ] \ ]) are taken literally. *)
Fixpoint glob (p s : string) : bool :=
  match p with
  | EmptyString => match s with EmptyString => true | _ => false end
  | String c p' =>
      if Ascii.eqb c "*"%char then
        (fix star (s : string) : bool :=
           glob p' s || match s with EmptyString => false | String _ s' => star s' end) s
      else
        match s with
        | EmptyString => false
        | String c' s' => Ascii.eqb c c' && glob p' s'
        end
  end.

(** ** Calendar: time points are seconds since 1970-01-01 (numpy datetime64[s]);
    [driver["year"]] is the proleptic Gregorian year. *)
Definition days_before_year (y : Z) : Z :=
  (365 * y + (y + 3) / 4 - (y + 99) / 100 + (y + 399) / 400)%Z.
(** Day number of a time point (scmdata time axis, used by base.py:155). *)
Definition day_number (t : Z) : Z := (t / 86400 + 719528)%Z.
(** Calendar year of a time point: [driver["year"]] (base.py:155). *)
Definition year_of (t : Z) : Z :=
  let d := day_number t in
  let y := (d * 400 / 146097)%Z in
  if Z.ltb d (days_before_year y) then (y - 1)%Z
  else if Z.leb (days_before_year (y + 1)) d then (y + 1)%Z
  else y.

(** [series.diff().dropna()] (base.py:155, 160.) *)
Fixpoint diffs (l : list Z) : list Z :=
  match l with
  | x :: ((y :: _) as r) => (y - x)%Z :: diffs r
  | _ => []
  end.

(** Length of [np.timedelta64(1, "D")] in seconds (base.py:163-164). *)
Definition day_s : Z := 86400%Z.

Section Scm.
Variable env : Env.
Notation num := (num env).
Notation Qty := (Qty env).
Notation ErfArg := (ErfArg env).
Notation PyVal := (PyVal env).

(** [ur(string)]: parsing of a unit expression by the registry; [None] is
    pint's UndefinedUnitError. *)
Variable parse_unit : string -> option Qty.

(** Column names: ordinary ones, and the parameter columns
    ["{} ({})".format(k, units)] (base.py:212), kept structured. *)
Inductive Key : Type := KName (s : string) | KParam (k : string) (u : Units).
(** Equality of column names (base.py:211-214, 224). *)
Definition key_eqb (a b : Key) : bool :=
  match a, b with
  | KName s, KName t => String.eqb s t
  | KParam s u, KParam t v => String.eqb s t && units_eqb u v
  | _, _ => false
  end.

(** A metadata value: text, number or scenario index (base.py:222-224, 252). *)
Inductive MVal : Type := MS (s : string) | MN (x : num) | MI (n : nat).
(** Equality as used by the duplicate check: NaN equals NaN. (pandas.) *)
Definition mval_eqb (a b : MVal) : bool :=
  match a, b with
  | MS s, MS t => String.eqb s t
  | MN x, MN y => neqb env x y || (nisnan env x && nisnan env y)
  | MI n, MI m => Nat.eqb n m
  | _, _ => false
  end.

(** Metadata of a row: columns and values (scmdata). *)
Definition Meta : Type := list (Key * MVal).

(** Lookup in a row of scmdata metadata (base.py:238, 241). *)
Fixpoint mget (m : Meta) (k : Key) : option MVal :=
  match m with
  | [] => None
  | (k', v) :: r => if key_eqb k' k then Some v else mget r k
  end.

(** [run[col] = value]: overwrite the column or append it. (base.py:147-148, 222-224, 252.) *)
Fixpoint mset (m : Meta) (k : Key) (v : MVal) : Meta :=
  match m with
  | [] => [(k, v)]
  | (k', v') :: r => if key_eqb k' k then (k', v) :: r else (k', v') :: mset r k v
  end.

(** Equality of all metadata, as scmdata compares rows. *)
Fixpoint meta_eqb (a b : Meta) : bool :=
  match a, b with
  | [], [] => true
  | (k, v) :: r, (k', v') :: r' => key_eqb k k' && mval_eqb v v' && meta_eqb r r'
  | _, _ => false
  end.

(** [ScmRun._duplicated_meta] (scmdata.) *)
Fixpoint has_dup (l : list Meta) : bool :=
  match l with
  | [] => false
  | m :: r => existsb (meta_eqb m) r || has_dup r
  end.

(** A table: rows over a common time axis. (scmdata.) *)
Record Row : Type := mkRow { r_meta : Meta; r_vals : list num }.
(** An scmdata table: the time axis and the rows. *)
Record Scm : Type := mkScm { s_times : list Z; s_rows : list Row }.

(** An output row.  Simplification: the result table's NaN padding to the
    union of all time axes is left out; a row is its list of points. (base.py:245-254.) *)
Record OutRow : Type := mkOut { o_meta : Meta; o_points : list (Z * num) }.

(** base.py:153-173 [_select_timestep] *)
Definition select_timestep (times : list Z) : Res Qty :=
  if forallb (fun d => Z.eqb d 1) (diffs (map year_of times)) then
    Ok (qscale env (nQ env 1) (mkQty env 1 u_yr))
  else if forallb (fun d => Z.leb d (31 * day_s) && Z.leb (28 * day_s) d) (diffs times) then
    Ok (qscale env (nQ env 1) (mkQty env 1 u_month))
  else Err NotImplementedError.

(** The parts of a subclass of [TwoLayerVariant] that [run_scenarios] calls. (base.py:78-99, the abstract methods of TwoLayerVariant.) *)
Record Variant : Type := mkVariant {
  v_state : Type;
  v_name : string;
  v_save_paras : v_state -> list (string * Qty);
  v_set_delta_t : PyVal -> Meth v_state unit;
  v_set_drivers : ErfArg -> Meth v_state unit;
  v_reset : Meth v_state unit;
  v_run : Meth v_state unit;
  v_outputs : v_state -> list (string * string * list num)
}.

Variable V : Variant.

(** base.py:211-214 *)
Definition save_paras_meta (s : v_state V) : list (Key * MVal) :=
  map (fun kq => (KParam (fst kq) (units (snd kq)), MN (mag (snd kq)))) (v_save_paras V s).

(** [driver.filter(variable=driver_var, region="World")] (base.py:216) *)
Definition row_selected (driver_var : string) (r : Row) : bool :=
  match mget (r_meta r) (KName "variable"), mget (r_meta r) (KName "region") with
  | Some (MS v), Some (MS g) => glob driver_var v && glob "World" g
  | _, _ => false
  end.

(** base.py:222-224 [driver["climate_model"] = ...; driver[k] = v] *)
Definition annotate (save : list (Key * MVal)) (m : Meta) : Meta :=
  fold_left (fun m kv => mset m (fst kv) (snd kv)) save
    (mset m (KName "climate_model") (MS (v_name V))).

(** [row.dropna()] with its time points (base.py:239) *)
Definition drop_nan (times : list Z) (vals : list num) : list (Z * num) :=
  filter (fun p => negb (nisnan env (snd p))) (combine times vals).

(** base.py:144-151 [_create_ts]: copy of the base row with other unit,
    variable and values.  Simplification: numpy's broadcasting of a length-one
    array is not modelled. *)
Definition create_ts (m : Meta) (pts : list (Z * num)) (o : string * string * list num)
  : Res OutRow :=
  let '(variable, unit, values) := o in
  if Nat.eqb (List.length values) (List.length pts) then
    Ok (mkOut (mset (mset m (KName "unit") (MS unit)) (KName "variable") (MS variable))
              (combine (map fst pts) values))
  else Err ValueError.

(** two_layer_model.py:279-307 and impulse_response_model.py:246-282: [_create_ts] for each output. *)
Fixpoint create_tss (m : Meta) (pts : list (Z * num)) (os : list (string * string * list num))
  : Res (list OutRow) :=
  match os with
  | [] => Ok []
  | o :: r => do x <- create_ts m pts o; do xs <- create_tss m pts r; Ok (x :: xs)
  end.

(** [ur(meta["unit"])] (base.py:238,241) *)
Definition row_unit (r : Row) : Res Qty :=
  match mget (r_meta r) (KName "unit") with
  | None => Err KeyError
  | Some (MS s) => match parse_unit s with
                   | None => Err UndefinedUnitError
                   | Some u => Ok u
                   end
  | Some _ => Err TypeError
  end.

(** base.py:238-254, one iteration of the scenario loop.  The duplicate check
    is the one made by [ScmRun(pd.concat(out_run_tss))]. *)
Definition run_row (i : nat) (times : list Z) (r : Row) : Meth (v_state V) (list OutRow) :=
  let pts := drop_nan times (r_vals r) in
  mdo u <- mread (fun _ => row_unit r);
  v_set_drivers V (EQ1 (mkQA (map (fun p => nmul env (snd p) (mag u)) pts) (units u))) ;;
  v_reset V ;;
  v_run V ;;
  mdo outs <- mread (fun s => create_tss (r_meta r) pts (v_outputs V s));
  let rows := mkOut (r_meta r) pts :: outs in
  if has_dup (map o_meta rows) then mraise NonUniqueMetadataError
  else mret (map (fun o => mkOut (mset (o_meta o) (KName "run_idx") (MI i)) (o_points o)) rows).

(** The loop over scenarios (base.py:232-254). *)
Fixpoint run_rows (i : nat) (times : list Z) (rows : list Row)
  : Meth (v_state V) (list OutRow) :=
  match rows with
  | [] => mret []
  | r :: rest =>
      mdo x <- run_row i times r;
      mdo xs <- run_rows (S i) times rest;
      mret (x ++ xs)
  end.

(** base.py:175-269 [run_scenarios].  The point at which scmdata reports
    duplicate metadata is taken to be [driver.timeseries()] (base.py:231). *)
Definition run_scenarios (scenarios : Scm) (driver_var : string)
  : Meth (v_state V) (list OutRow) :=
  mdo save <- mread (fun s => Ok (save_paras_meta s));
  let rows := filter (row_selected driver_var) (s_rows scenarios) in
  if Nat.eqb (List.length rows) 0 then mraise ValueError
  else
    let driver := map (fun r => mkRow (annotate save (r_meta r)) (r_vals r)) rows in
    mdo timestep <- mread (fun _ => select_timestep (s_times scenarios));
    v_set_delta_t V (PQ timestep) ;;
    if has_dup (map r_meta driver) then mraise NonUniqueMetadataError
    else
      mdo out <- run_rows 0 (s_times scenarios) driver;
      if has_dup (map o_meta out) then mraise NonUniqueMetadataError
      else mret out.

End Scm.
Arguments KName s%string.
Arguments KParam k%string u.
