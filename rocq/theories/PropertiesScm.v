(** Generated by tools/gen_props.py from FactsScm.v: the property theorems. *)
From Coq Require Import List String Ascii QArith ZArith Bool Arith Lia.
From Verif Require Import Arith Pint Base TwoLayer Impulse Scm Api Spec Demo
  GenTL GenTLHist GenIR GenIRHist GenScm GenMeta GenRun GenRunInst GenLayout GenModel FactsScm.
Import ListNotations.
Local Open Scope list_scope.

Theorem C32_scenarios_are_separate_runs : forall (env : Env) parse_unit m (s : state env m) sc dv rows s' out,
  table env sc -> refl_num env -> reachable env parse_unit m s ->
  Filtered (world_row env dv) (s_rows env sc) rows ->
  run_scn env parse_unit m sc dv s = (s', Ok out) ->
  exists ts s1 blocks,
    chosen_timestep env (s_times env sc) ts /\
    v_set_delta_t env (variant env m) (PQ ts) s = (s1, Ok tt) /\
    out = List.concat blocks /\
    Forall2i (fun i r b => scenario_rows env parse_unit (variant env m) s s1 i (s_times env sc) r b) rows blocks.
Proof. exact c32_scenarios_are_separate_runs. Qed.
Print Assumptions C32_scenarios_are_separate_runs.

(** The block of each scenario is what [run_scenarios] gives for that scenario
    alone (there it has number 0): other scenarios and their order do not matter. *)
Theorem C32_each_scenario_alone : forall (env : Env) parse_unit m (s : state env m) sc dv rows s' out,
  table env sc -> refl_num env -> reachable env parse_unit m s ->
  Filtered (world_row env dv) (s_rows env sc) rows ->
  run_scn env parse_unit m sc dv s = (s', Ok out) ->
  exists blocks, out = List.concat blocks /\
    Forall2i (fun i r b =>
      snd (run_scn env parse_unit m (mkScm env (s_times env sc) [r]) dv s) = Ok (map (renumber env 0) b)) rows blocks.
Proof. exact c32_each_scenario_alone. Qed.
Print Assumptions C32_each_scenario_alone.

(** Two objects with the same parameters, apart from [delta_t], and any two
    histories: same result. *)
Theorem C32_history_irrelevant : forall (env : Env) parse_unit m (s s' : state env m) sc dv,
  reachable env parse_unit m s -> reachable env parse_unit m s' -> same_but_delta_t env m s s' ->
  snd (run_scn env parse_unit m sc dv s) = snd (run_scn env parse_unit m sc dv s').
Proof. exact c32_history_irrelevant. Qed.
Print Assumptions C32_history_irrelevant.

(** [run_scenarios] succeeds exactly when there is something to run, no two
    scenarios coincide, and every scenario alone succeeds. *)
Theorem C32_success_iff_each_succeeds : forall (env : Env) parse_unit m (s : state env m) sc dv rows ts,
  table env sc -> refl_num env -> time_units env -> reachable env parse_unit m s ->
  chosen_timestep env (s_times env sc) ts ->
  Filtered (world_row env dv) (s_rows env sc) rows ->
  ((exists out, snd (run_scn env parse_unit m sc dv s) = Ok out) <->
   rows <> [] /\
   (forall i j r r', (i < j)%nat -> nth_error rows i = Some r -> nth_error rows j = Some r' ->
      ~ same_scenario env (variant env m) s r r') /\
   (forall r, In r rows -> exists out,
      snd (run_scn env parse_unit m (mkScm env (s_times env sc) [r]) dv s) = Ok out)).
Proof. exact c32_success_iff_each_succeeds. Qed.
Print Assumptions C32_success_iff_each_succeeds.

(** The [World] rows, in input order, and only they, are run: the [i]-th block
    starts with the [i]-th such row. *)
Theorem C33_exactly_the_world_rows : forall (env : Env) parse_unit m (s : state env m) sc dv rows s' out,
  table env sc -> refl_num env -> reachable env parse_unit m s ->
  Filtered (world_row env dv) (s_rows env sc) rows ->
  run_scn env parse_unit m sc dv s = (s', Ok out) ->
  exists blocks, out = List.concat blocks /\
    Forall2i (fun i r b => exists d outs, b = d :: outs /\
      o_points env d = drop_nan env (s_times env sc) (r_vals env r) /\
      mget env (o_meta env d) (KName "run_idx") = Some (MI env i) /\
      mget env (o_meta env d) (KName "variable") = mget env (r_meta env r) (KName "variable") /\
      mget env (o_meta env d) (KName "region") = Some (MS env "World")) rows blocks.
Proof. exact c33_exactly_the_world_rows. Qed.
Print Assumptions C33_exactly_the_world_rows.

Theorem C33_name_without_star_is_literal : forall (env : Env) dv (r : Row env),
  star_free dv ->
  (world_row env dv r <-> mget env (r_meta env r) (KName "variable") = Some (MS env dv) /\
                          mget env (r_meta env r) (KName "region") = Some (MS env "World")).
Proof. exact c33_name_without_star_is_literal. Qed.
Print Assumptions C33_name_without_star_is_literal.

Theorem C33_nothing_to_run : forall (env : Env) parse_unit m (s : state env m) sc dv,
  (forall r, In r (s_rows env sc) -> ~ world_row env dv r) ->
  run_scn env parse_unit m sc dv s = (s, Err ValueError).
Proof. exact c33_nothing_to_run. Qed.
Print Assumptions C33_nothing_to_run.

(** Names and units of the rows of a block: the driver row keeps its own. *)
Theorem C34_output_rows : forall (env : Env) parse_unit m (s : state env m) sc dv rows s' out,
  table env sc -> refl_num env -> reachable env parse_unit m s ->
  Filtered (world_row env dv) (s_rows env sc) rows ->
  run_scn env parse_unit m sc dv s = (s', Ok out) ->
  exists blocks, out = List.concat blocks /\
    Forall2i (fun i r b =>
      let col (k : string) (o : OutRow env) := mget env (o_meta env o) (KName k) in
      map (fun o => (col "variable"%string o, col "unit"%string o)) b =
        (mget env (r_meta env r) (KName "variable"), mget env (r_meta env r) (KName "unit")) ::
        map (fun vu => (Some (MS env (fst vu)), Some (MS env (snd vu))))
          (output_names m) /\
      Forall (fun o =>
        map fst (o_points env o) = map fst (drop_nan env (s_times env sc) (r_vals env r)) /\
        col "run_idx"%string o = Some (MI env i) /\
        col "climate_model"%string o =
          Some (MS env match m with Mtl => "two_layer" | Mir => "two_timescale_impulse_response" end) /\
        (forall n q, In (n, q) (parameters env m s) ->
           mget env (o_meta env o) (KParam n (units q)) = Some (MN env (mag q))) /\
        (forall k, ~ In k ["variable"; "unit"; "run_idx"; "climate_model"]%string ->
           col k o = mget env (r_meta env r) (KName k)) /\
        (forall n u, (forall n' q, In (n', q) (parameters env m s) ->
                        key_eqb (KParam n' (units q)) (KParam n u) = false) ->
           mget env (o_meta env o) (KParam n u) = mget env (r_meta env r) (KParam n u))) b /\
      match b with
      | d :: _ => o_points env d = drop_nan env (s_times env sc) (r_vals env r)
      | [] => False
      end) rows blocks.
Proof. exact c34_output_rows. Qed.
Print Assumptions C34_output_rows.

(** The rows after the driver's hold what the model has after being driven by
    that scenario alone, each under its own name and unit. *)
Theorem C34_row_values : forall (env : Env) parse_unit m (s : state env m) sc dv rows s' out,
  table env sc -> refl_num env -> reachable env parse_unit m s ->
  Filtered (world_row env dv) (s_rows env sc) rows ->
  run_scn env parse_unit m sc dv s = (s', Ok out) ->
  exists ts s1 blocks, out = List.concat blocks /\
    chosen_timestep env (s_times env sc) ts /\
    v_set_delta_t env (variant env m) (PQ ts) s = (s1, Ok tt) /\
    Forall2i (fun i r b => exists us u sD d outs,
      mget env (r_meta env r) (KName "unit") = Some (MS env us) /\ parse_unit us = Some u /\
      v_drive env (variant env m) (row_driver env (s_times env sc) r u) s1 = (sD, Ok tt) /\
      b = d :: outs /\
      map (fun o => (mget env (o_meta env o) (KName "variable"), mget env (o_meta env o) (KName "unit"), o_points env o)) outs =
      map (fun vux => (Some (MS env (fst (fst vux))), Some (MS env (snd (fst vux))),
                       combine (map fst (drop_nan env (s_times env sc) (r_vals env r))) (snd vux))) (results env m sD))
      rows blocks.
Proof. exact c34_row_values. Qed.
Print Assumptions C34_row_values.

Theorem C35_timestep_choice : forall (env : Env) parse_unit m (s : state env m) sc dv,
  time_units env -> (exists r, In r (s_rows env sc) /\ world_row env dv r) ->
  (yearly (s_times env sc) ->
     delta_t_of env m (fst (run_scn env parse_unit m sc dv s)) = one_year env) /\
  (~ yearly (s_times env sc) -> monthly (s_times env sc) ->
     delta_t_of env m (fst (run_scn env parse_unit m sc dv s)) = one_month env) /\
  (~ yearly (s_times env sc) -> ~ monthly (s_times env sc) ->
     run_scn env parse_unit m sc dv s = (s, Err NotImplementedError)).
Proof. exact c35_timestep_choice. Qed.
Print Assumptions C35_timestep_choice.

(** The calendar: for the year starts [Y] of the Gregorian calendar counted in
    seconds from 1970, [year_of] is the calendar year. *)
Theorem C35_calendar : forall (Y : Z -> Z),
  Y 1970%Z = 0%Z ->
  (forall y, Y (y + 1) - Y y = 86400 * (365 + if leap y then 1 else 0))%Z ->
  forall t y, year_of t = y <-> (Y y <= t < Y (y + 1))%Z.
Proof. exact c35_calendar. Qed.
Print Assumptions C35_calendar.

(** Real gaps of a yearly axis: strictly between 0 and 731 days. *)
Theorem C35_yearly_gaps : forall times, yearly times ->
  consecutive (fun t t' => 0 < t' - t < 731 * 86400)%Z times.
Proof. exact c35_yearly_gaps. Qed.
Print Assumptions C35_yearly_gaps.

(** Extremes are attained: 31 Dec 2000 to 1 Jan 2001 is one day, 1 Jan 2003 to
    31 Dec 2004 is 730 days, and both axes are run with steps of one year. *)
Theorem C35_one_day_counts_as_a_year : forall (env : Env),
  chosen_timestep env [978220800; 978307200]%Z (one_year env) /\ (978307200 - 978220800 = 86400)%Z /\
  chosen_timestep env [1041379200; 1104451200]%Z (one_year env) /\ (1104451200 - 1041379200 = 730 * 86400)%Z /\
  forall t, chosen_timestep env [t] (one_year env).
Proof. exact c35_one_day_counts_as_a_year. Qed.
Print Assumptions C35_one_day_counts_as_a_year.

(** Same outcome for the series with the missing points removed. *)
Theorem C36_missing_points_are_dropped :
  forall (env : Env) parse_unit m (s : state env m) dv times times' r r' ts pts,
  refl_num env -> time_units env -> reachable env parse_unit m s ->
  distinct_keys env (r_meta env r) -> world_row env dv r -> r_meta env r' = r_meta env r ->
  chosen_timestep env times ts -> chosen_timestep env times' ts ->
  Filtered (fun p => nisnan env (snd p) = false) (combine times (r_vals env r)) pts ->
  Filtered (fun p => nisnan env (snd p) = false) (combine times' (r_vals env r')) pts ->
  snd (run_scn env parse_unit m (mkScm env times [r]) dv s) =
  snd (run_scn env parse_unit m (mkScm env times' [r']) dv s).
Proof. exact c36_missing_points_are_dropped. Qed.
Print Assumptions C36_missing_points_are_dropped.

(** The time that elapses over a gap has no influence on any value: only the
    sequence of present values and the chosen timestep matter. *)
Theorem C36_elapsed_time_is_ignored :
  forall (env : Env) parse_unit m (s : state env m) dv times times' r r' ts pts pts',
  refl_num env -> time_units env -> reachable env parse_unit m s ->
  distinct_keys env (r_meta env r) -> world_row env dv r -> r_meta env r' = r_meta env r ->
  chosen_timestep env times ts -> chosen_timestep env times' ts ->
  Filtered (fun p => nisnan env (snd p) = false) (combine times (r_vals env r)) pts ->
  Filtered (fun p => nisnan env (snd p) = false) (combine times' (r_vals env r')) pts' ->
  map snd pts = map snd pts' ->
  match snd (run_scn env parse_unit m (mkScm env times [r]) dv s),
        snd (run_scn env parse_unit m (mkScm env times' [r']) dv s) with
  | Ok o, Ok o' => map (o_meta env) o = map (o_meta env) o' /\
                   map (fun x => map snd (o_points env x)) o = map (fun x => map snd (o_points env x)) o'
  | Err e, Err e' => e = e'
  | _, _ => False
  end.
Proof. exact c36_elapsed_time_is_ignored. Qed.
Print Assumptions C36_elapsed_time_is_ignored.

(** [delta_t] as set before the call is irrelevant for the result. *)
Theorem C37_earlier_delta_t_irrelevant : forall (env : Env) parse_unit m (s : state env m) v sc dv,
  reachable env parse_unit m s ->
  snd (run_scn env parse_unit m sc dv (fst (v_set_delta_t env (variant env m) v s))) =
  snd (run_scn env parse_unit m sc dv s).
Proof. exact c37_earlier_delta_t_irrelevant. Qed.
Print Assumptions C37_earlier_delta_t_irrelevant.

(** After the call, whatever its result: [delta_t] is the chosen timestep and
    every other parameter is as before. *)
Theorem C37_delta_t_afterwards : forall (env : Env) parse_unit m (s : state env m) sc dv,
  same_but_delta_t env m (fst (run_scn env parse_unit m sc dv s)) s /\
  (time_units env -> (exists r, In r (s_rows env sc) /\ world_row env dv r) ->
   forall ts, chosen_timestep env (s_times env sc) ts ->
     delta_t_of env m (fst (run_scn env parse_unit m sc dv s)) = ts).
Proof. exact c37_delta_t_afterwards. Qed.
Print Assumptions C37_delta_t_afterwards.

(** When exactly the metadata are reported as not unique: two selected rows
    coincide (apart from the columns that are overwritten), or a selected row is
    named like an output.  (In the second case only if no earlier scenario
    fails for another reason, see C43.) *)
Theorem C42_non_unique_only_if : forall (env : Env) parse_unit m (s : state env m) sc dv rows ts,
  table env sc -> refl_num env -> time_units env -> reachable env parse_unit m s ->
  chosen_timestep env (s_times env sc) ts ->
  Filtered (world_row env dv) (s_rows env sc) rows ->
  ((exists i j r r', (i < j)%nat /\ nth_error rows i = Some r /\ nth_error rows j = Some r' /\
      same_scenario env (variant env m) s r r') ->
   snd (run_scn env parse_unit m sc dv s) = Err NonUniqueMetadataError) /\
  (snd (run_scn env parse_unit m sc dv s) = Err NonUniqueMetadataError ->
   (forall r vu, In r rows -> In vu (output_names m) ->
      mget env (r_meta env r) (KName "variable") = Some (MS env (fst vu)) ->
      mget env (r_meta env r) (KName "unit") = Some (MS env (snd vu)) -> False) ->
   exists i j r r', (i < j)%nat /\ nth_error rows i = Some r /\ nth_error rows j = Some r' /\
      same_scenario env (variant env m) s r r').
Proof. exact c42_non_unique_only_if. Qed.
Print Assumptions C42_non_unique_only_if.

(** Scenarios that differ in nothing but [climate_model] stop the call. *)
Theorem C42_only_climate_model_differs : forall (env : Env) parse_unit m (s : state env m) sc dv rows ts i j r r',
  table env sc -> refl_num env -> time_units env -> reachable env parse_unit m s ->
  chosen_timestep env (s_times env sc) ts ->
  Filtered (world_row env dv) (s_rows env sc) rows ->
  (i < j)%nat -> nth_error rows i = Some r -> nth_error rows j = Some r' ->
  (forall k, k <> KName "climate_model" -> mrel env (mget env (r_meta env r) k) (mget env (r_meta env r') k)) ->
  snd (run_scn env parse_unit m sc dv s) = Err NonUniqueMetadataError.
Proof. exact c42_only_climate_model_differs. Qed.
Print Assumptions C42_only_climate_model_differs.

(** A returned table has no two rows with equal metadata. *)
Theorem C42_returned_rows_differ : forall (env : Env) parse_unit m (s : state env m) sc dv s' out,
  table env sc -> refl_num env -> reachable env parse_unit m s ->
  run_scn env parse_unit m sc dv s = (s', Ok out) ->
  ForallOrdPairs (fun o o' => ~ same_meta env (o_meta env o) (o_meta env o')) out.
Proof. exact c42_returned_rows_differ. Qed.
Print Assumptions C42_returned_rows_differ.

Theorem C43_driver_named_like_an_output : forall (env : Env) parse_unit m (s : state env m) sc dv r vu,
  table env sc -> refl_num env -> reachable env parse_unit m s ->
  In r (s_rows env sc) -> world_row env dv r -> In vu (output_names m) ->
  mget env (r_meta env r) (KName "variable") = Some (MS env (fst vu)) ->
  mget env (r_meta env r) (KName "unit") = Some (MS env (snd vu)) ->
  forall out, snd (run_scn env parse_unit m sc dv s) <> Ok out.
Proof. exact c43_driver_named_like_an_output. Qed.
Print Assumptions C43_driver_named_like_an_output.

(** The error is the metadata error as soon as the run itself succeeds. *)
Theorem C43_error_is_non_unique_metadata :
  forall (env : Env) parse_unit m (s : state env m) times r dv vu ts s1 us u sD,
  refl_num env -> reachable env parse_unit m s -> distinct_keys env (r_meta env r) ->
  world_row env dv r -> In vu (output_names m) ->
  mget env (r_meta env r) (KName "variable") = Some (MS env (fst vu)) ->
  mget env (r_meta env r) (KName "unit") = Some (MS env (snd vu)) ->
  chosen_timestep env times ts -> v_set_delta_t env (variant env m) (PQ ts) s = (s1, Ok tt) ->
  mget env (r_meta env r) (KName "unit") = Some (MS env us) -> parse_unit us = Some u ->
  v_drive env (variant env m) (row_driver env times r u) s1 = (sD, Ok tt) ->
  snd (run_scn env parse_unit m (mkScm env times [r]) dv s) = Err NonUniqueMetadataError.
Proof. exact c43_error_is_non_unique_metadata. Qed.
Print Assumptions C43_error_is_non_unique_metadata.

(** The hypotheses of the C32-C34 theorems on a table with two scenarios, one
    with a gap, and a row of another region. *)
Example C32_scenarios_ex :
  table demo demo_scm /\ refl_num demo /\ time_units demo /\
  chosen_timestep demo (s_times demo demo_scm) (one_year demo) /\
  reachable demo demo_parse Mtl demo_tl /\ reachable demo demo_parse Mir demo_ir /\
  (exists rows, Filtered (world_row demo "Effective Radiative Forcing") (s_rows demo demo_scm) rows /\ List.length rows = 2%nat) /\
  match snd (run_scn demo demo_parse Mtl demo_scm "Effective Radiative Forcing" demo_tl) with
  | Ok out => List.length out = 8%nat | Err _ => False end /\
  match snd (run_scn demo demo_parse Mir demo_scm "Effective*" demo_ir) with
  | Ok out => List.length out = 10%nat | Err _ => False end.
Proof. exact c32_scenarios_ex. Qed.

Example C33_nothing_ex :
  forall r, In r (s_rows demo demo_scm) -> ~ world_row demo "Emissions" r.
Proof. exact c33_nothing_ex. Qed.

Example C35_axes_ex :
  yearly demo_times /\
  (~ yearly [946684800; 949363200; 951868800]%Z /\ monthly [946684800; 949363200; 951868800]%Z) /\
  (~ yearly [946684800; 946771200]%Z /\ ~ monthly [946684800; 946771200]%Z).
Proof. exact c35_axes_ex. Qed.

Example C36_gap_ex :
  let dv := "Effective Radiative Forcing"%string in
  let r := demo_row dv "World" "a" "x" [Some 1; None; Some 3] in
  let r' := demo_row dv "World" "a" "x" [Some 1; Some 3; None] in
  world_row demo dv r /\ r_meta demo r' = r_meta demo r /\ distinct_keys demo (r_meta demo r) /\
  chosen_timestep demo demo_times (one_year demo) /\
  (exists pts pts',
     Filtered (fun p => nisnan demo (snd p) = false) (combine demo_times (r_vals demo r)) pts /\
     Filtered (fun p => nisnan demo (snd p) = false) (combine demo_times (r_vals demo r')) pts' /\
     map snd pts = map snd pts' /\ pts <> pts') /\
  match snd (run_scn demo demo_parse Mtl (mkScm demo demo_times [r]) dv demo_tl) with
  | Ok out => List.length out = 4%nat | Err _ => False end.
Proof. exact c36_gap_ex. Qed.

Example C37_delta_t_ex :
  let q := tl_delta_t demo (fst (run_scn demo demo_parse Mtl (mkScm demo [946684800; 949363200; 951868800]%Z (s_rows demo demo_scm))
     "Effective Radiative Forcing" demo_tl)) in
  mag q = Some 1 /\ units q = u_month /\ mag (tl_delta_t demo demo_tl) = Some 1 /\ units (tl_delta_t demo demo_tl) = u_yr.
Proof. exact c37_delta_t_ex. Qed.

(** Two scenarios from different climate models. *)
Example C42_climate_model_ex :
  let dv := "Effective Radiative Forcing"%string in
  let r := demo_row dv "World" "a" "x" [Some 1; Some 2; Some 3] in
  let r' := demo_row dv "World" "a" "y" [Some 4; Some 5; Some 6] in
  let sc := mkScm demo demo_times [r; r'] in
  table demo sc /\ chosen_timestep demo (s_times demo sc) (one_year demo) /\
  Filtered (world_row demo dv) (s_rows demo sc) [r; r'] /\
  (forall k, k <> KName "climate_model" -> mrel demo (mget demo (r_meta demo r) k) (mget demo (r_meta demo r') k)) /\
  match snd (run_scn demo demo_parse Mtl sc dv demo_tl) with Err NonUniqueMetadataError => True | _ => False end.
Proof. exact c42_climate_model_ex. Qed.

Example C43_heat_uptake_ex :
  let r := demo_row "Heat Uptake" "World" "a" "x" [Some 1; Some 2; Some 3] in
  world_row demo "Heat*" r /\ In ("Heat Uptake", "W/m^2")%string (output_names Mtl) /\
  (let st := v_set_delta_t demo (variant demo Mtl) (PQ (one_year demo)) demo_tl in
   snd st = Ok tt /\
   snd (v_drive demo (variant demo Mtl) (row_driver demo demo_times r (mkQ (env := demo) (Some 1) u_Wm2)) (fst st)) = Ok tt) /\
  match snd (run_scn demo demo_parse Mtl (mkScm demo demo_times [r]) "Heat*" demo_tl) with
  | Err NonUniqueMetadataError => True | _ => False end.
Proof. exact c43_heat_uptake_ex. Qed.
