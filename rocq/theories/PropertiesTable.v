(** Generated by tools/gen_props.py from FactsTable.v: the property theorems. *)
From Coq Require Import List String Ascii QArith ZArith Bool Arith Lia Sorting.Sorted.
From Verif Require Import Arith Pint Base TwoLayer Impulse Scm Table Api Spec Demo
  GenTL GenTLHist GenIR GenIRHist GenScm GenMeta GenRun GenRunInst GenLayout GenModel GenTable FactsScm FactsTable.
Import ListNotations.
Local Open Scope list_scope.

(** One axis for all rows: the time points at which some scenario has a value,
    in order, none of them new.  Every row shows its own points and is missing
    everywhere else. *)
Theorem C54_returned_table : forall (env : Env) parse_unit m (s : state env m) sc dv s' out,
  StronglySorted Z.lt (s_times env sc) ->
  run_scn env parse_unit m sc dv s = (s', Ok out) ->
  let T := result_table env out in
  StronglySorted Z.lt (s_times env T) /\
  (forall t, In t (s_times env T) <-> exists o v, In o out /\ In (t, v) (o_points env o)) /\
  (forall t, In t (s_times env T) -> In t (s_times env sc)) /\
  Forall2 (fun o r =>
    r_meta env r = o_meta env o /\ List.length (r_vals env r) = List.length (s_times env T) /\
    (forall t v, In (t, v) (o_points env o) -> In (t, v) (combine (s_times env T) (r_vals env r))) /\
    (forall t v, In (t, v) (combine (s_times env T) (r_vals env r)) ->
       In (t, v) (o_points env o) \/ v = nnan env /\ forall w, ~ In (t, w) (o_points env o)))
    out (s_rows env T).
Proof. exact c54_returned_table. Qed.
Print Assumptions C54_returned_table.

(** Run the returned table again, with the same model or another one with the
    same parameters: if every time point of the input has a value in some
    scenario, and [driver_var] does not match an output, the result is the same. *)
Theorem C54_running_again : forall (env : Env) parse_unit m (s : state env m) sc dv rows s' out,
  StronglySorted Z.lt (s_times env sc) ->
  Filtered (world_row env dv) (s_rows env sc) rows ->
  (forall vu, In vu (output_names m) -> ~ Matches dv (fst vu)) ->
  (forall t, In t (s_times env sc) ->
     exists r v, In r rows /\ In (t, v) (combine (s_times env sc) (r_vals env r)) /\ nisnan env v = false) ->
  run_scn env parse_unit m sc dv s = (s', Ok out) ->
  s_times env (result_table env out) = s_times env sc /\
  run_scn env parse_unit m (result_table env out) dv s = (s', Ok out) /\
  (reachable env parse_unit m s -> forall s2, reachable env parse_unit m s2 -> same_but_delta_t env m s2 s ->
     snd (run_scn env parse_unit m (result_table env out) dv s2) = Ok out).
Proof. exact c54_running_again. Qed.
Print Assumptions C54_running_again.

(** A table with two scenarios, one of them with a gap. *)
Example C54_case :
  StronglySorted Z.lt (s_times demo demo_scm) /\
  (forall vu, In vu (output_names Mtl) -> ~ Matches "Effective*" (fst vu)) /\
  (exists rows, Filtered (world_row demo "Effective*") (s_rows demo demo_scm) rows /\
    forall t, In t (s_times demo demo_scm) -> exists r v, In r rows /\
      In (t, v) (combine (s_times demo demo_scm) (r_vals demo r)) /\ nisnan demo v = false) /\
  (exists s' out, run_scn demo demo_parse Mtl demo_scm "Effective*" demo_tl = (s', Ok out)).
Proof. exact c54_case. Qed.

Example C54_gap :
  match snd (run_scn demo demo_parse Mtl gap_scm "Effective*" demo_tl) with
  | Ok out => s_times demo (result_table demo out) = [946684800; 1009843200]%Z /\
      snd (run_scn demo demo_parse Mtl (result_table demo out) "Effective*" demo_tl) = Err NotImplementedError
  | Err _ => False
  end.
Proof. exact c54_gap. Qed.
