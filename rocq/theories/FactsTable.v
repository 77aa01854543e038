(** Property C54: the table [run_scenarios] returns. *)
From Coq Require Import List String Ascii QArith ZArith Bool Arith Lia Sorting.Sorted.
From Verif Require Import Arith Pint Base TwoLayer Impulse Scm Table Api Spec Demo
  GenTL GenTLHist GenIR GenIRHist GenScm GenMeta GenRun GenRunInst GenLayout GenModel GenTable FactsScm.
Import ListNotations.
Local Open Scope list_scope.

Lemma row_points (env : Env) pu V i times r s s' b :
  run_row env pu V i times r s = (s', Ok b) ->
  forall o, In o b -> map fst (o_points env o) = map fst (drop_nan env times (r_vals env r)).
Proof.
  intros E. rewrite run_row_eq in E.
  destruct (row_unit env pu r) as [u|]; [|discriminate].
  destruct (v_drive env V (row_driver env times r u) s) as [s1 [[]|]]; [|discriminate].
  assert (Ep : package env V i times r s1 = Ok b) by congruence. clear E.
  unfold package in Ep. destruct (create_tss _ _ _ _) as [outs|] eqn:Ec; [|discriminate]. cbn [bind] in Ep.
  destruct (has_dup env (map (o_meta env) (mkOut env _ _ :: _))); [discriminate|].
  injection Ep as Eb. pose proof (create_names _ _ _ _ _ Ec) as CN. rewrite Forall_forall in CN.
  intros o Ho. rewrite <- Eb in Ho. destruct Ho as [<-|Ho]; [reflexivity|].
  apply in_map_iff in Ho as (o' & <- & Ho). cbn [o_points]. destruct (CN o' Ho) as (_ & _ & _ & P). exact P.
Qed.
Lemma rows_points (env : Env) pu V times rows : forall i s s' out,
  run_rows env pu V i times rows s = (s', Ok out) ->
  forall o, In o out -> exists r, map fst (o_points env o) = map fst (drop_nan env times (r_vals env r)).
Proof.
  induction rows as [|r rows IH]; intros i s s' out E o Ho.
  - cbn in E. injection E as <- <-. destruct Ho.
  - cbn [run_rows] in E. cbv [mbind mret] in E.
    destruct (run_row env pu V i times r s) as [s1 [b|]] eqn:E1; [|discriminate].
    destruct (run_rows env pu V (S i) times rows s1) as [s2 [bs|]] eqn:E2; [|discriminate].
    injection E as <- <-. apply in_app_or in Ho as [Ho|Ho]; [|eauto].
    exists r. eapply row_points; eauto.
Qed.
Lemma scenarios_points (env : Env) pu V sc dv s s' out :
  run_scenarios env pu V sc dv s = (s', Ok out) ->
  forall o, In o out -> exists r, map fst (o_points env o) = map fst (drop_nan env (s_times env sc) (r_vals env r)).
Proof.
  rewrite run_scenarios_eq. destruct (Nat.eqb _ 0); [discriminate|].
  destruct (select_timestep env (s_times env sc)) as [ts|]; [|discriminate].
  destruct (v_set_delta_t env V (PQ ts) s) as [s1 [[]|]]; [|discriminate]. cbv zeta.
  destruct (has_dup env (map (r_meta env) _)); [discriminate|].
  destruct (run_rows env pu V 0 (s_times env sc) _ s1) as [s2 [o2|]] eqn:Er; [|discriminate].
  destruct (has_dup env (map (o_meta env) o2)); [discriminate|]. intros E. injection E as -> ->.
  eapply rows_points, Er.
Qed.

(** ** C54 *)
(** One axis for all rows: the time points at which some scenario has a value,
    in order, none of them new.  Every row shows its own points and is missing
    everywhere else. *)
Theorem c54_returned_table : forall (env : Env) parse_unit m (s : state env m) sc dv s' out,
  StronglySorted Z.lt (s_times env sc) ->
  run_scn env parse_unit m sc dv s = (s', Ok out) ->
  let T := result_table env out in
  StronglySorted Z.lt (s_times env T) /\
  (forall t, In t (s_times env T) <-> exists o v, In o out /\ In (t, v) (o_points env o)) /\
  (forall t, In t (s_times env T) -> In t (s_times env sc)) /\
  Forall2 (fun o r =>
    r_meta env r = o_meta env o /\ List.length (r_vals env r) = List.length (s_times env T) /\
    (forall t v, In (t, v) (o_points env o) -> In (t, v) (combine (s_times env T) (r_vals env r))) /\
    (forall t v, In (t, v) (combine (s_times env T) (r_vals env r)) ->
       In (t, v) (o_points env o) \/ v = nnan env /\ forall w, ~ In (t, w) (o_points env o)))
    out (s_rows env T).
Proof.
  intros env pu m s sc dv s' out St E T. pose proof (scenarios_points _ _ _ _ _ _ _ _ E) as P.
  assert (C : forall l (f : Z -> num env), combine l (map f l) = map (fun t => (t, f t)) l).
  { induction l as [|a l IH]; intros f; [reflexivity|]. cbn. now rewrite IH. }
  assert (ND : forall o, In o out -> NoDup (map fst (o_points env o))).
  { intros o Ho. destruct (P o Ho) as [r ->]. apply sorted_nodup, drop_nan_sorted, St. }
  assert (TI : forall t, In t (s_times env T) <-> exists o v, In o out /\ In (t, v) (o_points env o)).
  { intros t. unfold T. cbn [result_table s_times]. rewrite result_times_in. split.
    - intros (o & Ho & Hi). apply in_map_iff in Hi as ([a v] & <- & Hi). eauto.
    - intros (o & v & Ho & Hi). exists o. split; [exact Ho|]. apply in_map_iff. now exists (t, v). }
  split; [apply result_times_sorted|]. split; [exact TI|]. split.
  - intros t Hi. apply TI in Hi as (o & v & Ho & Hi). destruct (P o Ho) as [r Er].
    apply (drop_nan_in env _ (r_vals env r)). rewrite <- Er. apply in_map_iff. now exists (t, v).
  - assert (G : forall l, (forall o, In o l -> In o out) -> Forall2 (fun o r =>
      r_meta env r = o_meta env o /\ List.length (r_vals env r) = List.length (s_times env T) /\
      (forall t v, In (t, v) (o_points env o) -> In (t, v) (combine (s_times env T) (r_vals env r))) /\
      (forall t v, In (t, v) (combine (s_times env T) (r_vals env r)) ->
       In (t, v) (o_points env o) \/ v = nnan env /\ forall w, ~ In (t, w) (o_points env o)))
      l (map (fun o => mkRow env (o_meta env o) (map (value_at env (o_points env o)) (s_times env T))) l)).
    { induction l as [|o l IH]; intros Hl; [constructor|]. cbn [map].
      constructor; [|apply IH; intros o' Ho'; apply Hl; right; exact Ho'].
      cbn [r_meta r_vals]. specialize (Hl o (or_introl eq_refl)).
      split; [reflexivity|]. split; [apply map_length|]. rewrite C. split.
      - intros t v Hi. apply in_map_iff. exists t. split; [|apply TI; eauto].
        f_equal. apply value_at_some; auto.
      - intros t v Hi. apply in_map_iff in Hi as (t' & Et & Hi). injection Et as -> <-.
        destruct (in_dec Z.eq_dec t (map fst (o_points env o))) as [Ht|Ht].
        + left. apply in_map_iff in Ht as ([a v] & Ea & Ht). cbn in Ea. subst a.
          rewrite (value_at_some env _ t v); auto.
        + right. split; [apply value_at_none, Ht|]. intros w Hw. apply Ht. apply in_map_iff. now exists (t, w). }
    apply (G out). auto.
Qed.

Lemma outputs_named (env : Env) m s o : In o (v_outputs env (variant env m) s) -> In (fst o) (output_names m).
Proof. destruct m; cbn; intuition (subst; cbn; tauto). Qed.

(** Run the returned table again, with the same model or another one with the
    same parameters: if every time point of the input has a value in some
    scenario, and [driver_var] does not match an output, the result is the same. *)
Theorem c54_running_again : forall (env : Env) parse_unit m (s : state env m) sc dv rows s' out,
  StronglySorted Z.lt (s_times env sc) ->
  Filtered (world_row env dv) (s_rows env sc) rows ->
  (forall vu, In vu (output_names m) -> ~ Matches dv (fst vu)) ->
  (forall t, In t (s_times env sc) ->
     exists r v, In r rows /\ In (t, v) (combine (s_times env sc) (r_vals env r)) /\ nisnan env v = false) ->
  run_scn env parse_unit m sc dv s = (s', Ok out) ->
  s_times env (result_table env out) = s_times env sc /\
  run_scn env parse_unit m (result_table env out) dv s = (s', Ok out) /\
  (reachable env parse_unit m s -> forall s2, reachable env parse_unit m s2 -> same_but_delta_t env m s2 s ->
     snd (run_scn env parse_unit m (result_table env out) dv s2) = Ok out).
Proof.
  intros env pu m s sc dv rows s' out St F Nm Cov E. apply filtered_selected in F. subst rows.
  destruct (scenarios_again env pu (variant env m) (mPar_nodup env m) sc dv s s' out St) as [A B]; auto.
  - intros s0 o Ho. destruct (glob dv (fst (fst o))) eqn:G; [|reflexivity].
    exfalso. apply glob_spec in G. eapply Nm; [eapply outputs_named, Ho|exact G].
  - intros t Ht. destruct (Cov t Ht) as (r & v & Hr & Hi & Hn). exists r. split; [exact Hr|].
    apply in_map_iff. exists (t, v). split; [reflexivity|]. unfold drop_nan. apply filter_In. split; [exact Hi|].
    cbn [snd]. now rewrite Hn.
  - split; [exact A|]. split; [exact B|]. intros H s2 H2 P.
    rewrite (c32_history_irrelevant env pu m s2 s (result_table env out) dv H2 H P).
    unfold run_scn. rewrite B. reflexivity.
Qed.

(** A table with two scenarios, one of them with a gap. *)
Example c54_case :
  StronglySorted Z.lt (s_times demo demo_scm) /\
  (forall vu, In vu (output_names Mtl) -> ~ Matches "Effective*" (fst vu)) /\
  (exists rows, Filtered (world_row demo "Effective*") (s_rows demo demo_scm) rows /\
    forall t, In t (s_times demo demo_scm) -> exists r v, In r rows /\
      In (t, v) (combine (s_times demo demo_scm) (r_vals demo r)) /\ nisnan demo v = false) /\
  (exists s' out, run_scn demo demo_parse Mtl demo_scm "Effective*" demo_tl = (s', Ok out)).
Proof.
  split; [repeat constructor; cbn; lia|]. split.
  { intros vu H K. apply glob_spec in K. cbn in H. destruct H as [<-|[<-|[<-|[]]]]; discriminate K. }
  split.
  - exists (selected demo "Effective*" demo_scm). split; [apply filtered_selected; reflexivity|].
    intros t Ht. exists (demo_row "Effective Radiative Forcing" "World" "a" "x" [Some 0; Some 1; Some 2]%Q).
    cbn in Ht. destruct Ht as [<-|[<-|[<-|[]]]].
    + exists (Some 0%Q). split; [left; reflexivity|]. split; [left; reflexivity|reflexivity].
    + exists (Some 1%Q). split; [left; reflexivity|]. split; [right; left; reflexivity|reflexivity].
    + exists (Some 2%Q). split; [left; reflexivity|]. split; [right; right; left; reflexivity|reflexivity].
  - assert (K : match snd (run_scn demo demo_parse Mtl demo_scm "Effective*" demo_tl) with Ok _ => true | Err _ => false end = true)
      by reflexivity.
    destruct (run_scn demo demo_parse Mtl demo_scm "Effective*" demo_tl) as [s' [out|]]; [eauto|discriminate].
Qed.

(** If a year is missing in all scenarios it is not in the returned table, and
    the returned table cannot be run. *)
Definition gap_scm : Scm demo :=
  mkScm demo demo_times [demo_row "Effective Radiative Forcing" "World" "a" "x" [Some 0; None; Some 2]%Q].
Example c54_gap :
  match snd (run_scn demo demo_parse Mtl gap_scm "Effective*" demo_tl) with
  | Ok out => s_times demo (result_table demo out) = [946684800; 1009843200]%Z /\
      snd (run_scn demo demo_parse Mtl (result_table demo out) "Effective*" demo_tl) = Err NotImplementedError
  | Err _ => False
  end.
Proof.
  assert (K : match snd (run_scn demo demo_parse Mtl gap_scm "Effective*" demo_tl) with
    | Ok out => match s_times demo (result_table demo out) with [a; b] => Z.eqb a 946684800 && Z.eqb b 1009843200 | _ => false end &&
        match snd (run_scn demo demo_parse Mtl (result_table demo out) "Effective*" demo_tl) with Err NotImplementedError => true | _ => false end
    | Err _ => false end = true) by reflexivity.
  destruct (snd (run_scn demo demo_parse Mtl gap_scm "Effective*" demo_tl)) as [out|]; [|discriminate].
  apply andb_true_iff in K as [K1 K2]. split.
  - destruct (s_times demo (result_table demo out)) as [|a [|b [|]]]; try discriminate.
    apply andb_true_iff in K1 as [K1 K3]. apply Z.eqb_eq in K1. apply Z.eqb_eq in K3. now subst.
  - destruct (snd (run_scn demo demo_parse Mtl (result_table demo out) "Effective*" demo_tl)) as [|[]]; congruence.
Qed.
