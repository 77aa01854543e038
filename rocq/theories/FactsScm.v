(** Properties C32-C37, C42, C43: scenario tables. *)
From Coq Require Import List String Ascii QArith ZArith Bool Arith Lia.
From Verif Require Import Arith Pint Base TwoLayer Impulse Scm Api Spec Demo
  GenTL GenTLHist GenIR GenIRHist GenScm GenMeta GenRun GenRunInst GenLayout GenModel.
Import ListNotations.
Local Open Scope list_scope.

Lemma filtered_selected (env : Env) dv sc rows :
  Filtered (world_row env dv) (s_rows env sc) rows <-> rows = selected env dv sc.
Proof.
  unfold selected. generalize (s_rows env sc). intros l. split.
  - induction 1 as [|x l l' H F IH|x l l' H F IH]; cbn; [reflexivity| |].
    + apply selected_iff in H. rewrite H, IH. reflexivity.
    + destruct (row_selected env dv x) eqn:E; [|exact IH]. apply selected_iff in E. contradiction.
  - intros ->. induction l as [|x l IH]; cbn; [constructor|].
    destruct (row_selected env dv x) eqn:E.
    + constructor; [apply selected_iff, E|exact IH].
    + constructor; [|exact IH]. intros H. apply selected_iff in H. congruence.
Qed.

(** ** C32 *)
Theorem c32_scenarios_are_separate_runs : forall (env : Env) parse_unit m (s : state env m) sc dv rows s' out,
  table env sc -> refl_num env -> reachable env parse_unit m s ->
  Filtered (world_row env dv) (s_rows env sc) rows ->
  run_scn env parse_unit m sc dv s = (s', Ok out) ->
  exists ts s1 blocks,
    chosen_timestep env (s_times env sc) ts /\
    v_set_delta_t env (variant env m) (PQ ts) s = (s1, Ok tt) /\
    out = List.concat blocks /\
    Forall2i (fun i r b => scenario_rows env parse_unit (variant env m) s s1 i (s_times env sc) r b) rows blocks.
Proof.
  intros env pu m s sc dv rows s' out T Hr H F E. apply filtered_selected in F. subst rows.
  destruct (layout env pu (variant env m) (mRel env m) (mRel_drive env m) (mRel_after env m)
    (mOut_len env m) (mOut_vars env m) (mPar_nodup env m) sc dv s s' out T Hr) as (ts & s1 & bs & A & B & C & L & D).
  - intros ts s1 K. eapply mRel_dt; [|exact K]. eapply mcoh_reach, H.
  - exact E.
  - exists ts, s1, bs. repeat split; auto.
Qed.

(** The block of each scenario is what [run_scenarios] gives for that scenario
    alone (there it has number 0): other scenarios and their order do not matter. *)
Theorem c32_each_scenario_alone : forall (env : Env) parse_unit m (s : state env m) sc dv rows s' out,
  table env sc -> refl_num env -> reachable env parse_unit m s ->
  Filtered (world_row env dv) (s_rows env sc) rows ->
  run_scn env parse_unit m sc dv s = (s', Ok out) ->
  exists blocks, out = List.concat blocks /\
    Forall2i (fun i r b =>
      snd (run_scn env parse_unit m (mkScm env (s_times env sc) [r]) dv s) = Ok (map (renumber env 0) b)) rows blocks.
Proof.
  intros env pu m s sc dv rows s' out T Hr H F E. apply filtered_selected in F. subst rows.
  destruct (each_alone env pu (variant env m) (mRel env m) (mRel_drive env m) (mRel_after env m)
    (mOut_len env m) (mOut_vars env m) sc dv s s' out T Hr) as (bs & A & L & D).
  - intros ts s1 K. eapply mRel_dt; [|exact K]. eapply mcoh_reach, H.
  - exact E.
  - exists bs. repeat split; auto.
Qed.

Lemma hist_coh (env : Env) pu m (s s' : state env m) sc dv :
  mcoh env m s -> mcoh env m s' -> same_but_delta_t env m s s' ->
  snd (run_scn env pu m sc dv s) = snd (run_scn env pu m sc dv s').
Proof.
  intros H H' P. unfold run_scn.
  destruct (selected env dv sc) as [|r0 l0] eqn:Es.
  { rewrite !run_scenarios_eq, Es. reflexivity. }
  destruct (select_timestep env (s_times env sc)) as [ts|e] eqn:Et.
  2:{ rewrite !run_scenarios_eq, Es, Et. reflexivity. }
  destruct (same_dim_dec env (units ts) (mdt_unit m)) as [D|D].
  - destruct (mset_dt_ok env m s ts D) as (s1 & E1 & G1 & O1 & C1).
    destruct (mset_dt_ok env m s' ts D) as (s1' & E1' & G1' & O1' & C1').
    eapply (indep env pu (variant env m) (mRel env m) (mRel_drive env m) (mRel_after env m)).
    + rewrite Es. discriminate.
    + apply chosen_select, Et.
    + apply msave_same, P.
    + exact E1.
    + exact E1'.
    + apply mRel_refl; auto.
    + apply mRel_refl; auto.
    + apply mRel_intro; auto; [congruence|].
      eapply sbd_trans; [exact O1|]. eapply sbd_trans; [exact P|]. apply sbd_sym, O1'.
  - rewrite !run_scenarios_eq, Es, Et, !mset_dt_fail by exact D. reflexivity.
Qed.

(** Two objects with the same parameters, apart from [delta_t], and any two
    histories: same result. *)
Theorem c32_history_irrelevant : forall (env : Env) parse_unit m (s s' : state env m) sc dv,
  reachable env parse_unit m s -> reachable env parse_unit m s' -> same_but_delta_t env m s s' ->
  snd (run_scn env parse_unit m sc dv s) = snd (run_scn env parse_unit m sc dv s').
Proof.
  intros env pu m s s' sc dv H H' P. apply mcoh_reach in H. apply mcoh_reach in H'. apply hist_coh; assumption.
Qed.
Lemma collect_all {A} (l : list (Res (list A))) :
  (forall i r, nth_error l i = Some r -> exists x, r = Ok x) -> exists out, collect l = Ok out.
Proof.
  induction l as [|r l IH]; intros H; [exists []; reflexivity|].
  destruct (H 0%nat r eq_refl) as [x ->]. destruct IH as [o Ho].
  { intros i r' Hi. exact (H (S i) r' Hi). }
  cbn. rewrite Ho. cbn. eauto.
Qed.

(** [run_scenarios] succeeds exactly when there is something to run, no two
    scenarios coincide, and every scenario alone succeeds. *)
Theorem c32_success_iff_each_succeeds : forall (env : Env) parse_unit m (s : state env m) sc dv rows ts,
  table env sc -> refl_num env -> time_units env -> reachable env parse_unit m s ->
  chosen_timestep env (s_times env sc) ts ->
  Filtered (world_row env dv) (s_rows env sc) rows ->
  ((exists out, snd (run_scn env parse_unit m sc dv s) = Ok out) <->
   rows <> [] /\
   (forall i j r r', (i < j)%nat -> nth_error rows i = Some r -> nth_error rows j = Some r' ->
      ~ same_scenario env (variant env m) s r r') /\
   (forall r, In r rows -> exists out,
      snd (run_scn env parse_unit m (mkScm env (s_times env sc) [r]) dv s) = Ok out)).
Proof.
  intros env pu m s sc dv rows ts T Hr TU H Hts F. apply filtered_selected in F. subst rows.
  pose proof (mcoh_reach env pu m s H) as C.
  destruct (mset_dt_ok env m s ts (chosen_dim env m _ ts TU Hts)) as (s1 & E1 & G1 & O1 & C1).
  assert (R1 : mRel env m s1 s1) by (apply mRel_refl; auto).
  assert (A : forall r, In r (selected env dv sc) ->
     snd (run_scn env pu m (mkScm env (s_times env sc) [r]) dv s) =
     scenario_result env pu (variant env m) 0 (s_times env sc)
       (mkRow env (annotate env (variant env m) (save_paras_meta env (variant env m) s) (r_meta env r)) (r_vals env r)) s1).
  { intros r Hi. apply selected_world in Hi as [Hi Hw].
    exact (one_row_eq env pu (variant env m) (mRel env m) (mRel_drive env m) (mRel_after env m)
      (mOut_len env m) (mOut_vars env m) (s_times env sc) r dv s ts s1 Hr (proj1 T r Hi) Hw Hts E1 R1). }
  split.
  - intros [out E]. destruct (run_scn env pu m sc dv s) as [s' res] eqn:Er. cbn [snd] in E. subst res.
    destruct (run_ok_inv env pu (variant env m) sc dv s s' out Er) as (ts' & s1' & _ & _ & Hne & Hdup).
    split; [exact Hne|]. split.
    + intros i j r r' Hij Hi Hj HS.
      assert (has_dup env (map (r_meta env) (driver_rows env (variant env m) (save_paras_meta env (variant env m) s) dv sc)) = true).
      { apply same_scenario_dup; eauto 10 using mPar_nodup. }
      congruence.
    + intros r Hi.
      destruct (c32_each_scenario_alone env pu m s sc dv (selected env dv sc) s' out T Hr H
        (proj2 (filtered_selected env dv sc _) eq_refl) Er) as (bs & _ & L & K).
      apply In_nth_error in Hi as (i & Hi). destruct (nth_error bs i) as [b|] eqn:Eb.
      * eexists. eapply K; eauto.
      * apply nth_error_None in Eb. 
        assert (i < List.length (selected env dv sc))%nat by (apply nth_error_Some; congruence). lia.
  - intros (Hne & Hd & Ha).
    destruct (has_dup env (map (r_meta env) (driver_rows env (variant env m) (save_paras_meta env (variant env m) s) dv sc))) eqn:Eh.
    { apply same_scenario_dup in Eh as (i & j & r & r' & Hij & Hi & Hj & HS); auto using mPar_nodup.
      destruct (Hd i j r r' Hij Hi Hj HS). }
    pose proof (run_scenarios_ok env pu (variant env m) (mRel env m) (mRel_drive env m) (mRel_after env m)
      (mOut_len env m) (mOut_vars env m) sc dv s ts s1 T Hr Hne (proj2 (chosen_select env _ ts) Hts) E1 R1 Eh) as Q.
    assert (G : forall l, snd (run_scn env pu m sc dv s) = collect l -> (exists out, collect l = Ok out) ->
              exists out, snd (run_scn env pu m sc dv s) = Ok out) by (intros l -> K; exact K).
    apply (G _ Q). clear G Q.
    apply collect_all. intros i x Hx. rewrite mapi_nth in Hx. unfold driver_rows in Hx. rewrite nth_error_map in Hx.
    destruct (nth_error (selected env dv sc) i) as [r|] eqn:Er; [|discriminate]. cbn in Hx. injection Hx as <-.
    destruct (Ha r (nth_error_In _ _ Er)) as [o Ho]. rewrite A in Ho by (eapply nth_error_In, Er).
    eexists. eapply scenario_result_renumber, Ho.
Qed.

(** ** C33 *)
(** The [World] rows, in input order, and only they, are run: the [i]-th block
    starts with the [i]-th such row. *)
Theorem c33_exactly_the_world_rows : forall (env : Env) parse_unit m (s : state env m) sc dv rows s' out,
  table env sc -> refl_num env -> reachable env parse_unit m s ->
  Filtered (world_row env dv) (s_rows env sc) rows ->
  run_scn env parse_unit m sc dv s = (s', Ok out) ->
  exists blocks, out = List.concat blocks /\
    Forall2i (fun i r b => exists d outs, b = d :: outs /\
      o_points env d = drop_nan env (s_times env sc) (r_vals env r) /\
      mget env (o_meta env d) (KName "run_idx") = Some (MI env i) /\
      mget env (o_meta env d) (KName "variable") = mget env (r_meta env r) (KName "variable") /\
      mget env (o_meta env d) (KName "region") = Some (MS env "World")) rows blocks.
Proof.
  intros env pu m s sc dv rows s' out T Hr H F E.
  destruct (c32_scenarios_are_separate_runs env pu m s sc dv rows s' out T Hr H F E)
    as (ts & s1 & bs & _ & _ & -> & L & K).
  exists bs. split; [reflexivity|]. split; [exact L|]. intros i r b Hi Hb.
  destruct (K i r b Hi Hb) as (us & u & sD & d & outs & _ & _ & _ & -> & P & M & _).
  exists d, outs. split; [reflexivity|]. split; [exact P|]. destruct M as (M1 & _ & _ & _ & M2).
  assert (N : forall a, a <> "climate_model"%string -> ~ overwritten env (variant env m) s (KName a))
    by (intros a; apply not_overwritten_name).
  split; [exact M1|]. split.
  - apply M2; [discriminate|apply N; discriminate|left; reflexivity].
  - rewrite M2; [|discriminate|apply N; discriminate|left; reflexivity].
    apply filtered_selected in F. subst rows. apply nth_error_In, selected_world in Hi.
    destruct Hi as (_ & v & _ & W & _). exact W.
Qed.

Theorem c33_name_without_star_is_literal : forall (env : Env) dv (r : Row env),
  star_free dv ->
  (world_row env dv r <-> mget env (r_meta env r) (KName "variable") = Some (MS env dv) /\
                          mget env (r_meta env r) (KName "region") = Some (MS env "World")).
Proof.
  intros env dv r H. unfold world_row. split.
  - intros (v & A & B & C). apply matches_literal in C; [|exact H]. subst. auto.
  - intros [A B]. exists dv. split; [exact A|]. split; [exact B|]. apply matches_literal; auto.
Qed.

Theorem c33_nothing_to_run : forall (env : Env) parse_unit m (s : state env m) sc dv,
  (forall r, In r (s_rows env sc) -> ~ world_row env dv r) ->
  run_scn env parse_unit m sc dv s = (s, Err ValueError).
Proof. intros env pu m s sc dv H. exact (run_none env pu (variant env m) sc dv s H). Qed.

(** ** C34 *)
Lemma parameters_saved (env : Env) m (s : state env m) : v_save_paras env (variant env m) s = parameters env m s.
Proof. destruct m; reflexivity. Qed.
Lemma results_outputs (env : Env) m (s : state env m) : v_outputs env (variant env m) s = results env m s.
Proof.
  destruct m; [reflexivity|]. cbn. unfold ir_outputs. do 2 f_equal. f_equal. f_equal.
  generalize (ir_temp1 env s), (ir_temp2 env s). intros l. induction l as [|x l IH]; intros [|y l']; cbn; try reflexivity.
  f_equal. apply IH.
Qed.

(** Names and units of the rows of a block: the driver row keeps its own. *)
Theorem c34_output_rows : forall (env : Env) parse_unit m (s : state env m) sc dv rows s' out,
  table env sc -> refl_num env -> reachable env parse_unit m s ->
  Filtered (world_row env dv) (s_rows env sc) rows ->
  run_scn env parse_unit m sc dv s = (s', Ok out) ->
  exists blocks, out = List.concat blocks /\
    Forall2i (fun i r b =>
      let col (k : string) (o : OutRow env) := mget env (o_meta env o) (KName k) in
      map (fun o => (col "variable"%string o, col "unit"%string o)) b =
        (mget env (r_meta env r) (KName "variable"), mget env (r_meta env r) (KName "unit")) ::
        map (fun vu => (Some (MS env (fst vu)), Some (MS env (snd vu))))
          (output_names m) /\
      Forall (fun o =>
        map fst (o_points env o) = map fst (drop_nan env (s_times env sc) (r_vals env r)) /\
        col "run_idx"%string o = Some (MI env i) /\
        col "climate_model"%string o =
          Some (MS env match m with Mtl => "two_layer" | Mir => "two_timescale_impulse_response" end) /\
        (forall n q, In (n, q) (parameters env m s) ->
           mget env (o_meta env o) (KParam n (units q)) = Some (MN env (mag q))) /\
        (forall k, ~ In k ["variable"; "unit"; "run_idx"; "climate_model"]%string ->
           col k o = mget env (r_meta env r) (KName k)) /\
        (forall n u, (forall n' q, In (n', q) (parameters env m s) ->
                        key_eqb (KParam n' (units q)) (KParam n u) = false) ->
           mget env (o_meta env o) (KParam n u) = mget env (r_meta env r) (KParam n u))) b /\
      match b with
      | d :: _ => o_points env d = drop_nan env (s_times env sc) (r_vals env r)
      | [] => False
      end) rows blocks.
Proof.
  intros env pu m s sc dv rows s' out T Hr H F E.
  rewrite <- (parameters_saved env m s).
  destruct (c32_scenarios_are_separate_runs env pu m s sc dv rows s' out T Hr H F E)
    as (ts & s1 & bs & _ & _ & -> & L & K).
  exists bs. split; [reflexivity|]. split; [exact L|]. intros i r b Hi Hb. cbv zeta.
  destruct (K i r b Hi Hb) as (us & u & sD & d & outs & _ & _ & _ & -> & P & M & FA).
  assert (N : forall a, a <> "climate_model"%string -> ~ overwritten env (variant env m) s (KName a))
    by (intros a; apply not_overwritten_name).
  assert (G : forall o vu, out_meta_ok env (variant env m) s i (r_meta env r) (o_meta env o) vu ->
    mget env (o_meta env o) (KName "run_idx") = Some (MI env i) /\
    mget env (o_meta env o) (KName "climate_model") =
      Some (MS env match m with Mtl => "two_layer" | Mir => "two_timescale_impulse_response" end) /\
    (forall n q, In (n, q) (v_save_paras env (variant env m) s) ->
       mget env (o_meta env o) (KParam n (units q)) = Some (MN env (mag q))) /\
    (forall k, ~ In k ["variable"; "unit"; "run_idx"; "climate_model"]%string ->
       mget env (o_meta env o) (KName k) = mget env (r_meta env r) (KName k)) /\
    (forall n u, (forall n' q, In (n', q) (v_save_paras env (variant env m) s) ->
                        key_eqb (KParam n' (units q)) (KParam n u) = false) ->
           mget env (o_meta env o) (KParam n u) = mget env (r_meta env r) (KParam n u))).
  { intros o vu (M1 & M2 & M3 & M4 & M5). split; [exact M1|]. split; [rewrite M2; destruct m; reflexivity|].
    split; [exact M3|]. split.
    - intros k Hk. cbn in Hk. apply M5.
      + intros Q. injection Q as ->. tauto.
      + apply N. intros ->. tauto.
      + right. split; intros Q; injection Q as ->; tauto.
    - intros n u0 Hn. apply M5; [discriminate| |right; split; discriminate].
      intros [Q|(n' & q & Hq & Q)]; [discriminate|]. rewrite (Hn n' q Hq) in Q. discriminate. }
  split; [|split; [|exact P]].
  - cbn [map]. f_equal.
    + destruct M as (_ & _ & _ & _ & M5). f_equal; apply M5; try discriminate; auto; apply N; discriminate.
    + assert (Q : map (fun o => (mget env (o_meta env o) (KName "variable"), mget env (o_meta env o) (KName "unit"))) outs =
                  map (fun vu => (Some (MS env (fst vu)), Some (MS env (snd vu)))) (map fst (v_outputs env (variant env m) sD))).
      { clear -FA. induction FA as [|o v outs vs (A & B & M) FA IH]; [reflexivity|]. cbn [map].
        f_equal; [|exact IH]. destruct M as (_ & _ & _ & M4 & _). destruct v as [[v u] x]. cbn [fst] in *.
        destruct (M4 v u eq_refl) as [-> ->]. reflexivity. }
      rewrite Q. destruct m; reflexivity.
  - constructor.
    + split; [rewrite P; reflexivity|]. exact (G d None M).
    + clear -FA G. induction FA as [|o v outs vs (A & B & M) FA IH]; constructor; [|exact IH].
      split; [|exact (G o _ M)]. rewrite A.
      assert (Z : forall (X Y : Type) (l : list X) (l' : list Y), List.length l' = List.length l -> map fst (combine l l') = l).
      { intros X Y l; induction l as [|x l IHl]; intros [|y l'] HL; try discriminate; [reflexivity|].
        cbn. f_equal. apply IHl. injection HL; auto. }
      apply Z. rewrite map_length. exact B.
Qed.

(** The rows after the driver's hold what the model has after being driven by
    that scenario alone, each under its own name and unit. *)
Theorem c34_row_values : forall (env : Env) parse_unit m (s : state env m) sc dv rows s' out,
  table env sc -> refl_num env -> reachable env parse_unit m s ->
  Filtered (world_row env dv) (s_rows env sc) rows ->
  run_scn env parse_unit m sc dv s = (s', Ok out) ->
  exists ts s1 blocks, out = List.concat blocks /\
    chosen_timestep env (s_times env sc) ts /\
    v_set_delta_t env (variant env m) (PQ ts) s = (s1, Ok tt) /\
    Forall2i (fun i r b => exists us u sD d outs,
      mget env (r_meta env r) (KName "unit") = Some (MS env us) /\ parse_unit us = Some u /\
      v_drive env (variant env m) (row_driver env (s_times env sc) r u) s1 = (sD, Ok tt) /\
      b = d :: outs /\
      map (fun o => (mget env (o_meta env o) (KName "variable"), mget env (o_meta env o) (KName "unit"), o_points env o)) outs =
      map (fun vux => (Some (MS env (fst (fst vux))), Some (MS env (snd (fst vux))),
                       combine (map fst (drop_nan env (s_times env sc) (r_vals env r))) (snd vux))) (results env m sD))
      rows blocks.
Proof.
  intros env pu m s sc dv rows s' out T Hr H F E.
  destruct (c32_scenarios_are_separate_runs env pu m s sc dv rows s' out T Hr H F E)
    as (ts & s1 & bs & A & B & -> & L & K).
  exists ts, s1, bs. split; [reflexivity|]. split; [exact A|]. split; [exact B|]. split; [exact L|]. intros i r b Hi Hb.
  destruct (K i r b Hi Hb) as (us & u & sD & d & outs & U1 & U2 & D & -> & P & M & FA).
  exists us, u, sD, d, outs. repeat (split; [assumption || reflexivity|]).
  rewrite <- results_outputs. clear -FA. induction FA as [|o v outs vs (A & B & M) FA IH]; [reflexivity|]. cbn [map].
  f_equal; [|exact IH]. destruct M as (_ & _ & _ & M4 & _). destruct v as [[v u] x]. cbn [fst snd] in *.
  destruct (M4 v u eq_refl) as [-> ->]. now rewrite A.
Qed.

(** ** C35 *)
Theorem c35_timestep_choice : forall (env : Env) parse_unit m (s : state env m) sc dv,
  time_units env -> (exists r, In r (s_rows env sc) /\ world_row env dv r) ->
  (yearly (s_times env sc) ->
     delta_t_of env m (fst (run_scn env parse_unit m sc dv s)) = one_year env) /\
  (~ yearly (s_times env sc) -> monthly (s_times env sc) ->
     delta_t_of env m (fst (run_scn env parse_unit m sc dv s)) = one_month env) /\
  (~ yearly (s_times env sc) -> ~ monthly (s_times env sc) ->
     run_scn env parse_unit m sc dv s = (s, Err NotImplementedError)).
Proof.
  intros env pu m s sc dv TU Hw.
  assert (A : forall ts, chosen_timestep env (s_times env sc) ts ->
     delta_t_of env m (fst (run_scn env pu m sc dv s)) = ts).
  { intros ts Hts. apply select_nonempty in Hw.
    destruct (mset_dt_ok env m s ts (chosen_dim env m _ ts TU Hts)) as (s1 & E1 & G1 & O1 & C1).
    assert (Q : forall x, fst (run_scenarios env pu (variant env m) sc dv s) = x -> delta_t_of env m x = ts ->
      delta_t_of env m (fst (run_scn env pu m sc dv s)) = ts) by (intros x <- K; exact K).
    eapply Q; [reflexivity|]. rewrite run_scenarios_eq.
    destruct (selected env dv sc) as [|r0 l0]; [congruence|]. cbn [List.length Nat.eqb].
    rewrite (proj2 (chosen_select env _ ts) Hts), E1. cbv zeta.
    destruct (has_dup _ _); [exact G1|].
    pose proof (run_rows_keep env pu (variant env m) (fun x => delta_t_of env m x = ts)) as K.
    specialize (K (fun e x Hx => eq_trans (proj2 (keep_set_drivers env m e x)) Hx)
                  (fun x Hx => eq_trans (proj2 (keep_reset env m x)) Hx)
                  (fun x Hx => eq_trans (proj2 (keep_run env m x)) Hx)).
    match goal with |- context [run_rows env pu _ 0 ?t ?rs s1] => specialize (K t rs 0%nat s1 G1);
      destruct (run_rows env pu (variant env m) 0 t rs s1) as [s2 [y|y]] end; [|exact K].
    destruct (has_dup _ _); exact K. }
  split; [|split].
  - intros Y. apply A. left. auto.
  - intros Y M. apply A. right. auto.
  - intros Y M. exact (run_no_timestep env pu (variant env m) sc dv s Hw Y M).
Qed.

(** The calendar: for the year starts [Y] of the Gregorian calendar counted in
    seconds from 1970, [year_of] is the calendar year. *)
Theorem c35_calendar : forall (Y : Z -> Z),
  Y 1970%Z = 0%Z ->
  (forall y, Y (y + 1) - Y y = 86400 * (365 + if leap y then 1 else 0))%Z ->
  forall t y, year_of t = y <-> (Y y <= t < Y (y + 1))%Z.
Proof.
  intros Y H0 HS.
  assert (SS : forall y, (year_start (y + 1) - year_start y = 86400 * (365 + if leap y then 1 else 0))%Z).
  { intros y. unfold year_start. pose proof (days_step y). lia. }
  assert (E1 : forall n : nat, Y (1970 + Z.of_nat n)%Z = year_start (1970 + Z.of_nat n)).
  { induction n as [|n IH]; [rewrite Z.add_0_r, H0; reflexivity|].
    rewrite Nat2Z.inj_succ. unfold Z.succ. rewrite Z.add_assoc.
    pose proof (HS (1970 + Z.of_nat n)%Z). pose proof (SS (1970 + Z.of_nat n)%Z). lia. }
  assert (E2 : forall n : nat, Y (1970 - Z.of_nat n)%Z = year_start (1970 - Z.of_nat n)).
  { induction n as [|n IH]; [rewrite Z.sub_0_r, H0; reflexivity|].
    rewrite Nat2Z.inj_succ. unfold Z.succ.
    replace (1970 - Z.of_nat n)%Z with (1970 - (Z.of_nat n + 1) + 1)%Z in IH by lia.
    pose proof (HS (1970 - (Z.of_nat n + 1))%Z). pose proof (SS (1970 - (Z.of_nat n + 1))%Z). lia. }
  assert (E : forall y, Y y = year_start y).
  { intros y. destruct (Z_le_gt_dec 1970 y) as [H|H].
    - replace y with (1970 + Z.of_nat (Z.to_nat (y - 1970)))%Z by lia. apply E1.
    - replace y with (1970 - Z.of_nat (Z.to_nat (1970 - y)))%Z by lia. apply E2. }
  intros t y. rewrite !E. split.
  - intros <-. apply year_of_spec.
  - apply year_of_unique.
Qed.

(** Real gaps of a yearly axis: strictly between 0 and 731 days. *)
Theorem c35_yearly_gaps : forall times, yearly times ->
  consecutive (fun t t' => 0 < t' - t < 731 * 86400)%Z times.
Proof.
  intros times Hy i t t' Hi Hj. pose proof (Hy i t t' Hi Hj) as H. cbv beta in H.
  pose proof (year_of_spec t) as A. pose proof (year_of_spec t') as B. rewrite H in B.
  assert (S : forall y, (year_start (y + 1) - year_start y = 86400 * (365 + if leap y then 1 else 0))%Z).
  { intros y. unfold year_start. pose proof (days_step y). lia. }
  pose proof (S (year_of t)) as S1. pose proof (S (year_of t + 1)%Z) as S2.
  assert (L : (leap (year_of t) = true -> leap (year_of t + 1) = true -> False)%Z).
  { unfold leap. intros H1 H2. apply orb_true_iff in H1, H2. rewrite !andb_true_iff, !Z.eqb_eq in H1, H2.
    assert ((year_of t) mod 4 = 0)%Z.
    { destruct H1 as [[H1 _]|H1]; [exact H1|]. apply Z.mod_divide in H1; [|lia]. apply Z.mod_divide; [lia|].
      eapply Z.divide_trans; [|exact H1]. exists 100%Z. reflexivity. }
    assert ((year_of t + 1) mod 4 = 0)%Z.
    { destruct H2 as [[H2 _]|H2]; [exact H2|]. apply Z.mod_divide in H2; [|lia]. apply Z.mod_divide; [lia|].
      eapply Z.divide_trans; [|exact H2]. exists 100%Z. reflexivity. }
    pose proof (Z.div_mod (year_of t) 4). pose proof (Z.div_mod (year_of t + 1) 4). lia. }
  destruct (leap (year_of t)) eqn:L1, (leap (year_of t + 1)) eqn:L2; try (exfalso; exact (L eq_refl eq_refl)); clear L; lia.
Qed.

(** Extremes are attained: 31 Dec 2000 to 1 Jan 2001 is one day, 1 Jan 2003 to
    31 Dec 2004 is 730 days, and both axes are run with steps of one year. *)
Theorem c35_one_day_counts_as_a_year : forall (env : Env),
  chosen_timestep env [978220800; 978307200]%Z (one_year env) /\ (978307200 - 978220800 = 86400)%Z /\
  chosen_timestep env [1041379200; 1104451200]%Z (one_year env) /\ (1104451200 - 1041379200 = 730 * 86400)%Z /\
  forall t, chosen_timestep env [t] (one_year env).
Proof.
  intros env.
  split; [apply chosen_select; reflexivity|]. split; [reflexivity|].
  split; [apply chosen_select; reflexivity|]. split; [reflexivity|].
  intros t. apply chosen_select. reflexivity.
Qed.

(** ** C36 *)
Lemma filtered_drop_nan (env : Env) times (vals : list (num env)) pts :
  Filtered (fun p => nisnan env (snd p) = false) (combine times vals) pts <-> pts = drop_nan env times vals.
Proof.
  unfold drop_nan. generalize (combine times vals). intros l. split.
  - induction 1 as [|x l l' H F IH|x l l' H F IH]; cbn; [reflexivity| |].
    + rewrite H, IH. reflexivity.
    + destruct (nisnan env (snd x)); [exact IH|contradiction H; reflexivity].
  - intros ->. induction l as [|x l IH]; cbn; [constructor|].
    destruct (nisnan env (snd x)) eqn:E; cbn.
    + constructor; [congruence|exact IH].
    + constructor; [exact E|exact IH].
Qed.

(** Same outcome for the series with the missing points removed. *)
Theorem c36_missing_points_are_dropped :
  forall (env : Env) parse_unit m (s : state env m) dv times times' r r' ts pts,
  refl_num env -> time_units env -> reachable env parse_unit m s ->
  distinct_keys env (r_meta env r) -> world_row env dv r -> r_meta env r' = r_meta env r ->
  chosen_timestep env times ts -> chosen_timestep env times' ts ->
  Filtered (fun p => nisnan env (snd p) = false) (combine times (r_vals env r)) pts ->
  Filtered (fun p => nisnan env (snd p) = false) (combine times' (r_vals env r')) pts ->
  snd (run_scn env parse_unit m (mkScm env times [r]) dv s) =
  snd (run_scn env parse_unit m (mkScm env times' [r']) dv s).
Proof.
  intros env pu m s dv times times' r r' ts pts Hr TU H Hd Hw Em Ht Ht' F F'.
  apply filtered_drop_nan in F. apply filtered_drop_nan in F'.
  destruct (mset_dt_ok env m s ts (chosen_dim env m _ ts TU Ht)) as (s1 & E1 & G1 & O1 & C1).
  apply mcoh_reach in H.
  refine (gaps_closed env pu (variant env m) (mRel env m) (mRel_drive env m) (mRel_after env m)
      (mOut_len env m) (mOut_vars env m) times times' r r' dv s ts s1 Hr Hd Hw Ht Ht' E1 _ Em _).
  - apply mRel_refl; auto.
  - congruence.
Qed.

Lemma scenario_result_values (env : Env) pu V i times times' r r' s :
  map snd (drop_nan env times (r_vals env r)) = map snd (drop_nan env times' (r_vals env r')) ->
  r_meta env r' = r_meta env r ->
  match scenario_result env pu V i times r s, scenario_result env pu V i times' r' s with
  | Ok o, Ok o' => map (o_meta env) o = map (o_meta env) o' /\
                   map (fun x => map snd (o_points env x)) o = map (fun x => map snd (o_points env x)) o'
  | Err e, Err e' => e = e'
  | _, _ => False
  end.
Proof.
  intros H Em. unfold scenario_result, row_unit. rewrite Em.
  destruct (match mget env (r_meta env r) (KName "unit") with None => _ | _ => _ end) as [u|e]; [|reflexivity].
  cbn [bind].
  assert (E : row_driver env times r u = row_driver env times' r' u).
  { unfold row_driver. f_equal. rewrite <- (map_map snd (fun x => nmul env x (mag u))), H, map_map. reflexivity. }
  rewrite E. destruct (v_drive env V _ s) as [s' [[]|e]]; [|reflexivity].
  unfold package. rewrite Em.
  set (p := drop_nan env times (r_vals env r)) in *. set (p' := drop_nan env times' (r_vals env r')) in *.
  assert (L : List.length p = List.length p') by (rewrite <- (map_length snd p), H; apply map_length).
  assert (Q : match create_tss env (r_meta env r) p (v_outputs env V s'), create_tss env (r_meta env r) p' (v_outputs env V s') with
              | Ok o, Ok o' => map (o_meta env) o = map (o_meta env) o' /\
                   map (fun x => map snd (o_points env x)) o = map (fun x => map snd (o_points env x)) o'
              | Err e, Err e' => e = e'
              | _, _ => False
              end).
  { induction (v_outputs env V s') as [|[[v w] x] os IH]; cbn [create_tss]; [auto|].
    unfold create_ts. rewrite <- L. destruct (Nat.eqb (List.length x) (List.length p)) eqn:El; [|reflexivity].
    apply Nat.eqb_eq in El. cbn [bind].
    destruct (create_tss env (r_meta env r) p os), (create_tss env (r_meta env r) p' os); cbn [bind] in *; try contradiction; auto.
    destruct IH as [I1 I2]. cbn [map o_meta o_points]. split; [congruence|]. rewrite I2. f_equal.
    assert (Z : forall (X Y : Type) (l : list X) (l' : list Y), List.length l' = List.length l -> map snd (combine l l') = l').
    { intros X Y l; induction l as [|x0 l IHl]; intros [|y l'] HL; try discriminate; [reflexivity|].
      cbn. f_equal. apply IHl. injection HL; auto. }
    rewrite !Z by (rewrite map_length; congruence). reflexivity. }
  destruct (create_tss env (r_meta env r) p _) as [o|e], (create_tss env (r_meta env r) p' _) as [o'|e']; cbn [bind];
    try contradiction; [|exact Q].
  destruct Q as [Q1 Q2]. cbn [map o_meta]. rewrite Q1. destruct (has_dup env _); [reflexivity|].
  cbn [map o_meta o_points]. rewrite H. rewrite !map_map. cbn [o_meta o_points].
  split; f_equal; [|exact Q2].
  rewrite <- (map_map (o_meta env) (fun x => mset env x (KName "run_idx") (MI env i)) o).
  rewrite <- (map_map (o_meta env) (fun x => mset env x (KName "run_idx") (MI env i)) o'). rewrite Q1. reflexivity.
Qed.

(** The time that elapses over a gap has no influence on any value: only the
    sequence of present values and the chosen timestep matter. *)
Theorem c36_elapsed_time_is_ignored :
  forall (env : Env) parse_unit m (s : state env m) dv times times' r r' ts pts pts',
  refl_num env -> time_units env -> reachable env parse_unit m s ->
  distinct_keys env (r_meta env r) -> world_row env dv r -> r_meta env r' = r_meta env r ->
  chosen_timestep env times ts -> chosen_timestep env times' ts ->
  Filtered (fun p => nisnan env (snd p) = false) (combine times (r_vals env r)) pts ->
  Filtered (fun p => nisnan env (snd p) = false) (combine times' (r_vals env r')) pts' ->
  map snd pts = map snd pts' ->
  match snd (run_scn env parse_unit m (mkScm env times [r]) dv s),
        snd (run_scn env parse_unit m (mkScm env times' [r']) dv s) with
  | Ok o, Ok o' => map (o_meta env) o = map (o_meta env) o' /\
                   map (fun x => map snd (o_points env x)) o = map (fun x => map snd (o_points env x)) o'
  | Err e, Err e' => e = e'
  | _, _ => False
  end.
Proof.
  intros env pu m s dv times times' r r' ts pts pts' Hr TU H Hd Hw Em Ht Ht' F F' Ev.
  apply filtered_drop_nan in F. apply filtered_drop_nan in F'. subst pts pts'.
  destruct (mset_dt_ok env m s ts (chosen_dim env m _ ts TU Ht)) as (s1 & E1 & G1 & O1 & C1).
  apply mcoh_reach in H. assert (R1 : mRel env m s1 s1) by (apply mRel_refl; auto).
  pose proof (one_row_eq env pu (variant env m) (mRel env m) (mRel_drive env m) (mRel_after env m)
      (mOut_len env m) (mOut_vars env m) times r dv s ts s1 Hr Hd Hw Ht E1 R1) as A.
  assert (Hd' : distinct_keys env (r_meta env r')) by (rewrite Em; exact Hd).
  assert (Hw' : world_row env dv r') by (unfold world_row; rewrite Em; exact Hw).
  pose proof (one_row_eq env pu (variant env m) (mRel env m) (mRel_drive env m) (mRel_after env m)
      (mOut_len env m) (mOut_vars env m) times' r' dv s ts s1 Hr Hd' Hw' Ht' E1 R1) as B.
  unfold one_row in A, B.
  change (snd (run_scn env pu m (mkScm env times [r]) dv s)) with
    (snd (run_scenarios env pu (variant env m) (mkScm env times [r]) dv s)).
  change (snd (run_scn env pu m (mkScm env times' [r']) dv s)) with
    (snd (run_scenarios env pu (variant env m) (mkScm env times' [r']) dv s)).
  rewrite A, B. apply scenario_result_values; cbn [r_vals r_meta]; [exact Ev|]. rewrite Em. reflexivity.
Qed.

(** ** C37 *)
Lemma set_dt_any (env : Env) m v (s : state env m) :
  same_but_delta_t env m (fst (v_set_delta_t env (variant env m) v s)) s /\
  (mcoh env m s -> mcoh env m (fst (v_set_delta_t env (variant env m) v s))).
Proof.
  destruct v as [q|].
  - destruct (same_dim_dec env (units q) (mdt_unit m)) as [D|D].
    + destruct (mset_dt_ok env m s q D) as (s1 & E1 & G1 & O1 & C1). rewrite E1. auto.
    + rewrite mset_dt_fail by exact D. split; [apply sbd_refl|auto].
  - destruct m; cbn; (split; [intros p _; reflexivity|auto]).
Qed.

(** [delta_t] as set before the call is irrelevant for the result. *)
Theorem c37_earlier_delta_t_irrelevant : forall (env : Env) parse_unit m (s : state env m) v sc dv,
  reachable env parse_unit m s ->
  snd (run_scn env parse_unit m sc dv (fst (v_set_delta_t env (variant env m) v s))) =
  snd (run_scn env parse_unit m sc dv s).
Proof.
  intros env pu m s v sc dv H. apply mcoh_reach in H. destruct (set_dt_any env m v s) as [A B].
  apply hist_coh; auto.
Qed.

(** After the call, whatever its result: [delta_t] is the chosen timestep and
    every other parameter is as before. *)
Theorem c37_delta_t_afterwards : forall (env : Env) parse_unit m (s : state env m) sc dv,
  same_but_delta_t env m (fst (run_scn env parse_unit m sc dv s)) s /\
  (time_units env -> (exists r, In r (s_rows env sc) /\ world_row env dv r) ->
   forall ts, chosen_timestep env (s_times env sc) ts ->
     delta_t_of env m (fst (run_scn env parse_unit m sc dv s)) = ts).
Proof.
  intros env pu m s sc dv. split.
  - apply (run_scenarios_keep env pu (variant env m) (fun x => same_but_delta_t env m x s)).
    + intros v x Hx. eapply sbd_trans; [apply set_dt_any|exact Hx].
    + intros e x Hx. eapply sbd_trans; [apply keep_set_drivers|exact Hx].
    + intros x Hx. eapply sbd_trans; [apply keep_reset|exact Hx].
    + intros x Hx. eapply sbd_trans; [apply keep_run|exact Hx].
    + apply sbd_refl.
  - intros TU Hw ts [[Y ->]|(Y & M & ->)].
    + apply (c35_timestep_choice env pu m s sc dv TU Hw), Y.
    + apply (c35_timestep_choice env pu m s sc dv TU Hw); assumption.
Qed.

(** ** C42 *)
Definition nn {A} (r : Res A) : Prop := r <> Err NonUniqueMetadataError.
Lemma nn_ok {A} (a : A) : nn (Ok a). Proof. discriminate. Qed.
Lemma nn_bind {A B} (r : Res A) (f : A -> Res B) : nn r -> (forall a, nn (f a)) -> nn (bind r f).
Proof. destruct r as [a|e]; cbn; intros H K; [apply K|]. intros Q. apply H. congruence. Qed.

Section NN.
Variable env : Env.
Lemma nn_to_mag (q : Qty env) u : nn (to_mag env q u).
Proof. unfold to_mag, conv. destruct (dim_eqb _ _ _); discriminate. Qed.
Lemma nn_addsub op (p q : Qty env) : nn (addsub env op p q).
Proof.
  unfold addsub. destruct (negb _); [discriminate|]. destruct (units_eqb _ _); [discriminate|].
  destruct (_ && _); apply nn_bind; auto using nn_to_mag, nn_ok.
Qed.
Lemma nn_qadd (p q : Qty env) : nn (qadd env p q). Proof. apply nn_addsub. Qed.
Lemma nn_qsub (p q : Qty env) : nn (qsub env p q). Proof. apply nn_addsub. Qed.
Lemma nn_qdiv (p q : Qty env) : nn (qdiv env p q).
Proof. unfold qdiv. destruct (neqb _ _ _); discriminate. Qed.
Lemma nn_rsub c (q : Qty env) : nn (rsub env c q).
Proof. unfold rsub. apply nn_bind; auto using nn_to_mag, nn_ok. Qed.
Lemma nn_qsqrt (q : Qty env) : nn (qsqrt env q).
Proof. unfold qsqrt. destruct (nneg_p _ _); discriminate. Qed.
Ltac nn_go := repeat first [apply nn_ok | apply nn_qadd | apply nn_qsub | apply nn_qdiv | apply nn_rsub | apply nn_qsqrt
                           | apply nn_bind; [|intro]].
Lemma nn_geoffroy du dl l e h : nn (geoffroy env du dl l e h).
Proof. unfold geoffroy. nn_go. Qed.
Lemma nn_tlp s : nn (ir_get_two_layer_parameters env s).
Proof. unfold ir_get_two_layer_parameters, rdiv. nn_go. Qed.
Lemma nn_status s : nn (step_status env s).
Proof.
  unfold step_status, heat_pars. destruct (neqb _ _ _); [discriminate|]. destruct (neqb _ _ _); [discriminate|].
  apply nn_bind; [apply nn_tlp|]. intros p. destruct (neqb _ _ _); [discriminate|].
  apply nn_bind; [apply nn_geoffroy|]. intros g. nn_go. destruct (units_eqb _ _); discriminate.
Qed.
Lemma nn_drive m (s : state env m) e : nn (snd (v_drive env (variant env m) e s)).
Proof.
  destruct m.
  - change (nn (snd (tl_drive env e s))).
    destruct (tl_drive_cases env s e) as [[_ ->]|[(mm & Hm & _ & ->)|(mm & Hm & _ & ->)]]; discriminate.
  - change (nn (snd (ir_drive env e s))). pose proof (idrive_outcome env s e) as K.
    destruct (snd (ir_drive env e s)) as [x|x]; [discriminate|]. intros Q. injection Q as ->.
    destruct K as [[K _]|[[K _]|[_ K]]]; try discriminate. exact (nn_status s K).
Qed.
End NN.

Lemma names_outputs (env : Env) m (s : state env m) : map fst (v_outputs env (variant env m) s) = output_names m.
Proof. destruct m; reflexivity. Qed.

(** The driver row is named like one of the output rows. *)
Lemma clash_names (env : Env) m (s0 s : state env m) r o :
  In o (v_outputs env (variant env m) s) ->
  clash env (annotate env (variant env m) (save_paras_meta env (variant env m) s0) (r_meta env r)) o <->
  mget env (r_meta env r) (KName "variable") = Some (MS env (fst (fst o))) /\
  mget env (r_meta env r) (KName "unit") = Some (MS env (snd (fst o))).
Proof.
  intros _. unfold clash. rewrite !annotate_not_overwritten by (apply not_overwritten_name; discriminate). reflexivity.
Qed.

Lemma collect_first_err {A} (l : list (Res (list A))) e : collect l = Err e -> In (Err e) l.
Proof.
  induction l as [|r l IH]; cbn; [discriminate|]. destruct r as [x|x]; cbn.
  - destruct (collect l); cbn; [discriminate|]. intros H. right. apply IH. congruence.
  - intros H. left. congruence.
Qed.

(** When exactly the metadata are reported as not unique: two selected rows
    coincide (apart from the columns that are overwritten), or a selected row is
    named like an output.  (In the second case only if no earlier scenario
    fails for another reason, see C43.) *)
Theorem c42_non_unique_only_if : forall (env : Env) parse_unit m (s : state env m) sc dv rows ts,
  table env sc -> refl_num env -> time_units env -> reachable env parse_unit m s ->
  chosen_timestep env (s_times env sc) ts ->
  Filtered (world_row env dv) (s_rows env sc) rows ->
  ((exists i j r r', (i < j)%nat /\ nth_error rows i = Some r /\ nth_error rows j = Some r' /\
      same_scenario env (variant env m) s r r') ->
   snd (run_scn env parse_unit m sc dv s) = Err NonUniqueMetadataError) /\
  (snd (run_scn env parse_unit m sc dv s) = Err NonUniqueMetadataError ->
   (forall r vu, In r rows -> In vu (output_names m) ->
      mget env (r_meta env r) (KName "variable") = Some (MS env (fst vu)) ->
      mget env (r_meta env r) (KName "unit") = Some (MS env (snd vu)) -> False) ->
   exists i j r r', (i < j)%nat /\ nth_error rows i = Some r /\ nth_error rows j = Some r' /\
      same_scenario env (variant env m) s r r').
Proof.
  intros env pu m s sc dv rows ts T Hr TU H Hts F. apply filtered_selected in F. subst rows.
  destruct (mset_dt_ok env m s ts (chosen_dim env m _ ts TU Hts)) as (s1 & E1 & G1 & O1 & C1).
  apply mcoh_reach in H. assert (R1 : mRel env m s1 s1) by (apply mRel_refl; auto). split.
  - intros (i & j & r & r' & Hij & Hi & Hj & HS).
    exact (dup_error env pu (variant env m) (mPar_nodup env m) sc dv s ts s1 i j r r' T Hr Hts E1 Hij Hi Hj HS).
  - intros E Hc.
    apply (same_scenario_dup env (variant env m) (mPar_nodup env m) sc dv s T Hr).
    destruct (has_dup env (map (r_meta env) (driver_rows env (variant env m) (save_paras_meta env (variant env m) s) dv sc))) eqn:Eh;
      [reflexivity|exfalso].
    assert (Hne : selected env dv sc <> []).
    { intros Q. assert (X : snd (run_scenarios env pu (variant env m) sc dv s) = Err ValueError).
      { rewrite run_scenarios_eq, Q. reflexivity. }
      pose proof (eq_trans (eq_sym X) E). discriminate. }
    pose proof (run_scenarios_ok env pu (variant env m) (mRel env m) (mRel_drive env m) (mRel_after env m)
      (mOut_len env m) (mOut_vars env m) sc dv s ts s1 T Hr Hne (proj2 (chosen_select env _ ts) Hts) E1 R1 Eh) as Q.
    pose proof (eq_trans (eq_sym Q) E) as Q'. apply collect_first_err in Q'.
    apply In_nth_error in Q' as (i & Hi). rewrite mapi_nth in Hi. unfold driver_rows in Hi. rewrite nth_error_map in Hi.
    destruct (nth_error (selected env dv sc) i) as [r|] eqn:Er; [|discriminate]. cbn [option_map Nat.add] in Hi.
    injection Hi as Hi.
    pose proof (nth_error_In _ _ Er) as Hin. pose proof Hin as Hin'. apply selected_world in Hin' as [Hin1 (v0 & Hv & _)].
    set (r1 := mkRow env (annotate env (variant env m) (save_paras_meta env (variant env m) s) (r_meta env r)) (r_vals env r)) in *.
    assert (Hd1 : distinct_keys env (r_meta env r1)) by (apply distinct_annotate, (proj1 T), Hin1).
    assert (Hv1 : mget env (r_meta env r1) (KName "variable") = Some (MS env v0)).
    { unfold r1. cbn [r_meta]. rewrite annotate_not_overwritten; [exact Hv|]. apply not_overwritten_name; discriminate. }
    destruct (scenario_result_cases env pu (variant env m) (mOut_len env m) (mOut_vars env m) i (s_times env sc) r1 s1 v0 Hr Hd1 Hv1)
      as [(u & s' & _ & _ & _ & _ & X)|[(u & s' & o & _ & _ & Ho & C & X)|
          [(u & s' & e & _ & Dr & X)|(e & Ru & X)]]].
    + rewrite X in Hi. discriminate.
    + unfold r1 in C. cbn [r_meta] in C. apply (clash_names env m s s' r o Ho) in C as [C2 C3].
      apply (Hc r (fst o) Hin); auto. rewrite <- (names_outputs env m s'). apply in_map, Ho.
    + pose proof (nn_drive env m s1 (row_driver env (s_times env sc) r1 u)) as N. unfold nn in N.
      apply N. pose proof (eq_trans (eq_sym X) Hi) as Y. injection Y as ->.
      exact (f_equal snd Dr).
    + unfold row_unit in Ru. pose proof (eq_trans (eq_sym X) Hi) as Y. injection Y as ->.
      destruct (mget env (r_meta env r1) (KName "unit")) as [[us| |]|]; try discriminate.
      destruct (pu us); discriminate.
Qed.

(** Scenarios that differ in nothing but [climate_model] stop the call. *)
Theorem c42_only_climate_model_differs : forall (env : Env) parse_unit m (s : state env m) sc dv rows ts i j r r',
  table env sc -> refl_num env -> time_units env -> reachable env parse_unit m s ->
  chosen_timestep env (s_times env sc) ts ->
  Filtered (world_row env dv) (s_rows env sc) rows ->
  (i < j)%nat -> nth_error rows i = Some r -> nth_error rows j = Some r' ->
  (forall k, k <> KName "climate_model" -> mrel env (mget env (r_meta env r) k) (mget env (r_meta env r') k)) ->
  snd (run_scn env parse_unit m sc dv s) = Err NonUniqueMetadataError.
Proof.
  intros env pu m s sc dv rows ts i j r r' T Hr TU H Hts F Hij Hi Hj HS.
  apply (c42_non_unique_only_if env pu m s sc dv rows ts T Hr TU H Hts F).
  exists i, j, r, r'. repeat split; auto. intros k Hk. apply HS. intros ->. apply Hk. left. reflexivity.
Qed.

Lemma FOP_In_app {A} (R : A -> A -> Prop) l1 l2 :
  ForallOrdPairs R l1 -> ForallOrdPairs R l2 -> (forall a b, In a l1 -> In b l2 -> R a b) -> ForallOrdPairs R (l1 ++ l2).
Proof.
  induction 1 as [|a l Ha _ IH]; intros H2 H; [exact H2|]. cbn. constructor.
  - rewrite Forall_forall in *. intros x Hx. apply in_app_or in Hx as [Hx|Hx]; auto. apply H; [left; reflexivity|exact Hx].
  - apply IH; auto. intros; apply H; [right|]; assumption.
Qed.

(** A returned table has no two rows with equal metadata. *)
Theorem c42_returned_rows_differ : forall (env : Env) parse_unit m (s : state env m) sc dv s' out,
  table env sc -> refl_num env -> reachable env parse_unit m s ->
  run_scn env parse_unit m sc dv s = (s', Ok out) ->
  ForallOrdPairs (fun o o' => ~ same_meta env (o_meta env o) (o_meta env o')) out.
Proof.
  intros env pu m s sc dv s' out T Hr H E.
  destruct (c34_output_rows env pu m s sc dv (selected env dv sc) s' out T Hr H
    (proj2 (filtered_selected env dv sc _) eq_refl) E) as (bs & -> & L & K).
  destruct (c32_scenarios_are_separate_runs env pu m s sc dv (selected env dv sc) s' (List.concat bs) T Hr H
    (proj2 (filtered_selected env dv sc _) eq_refl) E) as (ts & s1 & _ & Hts & Hdt & _ & _).
  pose proof (mRel_dt env m s ts s1 (mcoh_reach env pu m s H) Hdt) as R1.
  destruct (run_ok_inv env pu (variant env m) sc dv s s' _ E) as (ts' & s1' & Hts' & Hdt' & Hne & Hdup).
  assert (ts' = ts).
  { apply chosen_select in Hts, Hts'. congruence. }
  subst ts'. rewrite Hdt in Hdt'. injection Hdt' as <-.
  pose proof (run_scenarios_ok env pu (variant env m) (mRel env m) (mRel_drive env m) (mRel_after env m)
      (mOut_len env m) (mOut_vars env m) sc dv s ts s1 T Hr Hne (proj2 (chosen_select env _ ts) Hts) Hdt R1 Hdup) as Q.
  pose proof (eq_trans (eq_sym Q) (f_equal snd E)) as Q'. cbn [snd] in Q'.
  apply collect_ok in Q' as (bs' & Eb & Ec). rewrite Ec.
  clear K L Ec Q E.
  assert (RW : forall r, In r (driver_rows env (variant env m) (save_paras_meta env (variant env m) s) dv sc) ->
     distinct_keys env (r_meta env r) /\ exists v0, mget env (r_meta env r) (KName "variable") = Some (MS env v0)).
  { intros r Hi. split; [eapply driver_rows_ok; eauto|].
    destruct (driver_rows_variable env (variant env m) s dv sc r T Hi) as (v & Hv & _). eauto. }
  clear -Eb RW Hr. revert bs' Eb RW. generalize 0%nat.
  generalize (driver_rows env (variant env m) (save_paras_meta env (variant env m) s) dv sc).
  intros rows i bs' Eb RW.
  assert (G : ForallOrdPairs (fun o o' => ~ same_meta env (o_meta env o) (o_meta env o')) (List.concat bs') /\
    (forall o, In o (List.concat bs') -> exists j, (i <= j)%nat /\
     mget env (o_meta env o) (KName "run_idx") = Some (MI env j))); [|exact (proj1 G)].
  revert i bs' Eb RW. induction rows as [|r rows IH]; intros i bs' Eb RW.
  - destruct bs'; [|discriminate]. split; [constructor|intros o []].
  - destruct bs' as [|b bs']; [discriminate|]. cbn [mapi map] in Eb. injection Eb as E1 E2.
    destruct (RW r (or_introl eq_refl)) as (Hd & v0 & Hv).
    destruct (IH (S i) bs' E2 (fun r Hi => RW r (or_intror Hi))) as [IH1 IH2].
    destruct (scenario_result_cases env pu (variant env m) (mOut_len env m) (mOut_vars env m) i (s_times env sc) r s1 v0 Hr Hd Hv)
      as [(u & s' & _ & _ & (u0 & Hu) & Hc & X)|[(u & s' & o & _ & _ & _ & _ & X)|
          [(u & s' & e & _ & _ & X)|(e & _ & X)]]]; rewrite X in E1; try discriminate.
    injection E1 as <-. cbn [List.concat]. split.
    + apply FOP_In_app; [|exact IH1|].
      * pose proof (block_differ env (r_meta env r) (v_outputs env (variant env m) s') v0 u0 Hv Hu (mOut_vars env m s') Hc) as B.
        unfold block. cbn [map].
        assert (DS : forall a b x y, differ env a b ->
          ~ same_meta env (mset env a (KName "run_idx") x) (mset env b (KName "run_idx") y)).
        { intros a b x y D. apply (differ_mset env a b x y) in D. intros S. destruct D as [D|D]; apply D, S. }
        inversion B as [|x l Hx Hl]; subst. rewrite Forall_forall in Hx. constructor.
        -- rewrite Forall_forall. intros o Ho. rewrite map_map in Ho. apply in_map_iff in Ho as (o' & <- & Ho).
           cbn [o_meta out_row]. apply DS, Hx. apply in_map_iff. eauto.
        -- rewrite map_map. apply FOP_map. cbn [o_meta out_row].
           clear -Hl DS. induction (v_outputs env (variant env m) s') as [|o os IHo]; [constructor|].
           cbn [map] in Hl. inversion Hl as [|y l' Hy Hl']; subst. constructor; [|apply IHo, Hl'].
           rewrite Forall_forall in *. intros o' Ho. apply DS, Hy. apply in_map_iff. eauto.
      * intros a b Ha Hb S. apply block_idx in Ha. destruct (IH2 b Hb) as (j & Hj & Hob).
        specialize (S (KName "run_idx")). rewrite Ha, Hob in S. cbn in S. apply Nat.eqb_eq in S. lia.
    + intros o Ho. apply in_app_or in Ho as [Ho|Ho].
      * apply block_idx in Ho. exists i. auto.
      * destruct (IH2 o Ho) as (j & Hj & K). exists j. split; [lia|exact K].
Qed.

(** ** C43 *)
Theorem c43_driver_named_like_an_output : forall (env : Env) parse_unit m (s : state env m) sc dv r vu,
  table env sc -> refl_num env -> reachable env parse_unit m s ->
  In r (s_rows env sc) -> world_row env dv r -> In vu (output_names m) ->
  mget env (r_meta env r) (KName "variable") = Some (MS env (fst vu)) ->
  mget env (r_meta env r) (KName "unit") = Some (MS env (snd vu)) ->
  forall out, snd (run_scn env parse_unit m sc dv s) <> Ok out.
Proof.
  intros env pu m s sc dv r vu T Hr H Hi Hw Hvu Hv Hu out E.
  destruct (run_scn env pu m sc dv s) as [s' res] eqn:Er. cbn [snd] in E. subst res.
  pose proof (c42_returned_rows_differ env pu m s sc dv s' out T Hr H Er) as D.
  assert (Hs : In r (selected env dv sc)) by (apply selected_world; auto).
  destruct (c32_each_scenario_alone env pu m s sc dv (selected env dv sc) s' out T Hr H
        (proj2 (filtered_selected env dv sc _) eq_refl) Er) as (bs & _ & L & K).
  apply In_nth_error in Hs as (i & Hs). destruct (nth_error bs i) as [b|] eqn:Eb.
  2:{ apply nth_error_None in Eb. assert (i < List.length (selected env dv sc))%nat by (apply nth_error_Some; congruence). lia. }
  specialize (K i r b Hs Eb).
  destruct (run_ok_inv env pu (variant env m) sc dv s s' out Er) as (ts & s1 & Hts & Hdt & _ & _).
  pose proof (mRel_dt env m s ts s1 (mcoh_reach env pu m s H) Hdt) as R1.
  pose proof (one_row_eq env pu (variant env m) (mRel env m) (mRel_drive env m) (mRel_after env m)
      (mOut_len env m) (mOut_vars env m) (s_times env sc) r dv s ts s1 Hr (proj1 T r Hi) Hw Hts Hdt R1) as Q.
  pose proof (eq_trans (eq_sym Q) K) as Q'. clear Q K.
  set (r1 := mkRow env (annotate env (variant env m) (save_paras_meta env (variant env m) s) (r_meta env r)) (r_vals env r)) in *.
  assert (Hd1 : distinct_keys env (r_meta env r1)) by (apply distinct_annotate, (proj1 T), Hi).
  assert (Hv1 : mget env (r_meta env r1) (KName "variable") = Some (MS env (fst vu))).
  { unfold r1. cbn [r_meta]. rewrite annotate_not_overwritten; [exact Hv|]. apply not_overwritten_name; discriminate. }
  destruct (scenario_result_cases env pu (variant env m) (mOut_len env m) (mOut_vars env m) 0 (s_times env sc) r1 s1 _ Hr Hd1 Hv1)
      as [(u & s2 & _ & _ & _ & Hc & X)|[(u & s2 & o & _ & _ & Ho & C & X)|
          [(u & s2 & e & _ & Dr & X)|(e & Ru & X)]]]; rewrite X in Q'; try discriminate.
  rewrite <- (names_outputs env m s2) in Hvu. apply in_map_iff in Hvu as (o & <- & Ho).
  apply (Hc o Ho). unfold r1. cbn [r_meta]. apply (clash_names env m s s2 r o Ho). auto.
Qed.

(** The error is the metadata error as soon as the run itself succeeds. *)
Theorem c43_error_is_non_unique_metadata :
  forall (env : Env) parse_unit m (s : state env m) times r dv vu ts s1 us u sD,
  refl_num env -> reachable env parse_unit m s -> distinct_keys env (r_meta env r) ->
  world_row env dv r -> In vu (output_names m) ->
  mget env (r_meta env r) (KName "variable") = Some (MS env (fst vu)) ->
  mget env (r_meta env r) (KName "unit") = Some (MS env (snd vu)) ->
  chosen_timestep env times ts -> v_set_delta_t env (variant env m) (PQ ts) s = (s1, Ok tt) ->
  mget env (r_meta env r) (KName "unit") = Some (MS env us) -> parse_unit us = Some u ->
  v_drive env (variant env m) (row_driver env times r u) s1 = (sD, Ok tt) ->
  snd (run_scn env parse_unit m (mkScm env times [r]) dv s) = Err NonUniqueMetadataError.
Proof.
  intros env pu m s times r dv vu ts s1 us u sD Hr H Hd Hw Hvu Hv Hu Hts Hdt Hus Hpu Hdr.
  pose proof (mRel_dt env m s ts s1 (mcoh_reach env pu m s H) Hdt) as R1.
  pose proof (one_row_eq env pu (variant env m) (mRel env m) (mRel_drive env m) (mRel_after env m)
      (mOut_len env m) (mOut_vars env m) times r dv s ts s1 Hr Hd Hw Hts Hdt R1) as Q.
  etransitivity; [exact Q|]. clear Q.
  set (r1 := mkRow env (annotate env (variant env m) (save_paras_meta env (variant env m) s) (r_meta env r)) (r_vals env r)) in *.
  assert (Hd1 : distinct_keys env (r_meta env r1)) by (apply distinct_annotate, Hd).
  assert (Hv1 : mget env (r_meta env r1) (KName "variable") = Some (MS env (fst vu))).
  { unfold r1. cbn [r_meta]. rewrite annotate_not_overwritten; [exact Hv|]. apply not_overwritten_name; discriminate. }
  assert (Ru : row_unit env pu r1 = Ok u).
  { unfold r1. rewrite row_unit_annotate. unfold row_unit. rewrite Hus, Hpu. reflexivity. }
  destruct (scenario_result_cases env pu (variant env m) (mOut_len env m) (mOut_vars env m) 0 times r1 s1 _ Hr Hd1 Hv1)
      as [(u' & s2 & _ & _ & _ & Hc & X)|[(u' & s2 & o & _ & _ & Ho & C & X)|
          [(u' & s2 & e & Ru' & Dr & X)|(e & Ru' & X)]]].
  - exfalso. rewrite <- (names_outputs env m s2) in Hvu. apply in_map_iff in Hvu as (o & <- & Ho).
    apply (Hc o Ho). unfold r1. cbn [r_meta]. apply (clash_names env m s s2 r o Ho). auto.
  - exact X.
  - exfalso. rewrite Ru in Ru'. injection Ru' as <-.
    pose proof (eq_trans (eq_sym Hdr) Dr). discriminate.
  - congruence.
Qed.

(** ** Concrete cases *)
Lemma demo_refl : refl_num demo.
Proof. intros [x|]; [left; cbn; apply Qeq_bool_iff; reflexivity|right; reflexivity]. Qed.
Lemma demo_time_units : time_units demo.
Proof.
  split; intros k Hk; cbn in Hk; do 4 (destruct k as [|k]; [vm_compute; reflexivity|]); lia.
Qed.
Lemma demo_distinct v g sc c vals : distinct_keys demo (r_meta demo (demo_row v g sc c vals)).
Proof. unfold distinct_keys, mkeys. cbn. repeat constructor. Qed.
Lemma demo_table ts rows :
  (forall r, In r rows -> exists v g sc c vals, r = demo_row v g sc c vals) -> table demo (mkScm demo ts rows).
Proof.
  intros H. split; cbn.
  - intros r Hi. destruct (H r Hi) as (v & g & sc & c & vals & ->). apply demo_distinct.
  - intros r r' Hi Hi'. destruct (H r Hi) as (v & g & sc & c & vals & ->).
    destruct (H r' Hi') as (v' & g' & sc' & c' & vals' & ->). reflexivity.
Qed.
Lemma demo_reach m : reachable demo demo_parse m
  (match m return state demo m with Mtl => demo_tl | Mir => demo_ir end).
Proof.
  destruct m.
  - exists demo_args, demo_tl, []. split; [exact demo_tl_new|reflexivity].
  - exists (ir_defaults demo), demo_ir, []. split; [exact demo_ir_new|reflexivity].
Qed.
Lemma demo_world v sc c vals : star_free v -> world_row demo v (demo_row v "World" sc c vals).
Proof. intros H. apply c33_name_without_star_is_literal; [exact H|split; reflexivity]. Qed.
Lemma demo_sf : star_free "Effective Radiative Forcing".
Proof. cbn. repeat split; intros H; discriminate. Qed.

(** The hypotheses of the C32-C34 theorems on a table with two scenarios, one
    with a gap, and a row of another region. *)
Example c32_scenarios_ex :
  table demo demo_scm /\ refl_num demo /\ time_units demo /\
  chosen_timestep demo (s_times demo demo_scm) (one_year demo) /\
  reachable demo demo_parse Mtl demo_tl /\ reachable demo demo_parse Mir demo_ir /\
  (exists rows, Filtered (world_row demo "Effective Radiative Forcing") (s_rows demo demo_scm) rows /\ List.length rows = 2%nat) /\
  match snd (run_scn demo demo_parse Mtl demo_scm "Effective Radiative Forcing" demo_tl) with
  | Ok out => List.length out = 8%nat | Err _ => False end /\
  match snd (run_scn demo demo_parse Mir demo_scm "Effective*" demo_ir) with
  | Ok out => List.length out = 10%nat | Err _ => False end.
Proof.
  split. { apply demo_table. intros r [<-|[<-|[<-|[]]]]; eexists _, _, _, _, _; reflexivity. }
  split; [exact demo_refl|]. split; [exact demo_time_units|].
  split; [apply chosen_select; vm_compute; reflexivity|].
  split; [exact (demo_reach Mtl)|]. split; [exact (demo_reach Mir)|].
  split. { eexists. split; [apply filtered_selected; reflexivity|vm_compute; reflexivity]. }
  split; vm_compute; reflexivity.
Qed.

Example c33_nothing_ex :
  forall r, In r (s_rows demo demo_scm) -> ~ world_row demo "Emissions" r.
Proof.
  intros r Hi H. apply selected_iff in H. destruct Hi as [<-|[<-|[<-|[]]]]; vm_compute in H; discriminate.
Qed.

Example c35_axes_ex :
  yearly demo_times /\
  (~ yearly [946684800; 949363200; 951868800]%Z /\ monthly [946684800; 949363200; 951868800]%Z) /\
  (~ yearly [946684800; 946771200]%Z /\ ~ monthly [946684800; 946771200]%Z).
Proof.
  rewrite <- !yearly_spec, <- !monthly_spec. vm_compute. repeat split; discriminate.
Qed.

Example c36_gap_ex :
  let dv := "Effective Radiative Forcing"%string in
  let r := demo_row dv "World" "a" "x" [Some 1; None; Some 3] in
  let r' := demo_row dv "World" "a" "x" [Some 1; Some 3; None] in
  world_row demo dv r /\ r_meta demo r' = r_meta demo r /\ distinct_keys demo (r_meta demo r) /\
  chosen_timestep demo demo_times (one_year demo) /\
  (exists pts pts',
     Filtered (fun p => nisnan demo (snd p) = false) (combine demo_times (r_vals demo r)) pts /\
     Filtered (fun p => nisnan demo (snd p) = false) (combine demo_times (r_vals demo r')) pts' /\
     map snd pts = map snd pts' /\ pts <> pts') /\
  match snd (run_scn demo demo_parse Mtl (mkScm demo demo_times [r]) dv demo_tl) with
  | Ok out => List.length out = 4%nat | Err _ => False end.
Proof.
  split; [apply demo_world, demo_sf|]. split; [reflexivity|]. split; [apply demo_distinct|].
  split; [apply chosen_select; vm_compute; reflexivity|]. split.
  - eexists _, _. split; [apply filtered_drop_nan; reflexivity|]. split; [apply filtered_drop_nan; reflexivity|].
    split; [reflexivity|discriminate].
  - vm_compute. reflexivity.
Qed.

Example c37_delta_t_ex :
  let q := tl_delta_t demo (fst (run_scn demo demo_parse Mtl (mkScm demo [946684800; 949363200; 951868800]%Z (s_rows demo demo_scm))
     "Effective Radiative Forcing" demo_tl)) in
  mag q = Some 1 /\ units q = u_month /\ mag (tl_delta_t demo demo_tl) = Some 1 /\ units (tl_delta_t demo demo_tl) = u_yr.
Proof. repeat split; vm_compute; reflexivity. Qed.

(** Two scenarios from different climate models. *)
Example c42_climate_model_ex :
  let dv := "Effective Radiative Forcing"%string in
  let r := demo_row dv "World" "a" "x" [Some 1; Some 2; Some 3] in
  let r' := demo_row dv "World" "a" "y" [Some 4; Some 5; Some 6] in
  let sc := mkScm demo demo_times [r; r'] in
  table demo sc /\ chosen_timestep demo (s_times demo sc) (one_year demo) /\
  Filtered (world_row demo dv) (s_rows demo sc) [r; r'] /\
  (forall k, k <> KName "climate_model" -> mrel demo (mget demo (r_meta demo r) k) (mget demo (r_meta demo r') k)) /\
  match snd (run_scn demo demo_parse Mtl sc dv demo_tl) with Err NonUniqueMetadataError => True | _ => False end.
Proof.
  split. { apply demo_table. intros r [<-|[<-|[]]]; eexists _, _, _, _, _; reflexivity. }
  split; [apply chosen_select; vm_compute; reflexivity|].
  split. { apply filtered_selected. reflexivity. }
  split; [|vm_compute; exact I].
  intros k Hk. cbn [demo_row r_meta].
  repeat (match goal with |- context [mget demo ((?a, ?v) :: ?l) k] =>
    change (mget demo ((a, v) :: l) k) with (if key_eqb a k then Some v else mget demo l k) end).
  destruct (key_eqb (KName "climate_model") k) eqn:E; [destruct (Hk (key_name_eqb _ _ E))|].
  destruct (key_eqb (KName "variable") k); [reflexivity|]. destruct (key_eqb (KName "unit") k); [reflexivity|].
  destruct (key_eqb (KName "region") k); [reflexivity|]. destruct (key_eqb (KName "scenario") k); [reflexivity|].
  exact I.
Qed.

Example c43_heat_uptake_ex :
  let r := demo_row "Heat Uptake" "World" "a" "x" [Some 1; Some 2; Some 3] in
  world_row demo "Heat*" r /\ In ("Heat Uptake", "W/m^2")%string (output_names Mtl) /\
  (let st := v_set_delta_t demo (variant demo Mtl) (PQ (one_year demo)) demo_tl in
   snd st = Ok tt /\
   snd (v_drive demo (variant demo Mtl) (row_driver demo demo_times r (mkQ (env := demo) (Some 1) u_Wm2)) (fst st)) = Ok tt) /\
  match snd (run_scn demo demo_parse Mtl (mkScm demo demo_times [r]) "Heat*" demo_tl) with
  | Err NonUniqueMetadataError => True | _ => False end.
Proof.
  split. { apply selected_iff. vm_compute. reflexivity. }
  split; [right; right; left; reflexivity|]. split; [|vm_compute; exact I].
  split; vm_compute; reflexivity.
Qed.
