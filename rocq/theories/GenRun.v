(** [run_scenarios] of the two models. *)
From Coq Require Import List String Ascii QArith ZArith Bool Arith Lia.
From Verif Require Import Arith Pint Base TwoLayer Impulse Scm Api Spec GenTL GenTLHist GenIR GenIRHist GenScm GenMeta.
Import ListNotations.
Local Open Scope list_scope.

Lemma mapi_length {A B} (f : nat -> A -> B) l : forall i, List.length (mapi f i l) = List.length l.
Proof. induction l; intros i; cbn; auto. Qed.
Lemma mapi_nth {A B} (f : nat -> A -> B) l : forall i k,
  nth_error (mapi f i l) k = option_map (f (i + k)%nat) (nth_error l k).
Proof.
  induction l as [|x l IH]; intros i [|k]; cbn; try reflexivity.
  - rewrite Nat.add_0_r. reflexivity.
  - rewrite IH. do 2 f_equal. lia.
Qed.

(** The result is a list of all blocks, or the first error. *)
Lemma collect_ok {A} (l : list (Res (list A))) out :
  collect l = Ok out -> exists bs, l = map Ok bs /\ out = List.concat bs.
Proof.
  revert out; induction l as [|r l IH]; intros out H.
  - injection H as <-. exists []. auto.
  - cbn in H. destruct r as [x|e]; [|discriminate]. cbn in H.
    destruct (collect l) as [xs|e]; [|discriminate]. injection H as <-.
    destruct (IH xs eq_refl) as (bs & -> & ->). exists (x :: bs). auto.
Qed.
Lemma collect_err {A} (l : list (Res (list A))) e :
  collect l = Err e <-> exists i bs, nth_error l i = Some (Err e) /\ firstn i l = map Ok bs.
Proof.
  split.
  - induction l as [|r l IH]; intros H; [discriminate|].
    cbn in H. destruct r as [x|e'].
    + cbn in H. destruct (collect l) as [xs|e']; [discriminate|]. injection H as ->.
      destruct (IH eq_refl) as (i & bs & H1 & H2). exists (S i), (x :: bs). cbn. rewrite H2. auto.
    + injection H as ->. exists 0%nat, []. auto.
  - intros (i & bs & H1 & H2). revert l bs H1 H2. induction i as [|i IH]; intros l bs H1 H2.
    + destruct l; [discriminate|]. injection H1 as ->. reflexivity.
    + destruct l as [|r l]; [discriminate|]. destruct bs as [|b bs]; [discriminate|].
      cbn in H2. injection H2 as -> H2. cbn. rewrite (IH l bs H1 H2). reflexivity.
Qed.

Section Gen.
Context (env : Env) (parse_unit : string -> option (Qty env)) (V : Variant env).
Notation table := (table env).
Variable Rel : v_state env V -> v_state env V -> Prop.
Hypothesis Rel_drive : forall s s0 e, Rel s s0 ->
  snd (v_drive env V e s) = snd (v_drive env V e s0) /\
  (snd (v_drive env V e s) = Ok tt -> fst (v_drive env V e s) = fst (v_drive env V e s0)).
Hypothesis Rel_after : forall s s0 e, Rel s s0 -> Rel (fst (v_drive env V e s)) s0.
(** A finished run gives as many values as there are drivers. *)
Hypothesis Out_len : forall s e s', v_drive env V e s = (s', Ok tt) ->
  forall o, In o (v_outputs env V s') -> List.length (snd o) = List.length (mags e).
Hypothesis Out_vars : forall s, vars_distinct env (v_outputs env V s).

Theorem run_scenarios_indep sc dv s ts s1 :
  selected env dv sc <> [] ->
  select_timestep env (s_times env sc) = Ok ts ->
  v_set_delta_t env V (PQ ts) s = (s1, Ok tt) -> Rel s1 s1 ->
  let rows := driver_rows env V (save_paras_meta env V s) dv sc in
  snd (run_scenarios env parse_unit V sc dv s) =
  if has_dup env (map (r_meta env) rows) then Err NonUniqueMetadataError else
  do out <- collect (mapi (fun i r => scenario_result env parse_unit V i (s_times env sc) r s1) 0 rows);
  if has_dup env (map (o_meta env) out) then Err NonUniqueMetadataError else Ok out.
Proof.
  intros Hne Hts Hdt HR rows. rewrite run_scenarios_eq.
  destruct (selected env dv sc) as [|r0 rs] eqn:E; [congruence|]. cbn [List.length Nat.eqb].
  rewrite Hts, Hdt. fold rows. destruct (has_dup env (map (r_meta env) rows)); [reflexivity|].
  rewrite <- (run_rows_snd env parse_unit V Rel Rel_drive Rel_after (s_times env sc) rows 0 s1 s1 HR).
  destruct (run_rows env parse_unit V 0 (s_times env sc) rows s1) as [s2 [out|e]]; [|reflexivity].
  cbn [snd bind]. destruct (has_dup _ _); reflexivity.
Qed.

(** ** Metadata of annotated rows *)
Lemma mget_annotate save m k :
  mget env (annotate env V save m) k =
  fold_left (fun acc kv => if key_eqb (fst kv) k then Some (snd kv) else acc) save
    (if key_eqb (KName "climate_model") k then Some (MS env (v_name env V)) else mget env m k).
Proof.
  unfold annotate. rewrite <- (mget_mset env m (KName "climate_model")).
  generalize (mset env m (KName "climate_model") (MS env (v_name env V))).
  induction save as [|[k0 v0] save IH]; intros m0; [reflexivity|].
  cbn [fold_left fst snd]. rewrite IH, mget_mset. reflexivity.
Qed.

Definition is_param (k : Key) : bool := match k with KParam _ _ => true | _ => false end.

(** Columns that are not overwritten. *)
Lemma annotate_other s m k :
  key_eqb (KName "climate_model") k = false -> is_param k = false ->
  mget env (annotate env V (save_paras_meta env V s) m) k = mget env m k.
Proof.
  intros H1 H2. rewrite mget_annotate, H1.
  assert (K : forall kv, In kv (save_paras_meta env V s) -> key_eqb (fst kv) k = false).
  { intros kv Hi. unfold save_paras_meta in Hi. apply in_map_iff in Hi as (p & <- & _).
    cbn. destruct k; [reflexivity|discriminate]. }
  revert K. generalize (save_paras_meta env V s). intros l.
  induction l as [|kv l IH]; intros K; [reflexivity|]. cbn [fold_left].
  rewrite (K kv (or_introl eq_refl)). apply IH. intros kv' Hi. apply K. right; exact Hi.
Qed.
Lemma annotate_climate_model s m :
  mget env (annotate env V (save_paras_meta env V s) m) (KName "climate_model") = Some (MS env (v_name env V)).
Proof.
  rewrite mget_annotate. cbn.
  generalize (MS env (v_name env V)) as x. unfold save_paras_meta.
  induction (v_save_paras env V s) as [|q l IH]; intros x; [reflexivity|]. cbn [map fold_left fst]. apply IH.
Qed.
Lemma annotate_param s m k q :
  NoDup (map fst (v_save_paras env V s)) -> In (k, q) (v_save_paras env V s) ->
  mget env (annotate env V (save_paras_meta env V s) m) (KParam k (units q)) = Some (MN env (mag q)).
Proof.
  intros Hnd Hi. rewrite mget_annotate.
  match goal with |- fold_left _ _ ?x = _ => generalize x end.
  unfold save_paras_meta. induction (v_save_paras env V s) as [|[k0 q0] l IH]; [destruct Hi|].
  intros x. cbn [map fold_left fst snd]. inversion Hnd as [|y l' Hn Hnd']; subst.
  destruct Hi as [E|Hi].
  - injection E as -> ->. rewrite key_eqb_refl.
    clear - Hn. generalize (MN env (mag q)). intros y.
    induction l as [|[k1 q1] l IH]; [reflexivity|]. cbn [map fold_left fst snd key_eqb].
    destruct (String.eqb_spec k1 k) as [->|]; [exfalso; apply Hn; left; reflexivity|].
    cbn [andb]. apply IH. intros H. apply Hn. right. exact H.
  - apply IH; assumption.
Qed.

Lemma distinct_annotate save m : distinct_keys env m -> distinct_keys env (annotate env V save m).
Proof.
  intros H. unfold annotate.
  assert (K : distinct_keys env (mset env m (KName "climate_model") (MS env (v_name env V))))
    by (apply distinct_mset, H).
  revert K. generalize (mset env m (KName "climate_model") (MS env (v_name env V))).
  induction save as [|kv save IH]; intros m0 K; [exact K|]. cbn [fold_left]. apply IH, distinct_mset, K.
Qed.
Lemma mkeys_annotate save m m' : mkeys env m = mkeys env m' ->
  mkeys env (annotate env V save m) = mkeys env (annotate env V save m').
Proof.
  intros H. unfold annotate.
  assert (K : mkeys env (mset env m (KName "climate_model") (MS env (v_name env V))) =
              mkeys env (mset env m' (KName "climate_model") (MS env (v_name env V))))
    by (apply mkeys_mset, H).
  revert K. generalize (mset env m (KName "climate_model") (MS env (v_name env V))).
  generalize (mset env m' (KName "climate_model") (MS env (v_name env V))).
  induction save as [|kv save IH]; intros m0 m1 K; [exact K|]. cbn [fold_left]. apply IH, mkeys_mset, K.
Qed.

Lemma selected_variable dv r : row_selected env dv r = true ->
  exists v g, mget env (r_meta env r) (KName "variable") = Some (MS env v) /\
              mget env (r_meta env r) (KName "region") = Some (MS env g) /\
              Matches dv v /\ g = "World"%string.
Proof.
  unfold row_selected.
  destruct (mget env (r_meta env r) (KName "variable")) as [[v| |]|]; try discriminate.
  destruct (mget env (r_meta env r) (KName "region")) as [[g| |]|]; try discriminate.
  intros H. apply andb_true_iff in H as [H1 H2]. exists v, g. split; [reflexivity|]. split; [reflexivity|].
  apply glob_spec in H1, H2. split; [exact H1|].
  apply matches_literal in H2; [exact H2|]. cbn. repeat split; intros K; discriminate.
Qed.
Lemma selected_iff dv r : row_selected env dv r = true <->
  exists v, mget env (r_meta env r) (KName "variable") = Some (MS env v) /\
            mget env (r_meta env r) (KName "region") = Some (MS env "World") /\ Matches dv v.
Proof.
  split.
  - intros H. apply selected_variable in H as (v & g & H1 & H2 & H3 & ->). eauto.
  - intros (v & H1 & H2 & H3). unfold row_selected. rewrite H1, H2.
    apply andb_true_iff. split; apply glob_spec; [exact H3|].
    apply matches_literal; [|reflexivity]. cbn. repeat split; intros K; discriminate.
Qed.

(** ** Output of a successful call *)
Lemma row_driver_len times r u : List.length (mags (row_driver env times r u)) = List.length (drop_nan env times (r_vals env r)).
Proof. unfold row_driver. cbn. apply map_length. Qed.

(** A single scenario. *)
Lemma scenario_result_cases i times r s v0 :
  refl_num env -> distinct_keys env (r_meta env r) ->
  mget env (r_meta env r) (KName "variable") = Some (MS env v0) ->
  (exists u s', row_unit env parse_unit r = Ok u /\
     v_drive env V (row_driver env times r u) s = (s', Ok tt) /\
     (exists u0, mget env (r_meta env r) (KName "unit") = Some (MS env u0)) /\
     (forall o, In o (v_outputs env V s') -> ~ clash env (r_meta env r) o) /\
     scenario_result env parse_unit V i times r s = Ok (block env V i times r s')) \/
  (exists u s' o, row_unit env parse_unit r = Ok u /\
     v_drive env V (row_driver env times r u) s = (s', Ok tt) /\
     In o (v_outputs env V s') /\ clash env (r_meta env r) o /\
     scenario_result env parse_unit V i times r s = Err NonUniqueMetadataError) \/
  (exists u s' e, row_unit env parse_unit r = Ok u /\
     v_drive env V (row_driver env times r u) s = (s', Err e) /\
     scenario_result env parse_unit V i times r s = Err e) \/
  (exists e, row_unit env parse_unit r = Err e /\ scenario_result env parse_unit V i times r s = Err e).
Proof.
  intros Hr Hd Hv. unfold scenario_result.
  destruct (row_unit env parse_unit r) as [u|e] eqn:E; [|right; right; right; eauto].
  assert (Hu : exists u0, mget env (r_meta env r) (KName "unit") = Some (MS env u0)).
  { unfold row_unit in E. destruct (mget env (r_meta env r) (KName "unit")) as [[u0| |]|]; try discriminate. eauto. }
  destruct Hu as [u0 Hu]. cbn [bind].
  destruct (v_drive env V (row_driver env times r u) s) as [s' [[]|e]] eqn:Ed.
  - assert (L : forall o, In o (v_outputs env V s') ->
              List.length (snd o) = List.length (drop_nan env times (r_vals env r))).
    { intros o Ho. rewrite (Out_len _ _ _ Ed o Ho). apply row_driver_len. }
    destruct (package_eq env V i times r s' v0 u0 Hr Hd Hv Hu (Out_vars s') L) as [[P C]|[P (o & Ho & C)]].
    + left. exists u, s'. rewrite P. split; [reflexivity|]. split; [exact Ed|]. split; [eauto|]. auto.
    + right. left. exists u, s', o. rewrite P. auto.
  - right. right. left. exists u, s', e. auto.
Qed.

(** Output rows of different scenarios never clash. *)
Lemma blocks_nodup times rows s1 bs : forall i,
  refl_num env ->
  (forall r, In r rows -> distinct_keys env (r_meta env r) /\
     exists v0, mget env (r_meta env r) (KName "variable") = Some (MS env v0)) ->
  mapi (fun i r => scenario_result env parse_unit V i times r s1) i rows = map Ok bs ->
  ForallOrdPairs (fun a b => meta_eqb env a b = false) (map (o_meta env) (List.concat bs)) /\
  (forall o, In o (List.concat bs) -> exists j, (i <= j)%nat /\
     mget env (o_meta env o) (KName "run_idx") = Some (MI env j)).
Proof.
  revert bs; induction rows as [|r rows IH]; intros bs i Hr Hrow E.
  - destruct bs; [|discriminate]. split; [constructor|intros o []].
  - destruct bs as [|b bs]; [discriminate|]. cbn [mapi map] in E. injection E as E1 E2.
    destruct (Hrow r (or_introl eq_refl)) as (Hd & v0 & Hv).
    destruct (IH bs (S i) Hr (fun r Hi => Hrow r (or_intror Hi)) E2) as [IH1 IH2].
    destruct (scenario_result_cases i times r s1 v0 Hr Hd Hv)
      as [(u & s' & _ & _ & (u0 & Hu) & Hc & E)|[(u & s' & o & _ & _ & _ & _ & E)|
          [(u & s' & e & _ & _ & E)|(e & _ & E)]]]; rewrite E in E1; try discriminate.
    injection E1 as <-. cbn [List.concat]. rewrite map_app. split.
    + apply FOP_app; [exact (block_nodup env V i times r s' v0 u0 Hv Hu (Out_vars s') Hc)|exact IH1|].
      intros a b Ha Hb. apply in_map_iff in Ha as (oa & <- & Ha). apply in_map_iff in Hb as (ob & <- & Hb).
      apply block_idx in Ha. destruct (IH2 ob Hb) as (j & Hj & Hob).
      destruct (meta_eqb env (o_meta env oa) (o_meta env ob)) eqn:Em; [|reflexivity].
      pose proof (meta_eqb_mget env _ _ Em (KName "run_idx")) as K. rewrite Ha, Hob in K.
      cbn in K. apply Nat.eqb_eq in K. lia.
    + intros o Ho. apply in_app_or in Ho as [Ho|Ho].
      * apply block_idx in Ho. exists i. auto.
      * destruct (IH2 o Ho) as (j & Hj & K). exists j. split; [lia|exact K].
Qed.

Lemma driver_rows_ok save dv sc r : table sc ->
  In r (driver_rows env V save dv sc) ->
  distinct_keys env (r_meta env r) /\
  exists r0, In r0 (s_rows env sc) /\ row_selected env dv r0 = true /\
             r_meta env r = annotate env V save (r_meta env r0) /\ r_vals env r = r_vals env r0.
Proof.
  intros [T _] Hi. unfold driver_rows, selected in Hi. apply in_map_iff in Hi as (r0 & <- & Hi).
  apply filter_In in Hi as [Hi Hs]. cbn. split; [apply distinct_annotate, T, Hi|]. eauto.
Qed.

Lemma driver_rows_variable s dv sc r : table sc ->
  In r (driver_rows env V (save_paras_meta env V s) dv sc) ->
  exists v, mget env (r_meta env r) (KName "variable") = Some (MS env v) /\ Matches dv v.
Proof.
  intros T Hi. destruct (driver_rows_ok _ dv sc r T Hi) as (_ & r0 & _ & Hs & E & _).
  apply selected_iff in Hs as (v & H1 & H2 & H3). exists v. split; [|exact H3].
  rewrite E, annotate_other by reflexivity. exact H1.
Qed.

(** When exactly duplicate metadata stop the call, apart from errors in
    individual runs. *)
Theorem run_scenarios_ok sc dv s ts s1 :
  table sc -> refl_num env ->
  selected env dv sc <> [] ->
  select_timestep env (s_times env sc) = Ok ts ->
  v_set_delta_t env V (PQ ts) s = (s1, Ok tt) -> Rel s1 s1 ->
  let rows := driver_rows env V (save_paras_meta env V s) dv sc in
  has_dup env (map (r_meta env) rows) = false ->
  snd (run_scenarios env parse_unit V sc dv s) =
  collect (mapi (fun i r => scenario_result env parse_unit V i (s_times env sc) r s1) 0 rows).
Proof.
  intros T Hr Hne Hts Hdt HR rows Hdup.
  rewrite (run_scenarios_indep sc dv s ts s1 Hne Hts Hdt HR). fold rows. rewrite Hdup.
  destruct (collect _) as [out|e] eqn:E; [|reflexivity]. cbn [bind].
  apply collect_ok in E as (bs & E & ->).
  destruct (blocks_nodup (s_times env sc) rows s1 bs 0 Hr) as [H _]; [|exact E|].
  - intros r Hi. split; [apply (driver_rows_ok _ dv sc r T Hi)|].
    destruct (driver_rows_variable s dv sc r T Hi) as (v & H & _). eauto.
  - apply has_dup_false in H. rewrite H. reflexivity.
Qed.

End Gen.
