(** The returned table, and running it again. *)
From Coq Require Import List String QArith ZArith Bool Arith Lia Sorting.Sorted.
From Verif Require Import Arith Pint Base TwoLayer Impulse Scm Table Api Spec GenTL GenIR GenScm GenMeta GenRun GenLayout.
Import ListNotations.
Local Open Scope list_scope.

Lemma tinsert_in t l x : In x (tinsert t l) <-> x = t \/ In x l.
Proof.
  induction l as [|y l IH]; cbn; [firstorder congruence|].
  destruct (Z.ltb_spec t y); [cbn; firstorder congruence|].
  destruct (Z.eqb_spec t y) as [->|]; cbn; [firstorder congruence|]. rewrite IH. firstorder congruence.
Qed.
Lemma tinsert_sorted t l : StronglySorted Z.lt l -> StronglySorted Z.lt (tinsert t l).
Proof.
  induction 1 as [|y l S IH F]; cbn; [repeat constructor|].
  destruct (Z.ltb_spec t y) as [Hl|Hl].
  - constructor; [constructor; assumption|]. constructor; [exact Hl|].
    eapply Forall_impl; [|exact F]. intros a Ha. lia.
  - destruct (Z.eqb_spec t y) as [->|Hn]; [constructor; assumption|].
    constructor; [exact IH|]. apply Forall_forall. intros x Hx. apply tinsert_in in Hx as [->|Hx]; [lia|].
    exact (proj1 (Forall_forall _ _) F x Hx).
Qed.
Lemma sorted_ext l : forall l', StronglySorted Z.lt l -> StronglySorted Z.lt l' ->
  (forall t, In t l <-> In t l') -> l = l'.
Proof.
  induction l as [|x l IH]; intros [|y l'] S S' E.
  - reflexivity.
  - destruct (proj2 (E y) (or_introl eq_refl)).
  - destruct (proj1 (E x) (or_introl eq_refl)).
  - apply StronglySorted_inv in S as [S F]. apply StronglySorted_inv in S' as [S' F'].
    rewrite Forall_forall in F, F'.
    assert (x = y).
    { destruct (proj1 (E x) (or_introl eq_refl)) as [|Hx]; [congruence|].
      destruct (proj2 (E y) (or_introl eq_refl)) as [|Hy]; [congruence|].
      apply F in Hy. apply F' in Hx. lia. }
    subst y. f_equal. apply IH; auto. intros t. split; intros Ht.
    + destruct (proj1 (E t) (or_intror Ht)) as [<-|]; [|assumption]. apply F in Ht. lia.
    + destruct (proj2 (E t) (or_intror Ht)) as [<-|]; [|assumption]. apply F' in Ht. lia.
Qed.

Section Table.
Context (env : Env).
Notation num := (num env).

Lemma result_times_sorted out : StronglySorted Z.lt (result_times env out).
Proof.
  unfold result_times. induction (List.concat _) as [|t l IH]; cbn; [constructor|]. apply tinsert_sorted, IH.
Qed.
Lemma result_times_in out t :
  In t (result_times env out) <-> exists o, In o out /\ In t (map fst (o_points env o)).
Proof.
  unfold result_times. transitivity (In t (List.concat (map (fun o => map fst (o_points env o)) out))).
  - induction (List.concat _) as [|x l IH]; cbn; [tauto|]. rewrite tinsert_in, IH. firstorder congruence.
  - rewrite in_concat. split.
    + intros (l & Hl & Ht). apply in_map_iff in Hl as (o & <- & Ho). eauto.
    + intros (o & Ho & Ht). eexists. split; [apply in_map, Ho|exact Ht].
Qed.

Lemma value_at_none pts t : ~ In t (map fst pts) -> value_at env pts t = nnan env.
Proof.
  induction pts as [|[t' v] pts IH]; cbn; [reflexivity|]. intros H.
  destruct (Z.eqb_spec t' t); [tauto|]. apply IH. tauto.
Qed.
Lemma value_at_some pts t v : NoDup (map fst pts) -> In (t, v) pts -> value_at env pts t = v.
Proof.
  induction pts as [|[t' w] pts IH]; cbn; [tauto|]. intros N H. apply NoDup_cons_iff in N as [N1 N2].
  destruct (Z.eqb_spec t' t) as [->|Hn].
  - destruct H as [H|H]; [congruence|]. exfalso. apply N1. apply in_map_iff. now exists (t, v).
  - destruct H as [H|H]; [congruence|]. auto.
Qed.
Lemma sorted_nodup l : StronglySorted Z.lt l -> NoDup l.
Proof.
  induction 1 as [|x l S IH F]; constructor; auto. intros H.
  apply (proj1 (Forall_forall _ _) F) in H. lia.
Qed.

(** Reading the points back from a padded row. *)
Lemma drop_pad times : forall pts, StronglySorted Z.lt times -> StronglySorted Z.lt (map fst pts) ->
  (forall t, In t (map fst pts) -> In t times) ->
  Forall (fun p => nisnan env (snd p) = false) pts ->
  drop_nan env times (map (value_at env pts) times) = pts.
Proof.
  unfold drop_nan. induction times as [|t ts IH]; intros pts S P I F.
  - destruct pts as [|[p v] ps]; [reflexivity|]. destruct (I p (or_introl eq_refl)).
  - apply StronglySorted_inv in S as [S Ft]. rewrite Forall_forall in Ft.
    destruct pts as [|[p v] ps].
    + cbn [map combine filter value_at snd]. rewrite nisnan_nan. cbn [negb]. apply (IH []); auto; try constructor. intros x [].
    + cbn [map fst] in P. apply StronglySorted_inv in P as [P Fp]. rewrite Forall_forall in Fp.
      inversion F as [|? ? Fv Fs]; subst. cbn [snd] in Fv.
      cbn [map combine]. destruct (Z.eq_dec p t) as [->|Hn].
      * cbn [filter value_at snd fst]. rewrite Z.eqb_refl. rewrite Fv. cbn [negb]. f_equal.
        etransitivity; [|apply (IH ps S P); [|exact Fs]].
        -- f_equal. f_equal. apply map_ext_in. intros x Hx. apply Ft in Hx. destruct (Z.eqb_spec t x); [lia|reflexivity].
        -- intros x Hx. destruct (I x (or_intror Hx)) as [<-|]; [|assumption]. apply Fp in Hx. lia.
      * assert (Hp : In p ts) by (destruct (I p (or_introl eq_refl)); [congruence|assumption]).
        apply Ft in Hp.
        rewrite (value_at_none ((p, v) :: ps) t).
        2:{ intros [Hx|Hx]; cbn [fst] in Hx; [congruence|]. apply Fp in Hx. lia. }
        cbn [filter snd]. rewrite nisnan_nan. cbn [negb]. apply IH; auto.
        -- cbn [map fst]. constructor; [exact P|]. apply Forall_forall, Fp.
        -- intros x Hx. destruct (I x Hx) as [<-|]; [|assumption]. destruct Hx as [Hx|Hx]; cbn [fst] in Hx; [congruence|].
           apply Fp in Hx. lia.
Qed.

(** Columns. *)
Lemma mset_id m k v : mget env m k = Some v -> mset env m k v = m.
Proof.
  induction m as [|[k' v'] m IH]; cbn; [discriminate|].
  destruct (key_eqb k' k) eqn:E; intros H; [congruence|]. now rewrite IH.
Qed.
Lemma mset_comm m k v k' v' : key_eqb k k' = false -> mget env m k <> None ->
  mset env (mset env m k' v') k v = mset env (mset env m k v) k' v'.
Proof.
  intros D. induction m as [|[a b] m IH]; cbn [mset mget]; [congruence|]. intros H.
  destruct (key_eqb a k') eqn:E'; destruct (key_eqb a k) eqn:E; cbn [mset]; rewrite ?E', ?E; try reflexivity.
  - rewrite (key_eqb_cong a k k' E) in E'. congruence.
  - f_equal. apply IH, H.
Qed.
Lemma has_dup_app a b : has_dup env (a ++ b) = false -> has_dup env a = false /\ has_dup env b = false.
Proof.
  induction a as [|m a IH]; cbn; [auto|]. rewrite existsb_app. intros H.
  apply orb_false_iff in H as [H1 H2]. apply orb_false_iff in H1 as [H1 _]. apply IH in H2 as [H2 H3].
  rewrite H1, H2. auto.
Qed.
Lemma has_dup_filter {A} (g : A -> Meta env) f l : has_dup env (map g l) = false -> has_dup env (map g (filter f l)) = false.
Proof.
  induction l as [|x l IH]; cbn; [auto|]. intros H. apply orb_false_iff in H as [H1 H2].
  destruct (f x); [|auto]. cbn. rewrite (IH H2), orb_false_r.
  apply not_true_is_false. intros K. apply existsb_exists in K as (m & Hm & Em).
  assert (T : existsb (meta_eqb env (g x)) (map g l) = true); [|congruence].
  apply existsb_exists. exists m. split; [|exact Em].
  apply in_map_iff in Hm as (y & <- & Hy). apply filter_In in Hy as [Hy _]. now apply in_map.
Qed.

Context (parse_unit : string -> option (Qty env)) (V : Variant env).

Lemma create_again m pts os : forall outs i,
  mget env m (KName "unit") <> None -> mget env m (KName "variable") <> None ->
  create_tss env m pts os = Ok outs ->
  create_tss env (mset env m (KName "run_idx") (MI env i)) pts os =
    Ok (map (fun o => mkOut env (mset env (o_meta env o) (KName "run_idx") (MI env i)) (o_points env o)) outs).
Proof.
  induction os as [|o os IH]; intros outs i U W E; cbn [create_tss] in E |- *.
  - injection E as <-. reflexivity.
  - destruct (create_ts env m pts o) as [x|] eqn:E1; [|discriminate]. cbn [bind] in E.
    destruct (create_tss env m pts os) as [xs|] eqn:E2; [|discriminate]. cbn [bind] in E. injection E as <-.
    assert (E3 : create_ts env (mset env m (KName "run_idx") (MI env i)) pts o =
      Ok (mkOut env (mset env (o_meta env x) (KName "run_idx") (MI env i)) (o_points env x))).
    { unfold create_ts in E1 |- *. destruct o as [[v u] vals]. destruct (Nat.eqb _ _); [|discriminate].
      injection E1 as <-. cbn [o_meta o_points]. f_equal. f_equal.
      rewrite (mset_comm m (KName "unit")) by (auto; reflexivity).
      apply mset_comm; [reflexivity|]. rewrite mget_mset. cbn. exact W. }
    rewrite E3. cbn [bind]. rewrite (IH xs i U W eq_refl). reflexivity.
Qed.

Lemma package_again i times r s out times2 vals2 :
  mget env (r_meta env r) (KName "unit") <> None -> mget env (r_meta env r) (KName "variable") <> None ->
  drop_nan env times2 vals2 = drop_nan env times (r_vals env r) ->
  package env V i times r s = Ok out -> has_dup env (map (o_meta env) out) = false ->
  package env V i times2 (mkRow env (mset env (r_meta env r) (KName "run_idx") (MI env i)) vals2) s = Ok out.
Proof.
  intros U W D E Hd. unfold package in E |- *. cbn [r_meta r_vals]. rewrite D.
  destruct (create_tss _ _ _ _) as [outs|] eqn:Ec; [|discriminate]. cbn [bind] in E.
  destruct (has_dup env (map (o_meta env) (mkOut env _ _ :: _))) eqn:E1; [discriminate|].
  injection E as <-. rewrite (create_again _ _ _ outs i U W Ec). cbn [bind map].
  cbn [map o_meta o_points] in Hd |- *. rewrite Hd. rewrite mset_mset. f_equal. f_equal.
  rewrite map_map. apply map_ext. intros o. cbn [o_meta o_points]. now rewrite mset_mset.
Qed.

Definition pad (T : list Z) (o : OutRow env) : Row env := mkRow env (o_meta env o) (map (value_at env (o_points env o)) T).

Lemma create_names m pts os : forall outs, create_tss env m pts os = Ok outs ->
  Forall (fun o => exists x, In x os /\ mget env (o_meta env o) (KName "variable") = Some (MS env (fst (fst x))) /\ map fst (o_points env o) = map fst pts) outs.
Proof.
  induction os as [|x os IH]; intros outs E; cbn [create_tss] in E.
  - injection E as <-. constructor.
  - destruct (create_ts env m pts x) as [y|] eqn:E1; [|discriminate]. cbn [bind] in E.
    destruct (create_tss env m pts os) as [ys|] eqn:E2; [|discriminate]. cbn [bind] in E. injection E as <-.
    constructor.
    + exists x. split; [left; reflexivity|]. unfold create_ts in E1. destruct x as [[v u] vals].
      destruct (Nat.eqb_spec (List.length vals) (List.length pts)) as [L|]; [|discriminate]. injection E1 as <-. cbn [o_meta o_points fst].
      rewrite mget_mset. cbn. split; [reflexivity|].
      rewrite <- (map_length fst) in L. revert L. generalize (map fst pts). intros l. revert vals.
      induction l as [|a l IHl]; intros [|b vals] L; try discriminate; [reflexivity|]. cbn. f_equal. apply IHl. now injection L.
    + eapply Forall_impl; [|apply IH; reflexivity]. intros o (z & Hz & R). exists z. split; [right; exact Hz|exact R].
Qed.

Lemma drop_nan_free times vals : Forall (fun p => nisnan env (snd p) = false) (drop_nan env times vals).
Proof.
  apply Forall_forall. intros p Hp. unfold drop_nan in Hp. apply filter_In in Hp as [_ H].
  now apply negb_true_iff in H.
Qed.
Lemma combine_fst_sorted {A} times : forall (vals : list A), StronglySorted Z.lt times ->
  StronglySorted Z.lt (map fst (combine times vals)).
Proof.
  induction times as [|t ts IH]; intros [|v vs] S; cbn; try constructor.
  - apply StronglySorted_inv in S as [S _]. auto.
  - apply StronglySorted_inv in S as [_ F]. apply Forall_forall. intros x Hx.
    apply in_map_iff in Hx as ([a b] & <- & Hi). apply in_combine_l in Hi. exact (proj1 (Forall_forall _ _) F a Hi).
Qed.
Lemma filter_fst_sorted {A} f (l : list (Z * A)) : StronglySorted Z.lt (map fst l) -> StronglySorted Z.lt (map fst (filter f l)).
Proof.
  induction l as [|p l IH]; cbn; intros S; [constructor|]. apply StronglySorted_inv in S as [S F].
  destruct (f p); [|auto]. cbn. constructor; [auto|]. apply Forall_forall. intros x Hx.
  apply in_map_iff in Hx as (q & <- & Hq). apply filter_In in Hq as [Hq _].
  apply (proj1 (Forall_forall _ _) F). now apply in_map.
Qed.
Lemma drop_nan_sorted times vals : StronglySorted Z.lt times -> StronglySorted Z.lt (map fst (drop_nan env times vals)).
Proof. intros S. apply filter_fst_sorted, combine_fst_sorted, S. Qed.
Lemma drop_nan_in times vals t : In t (map fst (drop_nan env times vals)) -> In t times.
Proof.
  intros H. apply in_map_iff in H as ([a b] & <- & H). apply filter_In in H as [H _].
  eapply in_combine_l, H.
Qed.

(** One scenario. *)
Lemma row_again T dv i times r s s' b :
  StronglySorted Z.lt T -> StronglySorted Z.lt times -> row_selected env dv r = true ->
  (forall s o, In o (v_outputs env V s) -> glob dv (fst (fst o)) = false) ->
  run_row env parse_unit V i times r s = (s', Ok b) ->
  has_dup env (map (o_meta env) b) = false -> (forall o t, In o b -> In t (map fst (o_points env o)) -> In t T) ->
  (forall o, In o b -> map fst (o_points env o) = map fst (drop_nan env times (r_vals env r))) /\
  exists d, filter (row_selected env dv) (map (pad T) b) = [d] /\
    r_meta env d = mset env (r_meta env r) (KName "run_idx") (MI env i) /\
    run_row env parse_unit V i T d s = (s', Ok b).
Proof.
  intros ST St Sel Nm E Hd Ht. rewrite run_row_eq in E.
  destruct (row_unit env parse_unit r) as [u|] eqn:Eu; [|discriminate].
  destruct (v_drive env V (row_driver env times r u) s) as [s1 [[]|]] eqn:Ed; [|discriminate].
  assert (Ep : package env V i times r s1 = Ok b) by congruence.
  assert (s1 = s') by congruence. subst s1. clear E.
  assert (U : mget env (r_meta env r) (KName "unit") <> None).
  { unfold row_unit in Eu. destruct (mget env (r_meta env r) (KName "unit")); congruence. }
  assert (W : mget env (r_meta env r) (KName "variable") <> None).
  { unfold row_selected in Sel. destruct (mget env (r_meta env r) (KName "variable")); congruence. }
  pose proof Ep as Ep0.
  unfold package in Ep. destruct (create_tss _ _ _ _) as [outs|] eqn:Ec; [|discriminate]. cbn [bind] in Ep.
  destruct (has_dup env (map (o_meta env) (mkOut env _ _ :: _))) eqn:E1; [discriminate|].
  injection Ep as Eb. pose proof (create_names _ _ _ _ Ec) as CN. rewrite Forall_forall in CN.
  split.
  { intros o Ho. rewrite <- Eb in Ho. destruct Ho as [<-|Ho]; [reflexivity|].
    apply in_map_iff in Ho as (o' & <- & Ho). cbn [o_points]. destruct (CN o' Ho) as (_ & _ & _ & P). exact P. }
  exists (pad T (mkOut env (mset env (r_meta env r) (KName "run_idx") (MI env i)) (drop_nan env times (r_vals env r)))).
  assert (DP : drop_nan env T (map (value_at env (drop_nan env times (r_vals env r))) T) = drop_nan env times (r_vals env r)).
  { apply drop_pad; auto using drop_nan_sorted, drop_nan_free.
    intros t Hin. apply (Ht (mkOut env (mset env (r_meta env r) (KName "run_idx") (MI env i)) (drop_nan env times (r_vals env r)))); [|exact Hin].
    rewrite <- Eb. left. reflexivity. }
  split; [|split].
  - rewrite <- Eb. cbn [map filter o_meta o_points].
    assert (K : row_selected env dv (pad T (mkOut env (mset env (r_meta env r) (KName "run_idx") (MI env i)) (drop_nan env times (r_vals env r)))) = true).
    { unfold row_selected, pad in *. cbn [r_meta o_meta]. rewrite !mget_mset. cbn. exact Sel. }
    rewrite K. f_equal. rewrite map_map.
    assert (N : forall l, (forall o, In o l -> In o outs) ->
      filter (row_selected env dv) (map (fun o => pad T (mkOut env (mset env (o_meta env o) (KName "run_idx") (MI env i)) (o_points env o))) l) = []).
    { induction l as [|o l IH]; intros Hl; [reflexivity|]. cbn [map filter].
      destruct (CN o (Hl o (or_introl eq_refl))) as (x & Hx & Ev & _).
      assert (K2 : row_selected env dv (pad T (mkOut env (mset env (o_meta env o) (KName "run_idx") (MI env i)) (o_points env o))) = false).
      { unfold row_selected, pad. cbn [r_meta o_meta]. rewrite !mget_mset. cbn. rewrite Ev.
        destruct (mget env (o_meta env o) (KName "region")) as [[]|]; try reflexivity.
        rewrite (Nm _ _ Hx). reflexivity. }
      rewrite K2. apply IH. intros o' Ho'. apply Hl. right. exact Ho'. }
    apply N. auto.
  - reflexivity.
  - rewrite run_row_eq. unfold pad. cbn [o_meta o_points].
    assert (Eu2 : forall vals, row_unit env parse_unit (mkRow env (mset env (r_meta env r) (KName "run_idx") (MI env i)) vals) = Ok u).
    { intros vals. unfold row_unit in *. cbn [r_meta]. rewrite mget_mset. cbn. exact Eu. }
    rewrite Eu2.
    assert (Er : row_driver env T (mkRow env (mset env (r_meta env r) (KName "run_idx") (MI env i)) (map (value_at env (drop_nan env times (r_vals env r))) T)) u = row_driver env times r u).
    { unfold row_driver. cbn [r_vals]. now rewrite DP. }
    rewrite Er, Ed. f_equal. apply package_again with (times := times) (r := r); auto.
Qed.

Lemma rows_again T dv times :
  StronglySorted Z.lt T -> StronglySorted Z.lt times ->
  (forall s o, In o (v_outputs env V s) -> glob dv (fst (fst o)) = false) ->
  forall rows i s s' out, Forall (fun r => row_selected env dv r = true) rows ->
  run_rows env parse_unit V i times rows s = (s', Ok out) ->
  has_dup env (map (o_meta env) out) = false -> (forall o t, In o out -> In t (map fst (o_points env o)) -> In t T) ->
  (forall o, In o out -> exists r, In r rows /\ map fst (o_points env o) = map fst (drop_nan env times (r_vals env r))) /\
  (forall r, In r rows -> exists o, In o out /\ map fst (o_points env o) = map fst (drop_nan env times (r_vals env r))) /\
  exists ds, filter (row_selected env dv) (map (pad T) out) = ds /\
    Forall (fun d => exists r j, In r rows /\ r_meta env d = mset env (r_meta env r) (KName "run_idx") (MI env j)) ds /\
    List.length ds = List.length rows /\
    run_rows env parse_unit V i T ds s = (s', Ok out).
Proof.
  intros ST St Nm. induction rows as [|r rows IH]; intros i s s' out F E Hd Ht.
  - cbn in E. injection E as <- <-. split; [intros o []|]. split; [intros r []|]. exists []. repeat split; constructor.
  - cbn [run_rows] in E. cbv [mbind mret] in E.
    destruct (run_row env parse_unit V i times r s) as [s1 [b|]] eqn:E1; [|discriminate].
    destruct (run_rows env parse_unit V (S i) times rows s1) as [s2 [bs|]] eqn:E2; [|discriminate].
    injection E as <- <-. inversion F as [|? ? F1 F2]; subst.
    rewrite map_app in Hd. apply has_dup_app in Hd as [Hd1 Hd2].
    destruct (row_again T dv i times r s s1 b ST St F1 Nm E1 Hd1) as (P1 & d & D1 & D2 & D3).
    { intros o t Ho. apply Ht. apply in_or_app. now left. }
    destruct (IH (S i) s1 s2 bs F2 E2 Hd2) as (P2 & Q2 & ds & D4 & D5 & D6 & D7).
    { intros o t Ho. apply Ht. apply in_or_app. now right. }
    split; [|split].
    + intros o Ho. apply in_app_or in Ho as [Ho|Ho].
      * exists r. split; [left; reflexivity|]. apply P1, Ho.
      * destruct (P2 o Ho) as (r' & Hr' & Er'). exists r'. split; [right; exact Hr'|exact Er'].
    + intros r' [<-|Hr'].
      * assert (Hb : exists o, In o b).
        { destruct b as [|o b]; [discriminate D1|]. exists o. left. reflexivity. }
        destruct Hb as [o Ho]. exists o. split; [apply in_or_app; now left|apply P1, Ho].
      * destruct (Q2 r' Hr') as (o & Ho & Eo). exists o. split; [apply in_or_app; now right|exact Eo].
    + exists (d :: ds). rewrite map_app, filter_app, D1, D4. split; [reflexivity|]. split; [|split].
      * constructor; [exists r, i; split; [left; reflexivity|exact D2]|].
        eapply Forall_impl; [|exact D5]. intros x (r' & j & Hr' & Ex). exists r', j. split; [right; exact Hr'|exact Ex].
      * cbn. now rewrite D6.
      * cbn [run_rows]. cbv [mbind mret]. rewrite D3, D7. reflexivity.
Qed.

Hypothesis Par_nodup : forall s, NoDup (map fst (v_save_paras env V s)).

Lemma annotate_again s m i :
  let m' := mset env (annotate env V (save_paras_meta env V s) m) (KName "run_idx") (MI env i) in
  annotate env V (save_paras_meta env V s) m' = m'.
Proof.
  intros m'. destruct (driver_meta_ok env V Par_nodup s i m) as (_ & C & P & _). fold m' in C, P.
  unfold annotate. rewrite (mset_id m') by exact C.
  assert (K : forall kv, In kv (save_paras_meta env V s) -> mget env m' (fst kv) = Some (snd kv)).
  { intros kv H. unfold save_paras_meta in H. apply in_map_iff in H as ([n q] & <- & H). cbn [fst snd]. apply P, H. }
  revert K. generalize (save_paras_meta env V s). intros l. induction l as [|kv l IH]; intros K; [reflexivity|].
  cbn [fold_left]. rewrite mset_id by (apply K; left; reflexivity). apply IH. intros kv' H. apply K. right. exact H.
Qed.

Lemma scenarios_again sc dv s s' out :
  StronglySorted Z.lt (s_times env sc) ->
  (forall s o, In o (v_outputs env V s) -> glob dv (fst (fst o)) = false) ->
  (forall t, In t (s_times env sc) -> exists r, In r (selected env dv sc) /\ In t (map fst (drop_nan env (s_times env sc) (r_vals env r)))) ->
  run_scenarios env parse_unit V sc dv s = (s', Ok out) ->
  s_times env (result_table env out) = s_times env sc /\
  run_scenarios env parse_unit V (result_table env out) dv s = (s', Ok out).
Proof.
  intros St Nm Cov E. pose proof E as E0. rewrite run_scenarios_eq in E. rewrite run_scenarios_eq.
  destruct (Nat.eqb (List.length (selected env dv sc)) 0) eqn:En; [discriminate|].
  destruct (select_timestep env (s_times env sc)) as [ts|] eqn:Et; [|discriminate].
  destruct (v_set_delta_t env V (PQ ts) s) as [s1 [[]|]] eqn:Ed; [|discriminate]. cbv zeta in E |- *.
  destruct (has_dup env (map (r_meta env) _)) eqn:Eh; [discriminate|].
  destruct (run_rows env parse_unit V 0 (s_times env sc) _ s1) as [s2 [o2|]] eqn:Er; [|discriminate].
  destruct (has_dup env (map (o_meta env) o2)) eqn:Eo; [discriminate|]. injection E as -> ->.
  assert (F : Forall (fun r => row_selected env dv r = true) (driver_rows env V (save_paras_meta env V s) dv sc)).
  { apply Forall_forall. intros r Hr. unfold driver_rows in Hr. apply in_map_iff in Hr as (r0 & <- & Hr).
    unfold selected in Hr. apply filter_In in Hr as [_ Hr]. unfold row_selected in *. cbn [r_meta].
    rewrite !annotate_not_overwritten by (apply not_overwritten_name; discriminate). exact Hr. }
  destruct (rows_again (result_times env out) dv (s_times env sc) (result_times_sorted out) St Nm _ _ _ _ _ F Er Eo)
    as (P & Q & ds & D1 & D2 & D3 & D4).
  { intros o t Ho Hin. apply result_times_in. eauto. }
  assert (ET : result_times env out = s_times env sc).
  { apply sorted_ext; auto using result_times_sorted. intros t. rewrite result_times_in. split.
    - intros (o & Ho & Hin). destruct (P o Ho) as (r & _ & Er'). rewrite Er' in Hin. eapply drop_nan_in, Hin.
    - intros Hin. destruct (Cov t Hin) as (r & Hr & Hp).
      destruct (Q (mkRow env (annotate env V (save_paras_meta env V s) (r_meta env r)) (r_vals env r))) as (o & Ho & Eo').
      { unfold driver_rows. apply in_map_iff. exists r. auto. }
      exists o. split; [exact Ho|]. rewrite Eo'. exact Hp. }
  cbn [result_table s_times s_rows] in *. split; [exact ET|].
  assert (ES : selected env dv (result_table env out) = ds).
  { unfold selected. cbn [result_table s_rows]. exact D1. }
  rewrite ES. 
  assert (L : Nat.eqb (List.length ds) 0 = false).
  { rewrite D3. unfold driver_rows. rewrite map_length. exact En. }
  rewrite L. rewrite ET, Et, Ed.
  assert (EA : driver_rows env V (save_paras_meta env V s) dv (result_table env out) = ds).
  { unfold driver_rows. rewrite ES. rewrite <- (map_id ds) at 2. apply map_ext_in. intros d Hd.
    apply (proj1 (Forall_forall _ _) D2) in Hd as (r & j & Hr & Em).
    unfold driver_rows in Hr. apply in_map_iff in Hr as (r0 & <- & _). cbn [r_meta] in Em.
    destruct d as [dm dvals]. cbn [r_meta r_vals] in *. rewrite Em. now rewrite annotate_again. }
  rewrite EA.
  assert (EH : has_dup env (map (r_meta env) ds) = false).
  { rewrite <- D1. apply has_dup_filter. rewrite map_map. exact Eo. }
  rewrite EH. rewrite <- ET, D4, Eo. reflexivity.
Qed.
End Table.
