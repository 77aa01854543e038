(** [run_scenarios]: layout of the result, independence, duplicates; for every
    variant satisfying the conditions of [GenRun]. *)
From Coq Require Import List String Ascii QArith ZArith Bool Arith Lia.
From Verif Require Import Arith Pint Base TwoLayer Impulse Scm Api Spec GenTL GenTLHist GenIR GenIRHist GenScm GenMeta GenRun.
Import ListNotations.
Local Open Scope list_scope.

Lemma chosen_select (env : Env) times ts :
  select_timestep env times = Ok ts <-> chosen_timestep env times ts.
Proof.
  destruct (select_timestep_spec env times) as (A & B & C). unfold chosen_timestep.
  assert (Y : yearly times \/ ~ yearly times).
  { rewrite <- yearly_spec. destruct (forallb _ _); [left; reflexivity|right; discriminate]. }
  assert (M : monthly times \/ ~ monthly times).
  { rewrite <- monthly_spec. destruct (forallb _ _); [left; reflexivity|right; discriminate]. }
  destruct Y as [Y|Y].
  - rewrite A by exact Y. split; [intros H; injection H as <-; auto|].
    intros [[_ ->]|(N & _)]; [reflexivity|contradiction].
  - destruct M as [M|M].
    + rewrite B by assumption. split; [intros H; injection H as <-; auto|].
      intros [[N _]|(_ & _ & ->)]; [contradiction|reflexivity].
    + rewrite C by assumption. split; [discriminate|]. intros [[N _]|(_ & N & _)]; contradiction.
Qed.

Lemma mset_mset (env : Env) m k v v' : mset env (mset env m k v) k v' = mset env m k v'.
Proof.
  induction m as [|[k0 v0] m IH]; cbn; [rewrite key_eqb_refl; reflexivity|].
  destruct (key_eqb k0 k) eqn:E; cbn; rewrite E; [reflexivity|]. rewrite IH. reflexivity.
Qed.

Lemma key_name_eqb a k : key_eqb (KName a) k = true -> k = KName a.
Proof. destruct k; cbn; [|discriminate]. intros H. apply String.eqb_eq in H. congruence. Qed.

Section Layout.
Context (env : Env) (parse_unit : string -> option (Qty env)) (V : Variant env).
Notation num := (num env).
Variable Rel : v_state env V -> v_state env V -> Prop.
Hypothesis Rel_drive : forall s s0 e, Rel s s0 ->
  snd (v_drive env V e s) = snd (v_drive env V e s0) /\
  (snd (v_drive env V e s) = Ok tt -> fst (v_drive env V e s) = fst (v_drive env V e s0)).
Hypothesis Rel_after : forall s s0 e, Rel s s0 -> Rel (fst (v_drive env V e s)) s0.
Hypothesis Out_len : forall s e s', v_drive env V e s = (s', Ok tt) ->
  forall o, In o (v_outputs env V s') -> List.length (snd o) = List.length (mags e).
Hypothesis Out_vars : forall s, vars_distinct env (v_outputs env V s).
Hypothesis Par_nodup : forall s, NoDup (map fst (v_save_paras env V s)).

Lemma overwritten_dec s k : overwritten env V s k \/ ~ overwritten env V s k.
Proof.
  assert (D : {k = KName "climate_model"} + {k <> KName "climate_model"}).
  { destruct (key_eqb (KName "climate_model") k) eqn:E.
    - left. apply key_name_eqb, E.
    - right. intros ->. rewrite key_eqb_refl in E. discriminate. }
  destruct D as [->|D]; [left; left; reflexivity|].
  destruct (existsb (fun p => key_eqb (KParam (fst p) (units (snd p))) k) (v_save_paras env V s)) eqn:E.
  - left. right. apply existsb_exists in E as ([n q] & Hi & K). eauto.
  - right. intros [H|(n & q & Hi & K)]; [contradiction|].
    assert (existsb (fun p => key_eqb (KParam (fst p) (units (snd p))) k) (v_save_paras env V s) = true); [|congruence].
    apply existsb_exists. exists (n, q). auto.
Qed.

Lemma annotate_not_overwritten s m k : ~ overwritten env V s k ->
  mget env (annotate env V (save_paras_meta env V s) m) k = mget env m k.
Proof.
  intros H. rewrite mget_annotate.
  destruct (key_eqb (KName "climate_model") k) eqn:E.
  { exfalso. apply H. left. apply key_name_eqb, E. }
  assert (K : forall kv, In kv (save_paras_meta env V s) -> key_eqb (fst kv) k = false).
  { intros kv Hi. unfold save_paras_meta in Hi. apply in_map_iff in Hi as ([n q] & <- & Hi).
    cbn [fst snd]. destruct (key_eqb (KParam n (units q)) k) eqn:E2; [|reflexivity].
    exfalso. apply H. right. eauto. }
  revert K. generalize (save_paras_meta env V s). intros l.
  induction l as [|kv l IH]; intros K; [reflexivity|]. cbn [fold_left].
  rewrite (K kv (or_introl eq_refl)). apply IH. intros kv' Hi. apply K. right; exact Hi.
Qed.

(** The overwritten columns do not depend on the row. *)
Lemma annotate_overwritten s m m' k : overwritten env V s k ->
  mget env (annotate env V (save_paras_meta env V s) m) k = mget env (annotate env V (save_paras_meta env V s) m') k.
Proof.
  intros [->|(n & q & Hi & K)].
  - rewrite !annotate_climate_model. reflexivity.
  - rewrite <- !(mget_cong env _ _ _ K). rewrite !(annotate_param env V s _ n q (Par_nodup s) Hi). reflexivity.
Qed.

Lemma not_overwritten_name s a : a <> "climate_model"%string -> ~ overwritten env V s (KName a).
Proof.
  intros H [E|(n & q & _ & K)]; [congruence|discriminate].
Qed.

Lemma row_unit_annotate s r :
  row_unit env parse_unit (mkRow env (annotate env V (save_paras_meta env V s) (r_meta env r)) (r_vals env r)) =
  row_unit env parse_unit r.
Proof.
  unfold row_unit. cbn [r_meta]. rewrite annotate_not_overwritten; [reflexivity|].
  apply not_overwritten_name. discriminate.
Qed.

Lemma driver_meta_ok s i m :
  out_meta_ok env V s i m
    (mset env (annotate env V (save_paras_meta env V s) m) (KName "run_idx") (MI env i)) None.
Proof.
  unfold out_meta_ok. rewrite !mget_mset.
  split; [reflexivity|]. split; [cbn; apply annotate_climate_model|].
  split; [intros n q Hi; rewrite mget_mset; cbn; apply annotate_param; auto|].
  split; [discriminate|].
  intros k Hk Ho _. rewrite mget_mset.
  destruct (key_eqb (KName "run_idx") k) eqn:E; [exfalso; apply Hk, key_name_eqb, E|].
  apply annotate_not_overwritten, Ho.
Qed.

Lemma output_meta_ok s i m o :
  out_meta_ok env V s i m
    (mset env (out_meta env (annotate env V (save_paras_meta env V s) m) o) (KName "run_idx") (MI env i))
    (Some (fst o)).
Proof.
  unfold out_meta_ok, out_meta. rewrite !mget_mset.
  split; [reflexivity|]. split; [cbn; apply annotate_climate_model|].
  split; [intros n q Hi; rewrite !mget_mset; cbn; apply annotate_param; auto|].
  split.
  - intros v u E. injection E as E. destruct (fst o) as [v' u'] eqn:Eo. injection E as -> ->.
    rewrite ?mget_mset. cbn. auto.
  - intros k Hk Ho [Hn|[Hv Hu]]; [discriminate|]. rewrite !mget_mset.
    destruct (key_eqb (KName "run_idx") k) eqn:E; [exfalso; apply Hk, key_name_eqb, E|].
    destruct (key_eqb (KName "variable") k) eqn:E1; [exfalso; apply Hv, key_name_eqb, E1|].
    destruct (key_eqb (KName "unit") k) eqn:E2; [exfalso; apply Hu, key_name_eqb, E2|].
    apply annotate_not_overwritten, Ho.
Qed.

(** A successful scenario has the specified rows. *)
Lemma scenario_result_rows s s1 i times r b v0 :
  refl_num env -> distinct_keys env (r_meta env r) ->
  mget env (r_meta env r) (KName "variable") = Some (MS env v0) ->
  scenario_result env parse_unit V i times
    (mkRow env (annotate env V (save_paras_meta env V s) (r_meta env r)) (r_vals env r)) s1 = Ok b ->
  scenario_rows env parse_unit V s s1 i times r b.
Proof.
  intros Hr Hd Hv H.
  set (r1 := mkRow env (annotate env V (save_paras_meta env V s) (r_meta env r)) (r_vals env r)) in *.
  assert (Hd1 : distinct_keys env (r_meta env r1)) by (apply distinct_annotate, Hd).
  assert (Hv1 : mget env (r_meta env r1) (KName "variable") = Some (MS env v0)).
  { unfold r1. cbn [r_meta]. rewrite annotate_not_overwritten; [exact Hv|]. apply not_overwritten_name; discriminate. }
  destruct (scenario_result_cases env parse_unit V Out_len Out_vars i times r1 s1 v0 Hr Hd1 Hv1)
    as [(u & s' & Hu & Hdr & (u0 & Hu0) & Hc & E)|[(u & s' & o & _ & _ & _ & _ & E)|
        [(u & s' & e & _ & _ & E)|(e & _ & E)]]]; rewrite E in H; try discriminate.
  injection H as <-. unfold r1 in Hu; rewrite row_unit_annotate in Hu. unfold row_unit in Hu.
  destruct (mget env (r_meta env r) (KName "unit")) as [[us| |]|] eqn:Eu; try discriminate.
  destruct (parse_unit us) as [u'|] eqn:Ep; [|discriminate]. injection Hu as ->.
  exists us, u, s'. unfold block. cbn [map r_vals r_meta].
  eexists _, _. split; [exact Eu|]. split; [exact Ep|]. split; [exact Hdr|]. split; [reflexivity|].
  cbn [o_points o_meta]. split; [reflexivity|]. split; [apply driver_meta_ok|].
  rewrite map_map.
  assert (L : forall o, In o (v_outputs env V s') ->
            List.length (snd o) = List.length (drop_nan env times (r_vals env r))).
  { intros o Ho. rewrite (Out_len _ _ _ Hdr o Ho). exact (row_driver_len env times r1 u). }
  clear Hc E. revert L. induction (v_outputs env V s') as [|o os IH]; intros L; [constructor|].
  cbn [map]. constructor.
  - cbn [o_points o_meta]. split; [reflexivity|]. split; [apply L; left; reflexivity|]. apply output_meta_ok.
  - apply IH. intros o' Ho. apply L. right. exact Ho.
Qed.

Lemma selected_world dv sc r : In r (selected env dv sc) <-> In r (s_rows env sc) /\ world_row env dv r.
Proof. unfold selected. rewrite filter_In, selected_iff. reflexivity. Qed.

Lemma select_nonempty dv sc : selected env dv sc <> [] <-> exists r, In r (s_rows env sc) /\ world_row env dv r.
Proof.
  split.
  - destruct (selected env dv sc) as [|r l] eqn:E; [congruence|]. intros _. exists r.
    apply selected_world. rewrite E. left. reflexivity.
  - intros (r & H). apply selected_world in H. destruct (selected env dv sc); [destruct H|discriminate].
Qed.

Lemma run_none sc dv s :
  (forall r, In r (s_rows env sc) -> ~ world_row env dv r) ->
  run_scenarios env parse_unit V sc dv s = (s, Err ValueError).
Proof.
  intros H. rewrite run_scenarios_eq.
  destruct (selected env dv sc) as [|r l] eqn:E; [reflexivity|].
  exfalso. apply (H r); apply (selected_world dv sc r); rewrite E; left; reflexivity.
Qed.

Lemma run_no_timestep sc dv s :
  (exists r, In r (s_rows env sc) /\ world_row env dv r) ->
  ~ yearly (s_times env sc) -> ~ monthly (s_times env sc) ->
  run_scenarios env parse_unit V sc dv s = (s, Err NotImplementedError).
Proof.
  intros H Y M. apply select_nonempty in H. rewrite run_scenarios_eq.
  destruct (selected env dv sc) as [|r l] eqn:E; [congruence|]. cbn [List.length Nat.eqb].
  rewrite (proj2 (proj2 (select_timestep_spec env (s_times env sc))) Y M). reflexivity.
Qed.

(** Success implies the steps before it succeeded. *)
Lemma run_ok_inv sc dv s s' out :
  run_scenarios env parse_unit V sc dv s = (s', Ok out) ->
  exists ts s1, chosen_timestep env (s_times env sc) ts /\
    v_set_delta_t env V (PQ ts) s = (s1, Ok tt) /\ selected env dv sc <> [] /\
    has_dup env (map (r_meta env) (driver_rows env V (save_paras_meta env V s) dv sc)) = false.
Proof.
  rewrite run_scenarios_eq. destruct (selected env dv sc) as [|r l] eqn:E; [discriminate|].
  cbn [List.length Nat.eqb].
  destruct (select_timestep env (s_times env sc)) as [ts|x] eqn:Et; [|discriminate].
  destruct (v_set_delta_t env V (PQ ts) s) as [s1 [[]|x]] eqn:Ed; [|discriminate].
  cbv zeta. destruct (has_dup env (map (r_meta env) _)) eqn:Eh; [discriminate|].
  intros _. exists ts, s1. split; [apply chosen_select, Et|]. split; [exact Ed|].
  split; [discriminate|reflexivity].
Qed.

Lemma layout sc dv s s' out :
  table env sc -> refl_num env ->
  (forall ts s1, v_set_delta_t env V (PQ ts) s = (s1, Ok tt) -> Rel s1 s1) ->
  run_scenarios env parse_unit V sc dv s = (s', Ok out) ->
  exists ts s1 bs, chosen_timestep env (s_times env sc) ts /\
    v_set_delta_t env V (PQ ts) s = (s1, Ok tt) /\
    out = List.concat bs /\ List.length bs = List.length (selected env dv sc) /\
    forall i r b, nth_error (selected env dv sc) i = Some r -> nth_error bs i = Some b ->
      scenario_rows env parse_unit V s s1 i (s_times env sc) r b.
Proof.
  intros T Hr HR H. destruct (run_ok_inv sc dv s s' out H) as (ts & s1 & Hts & Hdt & Hne & Hdup).
  pose proof (run_scenarios_ok env parse_unit V Rel Rel_drive Rel_after Out_len Out_vars sc dv s ts s1
    T Hr Hne (proj2 (chosen_select env _ ts) Hts) Hdt (HR _ _ Hdt) Hdup) as E.
  rewrite H in E. cbn [snd] in E. symmetry in E. apply collect_ok in E as (bs & E & ->).
  exists ts, s1, bs. split; [exact Hts|]. split; [exact Hdt|]. split; [reflexivity|].
  assert (L : List.length bs = List.length (driver_rows env V (save_paras_meta env V s) dv sc)).
  { rewrite <- (mapi_length (fun i r => scenario_result env parse_unit V i (s_times env sc) r s1) _ 0).
    rewrite E, map_length. reflexivity. }
  unfold driver_rows in L. rewrite map_length in L. split; [exact L|].
  intros i r b Hi Hb.
  assert (K : nth_error (mapi (fun i r => scenario_result env parse_unit V i (s_times env sc) r s1) 0
                (driver_rows env V (save_paras_meta env V s) dv sc)) i = Some (Ok b)).
  { rewrite E, nth_error_map, Hb. reflexivity. }
  rewrite mapi_nth in K. unfold driver_rows in K. rewrite nth_error_map, Hi in K. cbn [option_map Nat.add] in K.
  injection K as K. apply nth_error_In in Hi. apply selected_world in Hi as [Hi (v0 & Hv & _)].
  eapply scenario_result_rows; eauto. apply (proj1 T), Hi.
Qed.

(** History. *)
Lemma indep sc dv s s' ts s1 s1' :
  selected env dv sc <> [] -> chosen_timestep env (s_times env sc) ts ->
  v_save_paras env V s = v_save_paras env V s' ->
  v_set_delta_t env V (PQ ts) s = (s1, Ok tt) -> v_set_delta_t env V (PQ ts) s' = (s1', Ok tt) ->
  Rel s1 s1 -> Rel s1' s1' -> Rel s1 s1' ->
  snd (run_scenarios env parse_unit V sc dv s) = snd (run_scenarios env parse_unit V sc dv s').
Proof.
  intros Hne Hts Hp H H' R1 R2 R3. apply chosen_select in Hts.
  rewrite (run_scenarios_indep env parse_unit V Rel Rel_drive Rel_after sc dv s ts s1 Hne Hts H R1).
  rewrite (run_scenarios_indep env parse_unit V Rel Rel_drive Rel_after sc dv s' ts s1' Hne Hts H' R2).
  unfold save_paras_meta. rewrite Hp.
  destruct (has_dup _ _); [reflexivity|].
  match goal with |- (do out1 <- collect ?a; _) = (do out2 <- collect ?b; _) => replace a with b; [reflexivity|] end.
  generalize 0%nat.
  match goal with |- forall n, mapi _ n ?rows = _ => induction rows as [|r l IH]; intros n; [reflexivity|] end.
  cbn [mapi]. rewrite IH. f_equal. symmetry.
  apply (scenario_result_rel env parse_unit V Rel Rel_drive); auto.
Qed.

Definition one_row (times : list Z) (r : Row env) : Scm env := mkScm env times [r].

Lemma one_row_eq times r dv s ts s1 :
  refl_num env -> distinct_keys env (r_meta env r) -> world_row env dv r ->
  chosen_timestep env times ts -> v_set_delta_t env V (PQ ts) s = (s1, Ok tt) -> Rel s1 s1 ->
  snd (run_scenarios env parse_unit V (one_row times r) dv s) =
  scenario_result env parse_unit V 0 times
    (mkRow env (annotate env V (save_paras_meta env V s) (r_meta env r)) (r_vals env r)) s1.
Proof.
  intros Hr Hd Hw Hts Hdt HR.
  assert (E : selected env dv (one_row times r) = [r]).
  { unfold selected, one_row. cbn. rewrite (proj2 (selected_iff env dv r) Hw). reflexivity. }
  assert (T : table env (one_row times r)).
  { split; cbn; [intros r' [<-|[]]; exact Hd|]. intros a b [<-|[]] [<-|[]]. reflexivity. }
  assert (Hne : selected env dv (one_row times r) <> []) by (rewrite E; discriminate).
  pose proof (run_scenarios_ok env parse_unit V Rel Rel_drive Rel_after Out_len Out_vars
    (one_row times r) dv s ts s1 T Hr Hne (proj2 (chosen_select env _ ts) Hts) Hdt HR) as K.
  unfold driver_rows in K. rewrite E in K. cbn [map] in K. cbv zeta in K. rewrite K by reflexivity.
  cbn [mapi collect]. destruct (scenario_result _ _ _ _ _ _ _) as [x|e]; [|reflexivity].
  cbn [bind]. rewrite app_nil_r. reflexivity.
Qed.

Lemma scenario_result_renumber i j times r s b :
  scenario_result env parse_unit V i times r s = Ok b ->
  scenario_result env parse_unit V j times r s = Ok (map (renumber env j) b).
Proof.
  unfold scenario_result. destruct (row_unit env parse_unit r) as [u|e]; [|discriminate]. cbn [bind].
  destruct (v_drive env V (row_driver env times r u) s) as [s' [[]|e]]; [|discriminate].
  unfold package. destruct (create_tss env _ _ _) as [outs|e]; [|discriminate]. cbn [bind].
  destruct (has_dup _ _); [discriminate|].
  match goal with |- Ok (map ?f ?l) = _ -> _ => generalize l; intros L; intros H; assert (E : b = map f L) by congruence end.
  rewrite E. f_equal. rewrite map_map. apply map_ext. intros o. unfold renumber. cbn [o_meta o_points]. rewrite mset_mset. reflexivity.
Qed.

(** Running the table = running each row alone. *)
Lemma each_alone sc dv s s' out :
  table env sc -> refl_num env ->
  (forall ts s1, v_set_delta_t env V (PQ ts) s = (s1, Ok tt) -> Rel s1 s1) ->
  run_scenarios env parse_unit V sc dv s = (s', Ok out) ->
  exists bs, out = List.concat bs /\ List.length bs = List.length (selected env dv sc) /\
    forall i r b, nth_error (selected env dv sc) i = Some r -> nth_error bs i = Some b ->
      snd (run_scenarios env parse_unit V (mkScm env (s_times env sc) [r]) dv s) = Ok (map (renumber env 0) b).
Proof.
  intros T Hr HR H. destruct (run_ok_inv sc dv s s' out H) as (ts & s1 & Hts & Hdt & Hne & Hdup).
  pose proof (run_scenarios_ok env parse_unit V Rel Rel_drive Rel_after Out_len Out_vars sc dv s ts s1
    T Hr Hne (proj2 (chosen_select env _ ts) Hts) Hdt (HR _ _ Hdt) Hdup) as E.
  rewrite H in E. cbn [snd] in E. symmetry in E. apply collect_ok in E as (bs & E & ->).
  exists bs. split; [reflexivity|].
  assert (L : List.length bs = List.length (driver_rows env V (save_paras_meta env V s) dv sc)).
  { rewrite <- (mapi_length (fun i r => scenario_result env parse_unit V i (s_times env sc) r s1) _ 0).
    rewrite E, map_length. reflexivity. }
  unfold driver_rows in L. rewrite map_length in L. split; [exact L|].
  intros i r b Hi Hb.
  assert (K : nth_error (mapi (fun i r => scenario_result env parse_unit V i (s_times env sc) r s1) 0
                (driver_rows env V (save_paras_meta env V s) dv sc)) i = Some (Ok b)).
  { rewrite E, nth_error_map, Hb. reflexivity. }
  rewrite mapi_nth in K. unfold driver_rows in K. rewrite nth_error_map, Hi in K. cbn [option_map Nat.add] in K.
  injection K as K. apply nth_error_In in Hi. apply selected_world in Hi as [Hi Hw].
  change (mkScm env (s_times env sc) [r]) with (one_row (s_times env sc) r).
  rewrite (one_row_eq (s_times env sc) r dv s ts s1); eauto using scenario_result_renumber.
  apply (proj1 T), Hi.
Qed.

(** Missing values. *)
Lemma gaps_closed times times' r r' dv s ts s1 :
  refl_num env -> distinct_keys env (r_meta env r) -> world_row env dv r ->
  chosen_timestep env times ts -> chosen_timestep env times' ts ->
  v_set_delta_t env V (PQ ts) s = (s1, Ok tt) -> Rel s1 s1 ->
  r_meta env r' = r_meta env r ->
  drop_nan env times (r_vals env r) = drop_nan env times' (r_vals env r') ->
  snd (run_scenarios env parse_unit V (mkScm env times [r]) dv s) =
  snd (run_scenarios env parse_unit V (mkScm env times' [r']) dv s).
Proof.
  intros Hr Hd Hw H1 H2 Hdt HR Em Ed.
  change (mkScm env times [r]) with (one_row times r). change (mkScm env times' [r']) with (one_row times' r').
  rewrite (one_row_eq times r dv s ts s1) by assumption.
  rewrite (one_row_eq times' r' dv s ts s1); try assumption.
  - unfold scenario_result, package, row_driver. cbn [r_vals r_meta]. rewrite Em, Ed. reflexivity.
  - rewrite Em. exact Hd.
  - unfold world_row. rewrite Em. exact Hw.
Qed.

(** Duplicates. *)
Lemma has_dup_iff (l : list (Meta env)) :
  has_dup env l = true <-> exists i j a b, (i < j)%nat /\ nth_error l i = Some a /\ nth_error l j = Some b /\
                           meta_eqb env a b = true.
Proof.
  induction l as [|m l IH]; cbn [has_dup].
  - split; [discriminate|]. intros (i & j & a & b & _ & H & _). destruct i; discriminate.
  - rewrite orb_true_iff. split.
    + intros [H|H].
      * apply existsb_exists in H as (b & Hi & Hb). apply In_nth_error in Hi as (j & Hj).
        exists 0%nat, (S j), m, b. repeat split; auto. lia.
      * apply IH in H as (i & j & a & b & Hij & Ha & Hb & K). exists (S i), (S j), a, b.
        repeat split; auto. lia.
    + intros (i & j & a & b & Hij & Ha & Hb & K). destruct j as [|j]; [lia|]. cbn in Hb.
      destruct i as [|i].
      * cbn in Ha. injection Ha as <-. left. apply existsb_exists. exists b. split; [eapply nth_error_In; eauto|exact K].
      * right. apply IH. exists i, j, a, b. repeat split; auto. lia.
Qed.

Lemma same_scenario_dup sc dv s : table env sc -> refl_num env ->
  (has_dup env (map (r_meta env) (driver_rows env V (save_paras_meta env V s) dv sc)) = true <->
   exists i j r r', (i < j)%nat /\ nth_error (selected env dv sc) i = Some r /\
     nth_error (selected env dv sc) j = Some r' /\ same_scenario env V s r r').
Proof.
  intros T Hr. rewrite has_dup_iff. unfold driver_rows. rewrite map_map. cbn [r_meta].
  split.
  - intros (i & j & a & b & Hij & Ha & Hb & K).
    rewrite nth_error_map in Ha, Hb.
    destruct (nth_error (selected env dv sc) i) as [r|] eqn:Er; [|discriminate].
    destruct (nth_error (selected env dv sc) j) as [r'|] eqn:Er'; [|discriminate].
    cbn in Ha, Hb. injection Ha as <-. injection Hb as <-.
    exists i, j, r, r'. repeat split; auto. intros k Hk.
    pose proof (meta_eqb_mget env _ _ K k) as Q. rewrite !annotate_not_overwritten in Q by exact Hk. exact Q.
  - intros (i & j & r & r' & Hij & Er & Er' & K).
    exists i, j, (annotate env V (save_paras_meta env V s) (r_meta env r)),
                 (annotate env V (save_paras_meta env V s) (r_meta env r')).
    split; [exact Hij|]. rewrite !nth_error_map, Er, Er'. split; [reflexivity|]. split; [reflexivity|].
    assert (I1 : In r (s_rows env sc)) by (eapply proj1, selected_world, nth_error_In; exact Er).
    assert (I2 : In r' (s_rows env sc)) by (eapply proj1, selected_world, nth_error_In; exact Er').
    apply meta_eqb_of_mget.
    + apply mkeys_annotate. apply (proj2 T); assumption.
    + apply distinct_annotate, (proj1 T), I1.
    + intros k. destruct (overwritten_dec s k) as [Ho|Ho].
      * rewrite (annotate_overwritten s (r_meta env r) (r_meta env r') k Ho). apply mrel_refl, Hr.
      * rewrite !annotate_not_overwritten by exact Ho. apply K, Ho.
Qed.

Lemma dup_error sc dv s ts s1 i j r r' :
  table env sc -> refl_num env ->
  chosen_timestep env (s_times env sc) ts -> v_set_delta_t env V (PQ ts) s = (s1, Ok tt) ->
  (i < j)%nat -> nth_error (selected env dv sc) i = Some r ->
  nth_error (selected env dv sc) j = Some r' -> same_scenario env V s r r' ->
  snd (run_scenarios env parse_unit V sc dv s) = Err NonUniqueMetadataError.
Proof.
  intros T Hr Hts Hdt Hij Hi Hj HS.
  assert (D : has_dup env (map (r_meta env) (driver_rows env V (save_paras_meta env V s) dv sc)) = true).
  { apply same_scenario_dup; eauto 10. }
  rewrite run_scenarios_eq. apply chosen_select in Hts. rewrite Hts, Hdt. cbv zeta. rewrite D.
  destruct (selected env dv sc); [destruct i; discriminate|]. reflexivity.
Qed.

Lemma meta_diff a b : mkeys env a = mkeys env b -> distinct_keys env a ->
  meta_eqb env a b = false -> ~ same_meta env a b.
Proof.
  intros Hk Hd H K. rewrite (meta_eqb_of_mget env a b Hk Hd K) in H. discriminate.
Qed.
End Layout.
