(** C63: ensembles. *)
From Coq Require Import List String QArith Bool Arith Lia.
From Verif Require Import Arith Pint Base TwoLayer Impulse Scm Api Rows SpecRows GenRows GenRowsIR Demo.
Import ListNotations.

(** After any history of calls, column [j] of the ensemble is the model built
    from the [j]-th parameters and driven by the [j]-th column: same results,
    same parameters, and the next call succeeds or raises alike. *)
Theorem c63_columns : forall (env : Env) k pE pe args s0 cs j,
  tl_new (rows env k) args = Ok s0 -> Forall (assigns_no_nan env k) cs -> (j <= k)%nat ->
  exists s0', tl_new env (col_tl_args env k j args) = Ok s0' /\
    let s := tl_calls (rows env k) pE (map (on_ensemble env k) cs) s0 in
    let s' := tl_calls env pe (map (on_column env k j) cs) s0' in
    tl_outputs env s' = col_outputs env k j (tl_outputs (rows env k) s) /\
    same_parameters env k j s s' /\
    forall c, assigns_no_nan env k c ->
      snd (tl_call env pe (on_column env k j c) s') = snd (tl_call (rows env k) pE (on_ensemble env k c) s).
Proof.
  intros env k pE pe args s0 cs j H0 Hcs Hj. pose proof (s_new env k j args) as N. rewrite H0 in N. cbn [rmap] in N.
  exists (col_tl env k j s0). split; [exact N|]. cbv zeta.
  assert (C0 : clean env k s0).
  { unfold clean. unfold tl_new in H0.
    assert (Z : forall (P : TL (rows env k) -> Prop) A (m : Meth (TL (rows env k)) A) h s1, (forall s a, snd (h a s) = Ok tt -> P (fst (h a s))) -> snd (mbind m h s1) = Ok tt -> P (fst (mbind m h s1))).
    { intros P A m h s1 HP. unfold mbind. destruct (m s1) as (s2 & [a|e]); [apply HP|discriminate]. }
    assert (W : snd (tl_init_body (rows env k) args (tl_blank (rows env k))) = Ok tt -> tl_erf _ (fst (tl_init_body (rows env k) args (tl_blank (rows env k)))) = None).
    { unfold tl_init_body. repeat (apply (Z (fun s => tl_erf _ s = None)); intros ?s []). reflexivity. }
    destruct (tl_init_body (rows env k) args (tl_blank (rows env k))) as (s1 & [[]|e]); [|discriminate].
    injection H0 as <-. cbn [fst snd] in W. rewrite (W eq_refl). exact I. }
  destruct (s_calls env k j pE pe Hj cs s0 C0 Hcs) as (-> & C1). split; [apply col_outs|].
  split; [repeat split|]. intros c Hc. destruct (s_call env k j pE pe Hj c _ C1 Hc) as (-> & _). reflexivity.
Qed.

(** The constructor accepts the arrays exactly when it accepts the numbers of
    each column, and raises the same exception otherwise. *)
Theorem c63_constructor : forall (env : Env) k args j e,
  (tl_new (rows env k) args = Err e <-> tl_new env (col_tl_args env k j args) = Err e) /\
  ((exists s, tl_new (rows env k) args = Ok s) <-> exists s', tl_new env (col_tl_args env k j args) = Ok s').
Proof.
  intros env k args j e. rewrite (s_new env k j args). destruct (tl_new (rows env k) args) as [s|x]; cbn [rmap]; repeat split; intros H;
    try discriminate; try (injection H as ->; reflexivity); try (destruct H; discriminate); eauto.
Qed.

(** One ensemble run: it raises exactly what the separate runs raise, and
    column [j] of its results is the separate run for column [j]. *)
Theorem c63_run : forall (env : Env) k pE pe args s0 cs j e,
  tl_new (rows env k) args = Ok s0 -> Forall (assigns_no_nan env k) cs -> (j <= k)%nat -> no_nan env k e ->
  exists s0', tl_new env (col_tl_args env k j args) = Ok s0' /\
    let s := tl_calls (rows env k) pE (map (on_ensemble env k) cs) s0 in
    let s' := tl_calls env pe (map (on_column env k j) cs) s0' in
    snd (tl_drive env (col_driver env k j e) s') = snd (tl_drive_columns env k e s) /\
    tl_outputs env (fst (tl_drive env (col_driver env k j e) s')) =
      col_outputs env k j (tl_outputs (rows env k) (fst (tl_drive_columns env k e s))).
Proof.
  intros env k pE pe args s0 cs j e H0 Hcs Hj He.
  pose proof (s_new env k j args) as N. rewrite H0 in N. cbn [rmap] in N.
  exists (col_tl env k j s0). split; [exact N|]. cbv zeta.
  assert (C0 : clean env k s0).
  { unfold clean. unfold tl_new in H0.
    assert (Z : forall (P : TL (rows env k) -> Prop) A (m : Meth (TL (rows env k)) A) h s1, (forall s a, snd (h a s) = Ok tt -> P (fst (h a s))) -> snd (mbind m h s1) = Ok tt -> P (fst (mbind m h s1))).
    { intros P A m h s1 HP. unfold mbind. destruct (m s1) as (s2 & [a|x]); [apply HP|discriminate]. }
    assert (W : snd (tl_init_body (rows env k) args (tl_blank (rows env k))) = Ok tt -> tl_erf _ (fst (tl_init_body (rows env k) args (tl_blank (rows env k)))) = None).
    { unfold tl_init_body. repeat (apply (Z (fun s => tl_erf _ s = None)); intros ?s []). reflexivity. }
    destruct (tl_init_body (rows env k) args (tl_blank (rows env k))) as (s1 & [[]|x]); [|discriminate].
    injection H0 as <-. cbn [fst snd] in W. rewrite (W eq_refl). exact I. }
  destruct (s_calls env k j pE pe Hj cs s0 C0 Hcs) as (-> & C1).
  set (s := tl_calls (rows env k) pE (map (on_ensemble env k) cs) s0) in *. clearbody s.
  unfold tl_drive, tl_drive_columns. cbn [tl_set_drivers]. unfold mbind.
  rewrite (s_erf env k j e s). pose proof (k_erf env k e He s C1) as C2.
  destruct (tl_set_erf (rows env k) (Some e) s) as (s1 & [u|x]); cbn [fst snd rmap] in *; [|split; [reflexivity|apply col_outs]].
  rewrite (s_reset env k j s1 Hj C2). pose proof (k_reset env k s1 C2) as C3.
  destruct (tl_reset (rows env k) s1) as (s2 & [u2|x]); cbn [fst snd rmap] in *; [|split; [reflexivity|apply col_outs]].
  rewrite (s_run env k j s2). cbn [fst snd]. split; [apply rmap_id|apply col_outs].
Qed.

(** The columns are independent: what is assigned to the other columns makes no
    difference to column [j]. *)
Theorem c63_independent : forall (env : Env) k pE args args2 s1 s2 cs cs2 j,
  tl_new (rows env k) args = Ok s1 -> tl_new (rows env k) args2 = Ok s2 ->
  Forall (assigns_no_nan env k) cs -> Forall (assigns_no_nan env k) cs2 -> (j <= k)%nat ->
  col_tl_args env k j args = col_tl_args env k j args2 ->
  map (on_column env k j) cs = map (on_column env k j) cs2 ->
  col_outputs env k j (tl_outputs (rows env k) (tl_calls (rows env k) pE (map (on_ensemble env k) cs) s1)) =
  col_outputs env k j (tl_outputs (rows env k) (tl_calls (rows env k) pE (map (on_ensemble env k) cs2) s2)).
Proof.
  intros env k pE args args2 s1 s2 cs cs2 j H1 H2 F1 F2 Hj Ha Hc.
  destruct (c63_columns env k pE (fun _ => None) args s1 cs j H1 F1 Hj) as (s1' & N1 & O1 & _).
  destruct (c63_columns env k pE (fun _ => None) args2 s2 cs2 j H2 F2 Hj) as (s2' & N2 & O2 & _).
  rewrite Ha, N2 in N1. injection N1 as <-. rewrite <- O1, <- O2, Hc. reflexivity.
Qed.

(** [reset] after an accepted assignment to [erf]: [ModelStateError] exactly if
    a value is missing in some row and column. *)
Theorem c63_missing : forall (env : Env) k q s,
  snd (tl_set_erf (rows env k) (Some q) s) = Ok tt ->
  let s1 := fst (tl_set_erf (rows env k) (Some q) s) in
  ((exists r j, In r (mags q) /\ (j <= k)%nat /\ nisnan env (r j) = true) -> tl_reset (rows env k) s1 = (s1, Err ModelStateError)) /\
  (no_nan env k q -> snd (tl_reset (rows env k) s1) = Ok tt).
Proof.
  intros env k q s H s1. unfold s1. clear s1. revert H. unfold tl_set_erf, mbind at 1 2 3, mread at 1 2 3. cbn [assert_quantity_arr].
  destruct (to_mags (rows env k) q u_Wm2) as [m|[]] eqn:Em; cbn [snd]; try discriminate.
  unfold mbind, mmod, mread. rewrite Em. cbn [fst snd]. intros _. split.
  - intros (r & j & Hr & Hj & Hn). unfold tl_reset, mbind, mread, mraise. cbn [tl_erf RecordSet.set].
    match goal with |- context [existsb ?f ?l] => assert (X : existsb f l = true) end.
    { apply existsb_exists. exists r. split; [exact Hr|]. cbn. apply orb_true_iff. destruct j as [|j]; [left; exact Hn|right].
      apply existsb_exists. exists (S j). split; [apply in_seq; lia|exact Hn]. }
    cbn in *. rewrite X. reflexivity.
  - intros Hq. apply (nan_rows env k) in Hq. unfold tl_reset, mbind, mread, mraise, mmod. cbn in *. rewrite Hq. reflexivity.
Qed.

(** The impulse-response model: parameters are numbers, the driver has columns. *)
Theorem c63_ir_columns : forall (env : Env) k pE pe args s0 cs j,
  ir_new (rows env k) (number_args env k args) = Ok s0 -> Forall (ir_assigns_no_nan env k) cs -> (j <= k)%nat ->
  exists s0', ir_new env args = Ok s0' /\
    let s := ir_calls (rows env k) pE (map (on_ir_ensemble env k) cs) s0 in
    let s' := ir_calls env pe (map (on_ir_column env k j) cs) s0' in
    ir_outputs env s' = col_outputs env k j (ir_outputs (rows env k) s) /\
    forall c, ir_assigns_no_nan env k c ->
      snd (ir_call env pe (on_ir_column env k j c) s') = snd (ir_call (rows env k) pE (on_ir_ensemble env k c) s).
Proof.
  intros env k pE pe args s0 cs j H0 Hcs Hj. pose proof (i_new env k j args) as N. rewrite H0 in N.
  destruct (ir_new env args) as [s0'|]; [|contradiction]. destruct N as (R & Z). exists s0'. split; [reflexivity|]. cbv zeta.
  assert (C0 : iclean env k s0) by (unfold iclean; rewrite Z; exact I).
  destruct (i_calls env k j pE pe Hj cs s0 s0' C0 Hcs R) as (C1 & R1). split; [apply i_outs, R1|].
  intros c Hc. apply (i_call env k j pE pe Hj c _ _ C1 Hc R1).
Qed.

Theorem c63_ir_constructor : forall (env : Env) k args e,
  (ir_new (rows env k) (number_args env k args) = Err e <-> ir_new env args = Err e) /\
  ((exists s, ir_new (rows env k) (number_args env k args) = Ok s) <-> exists s', ir_new env args = Ok s').
Proof.
  intros env k args e. pose proof (i_new env k 0 args) as N.
  destruct (ir_new (rows env k) (number_args env k args)) as [s|x], (ir_new env args) as [s'|x']; try contradiction;
    [|subst x']; repeat split; intros H; try discriminate; try (destruct H; discriminate); try (injection H as ->; reflexivity); eauto.
Qed.

Theorem c63_ir_run : forall (env : Env) k pE pe args s0 cs j e,
  ir_new (rows env k) (number_args env k args) = Ok s0 -> Forall (ir_assigns_no_nan env k) cs -> (j <= k)%nat -> no_nan env k e ->
  exists s0', ir_new env args = Ok s0' /\
    let s := ir_calls (rows env k) pE (map (on_ir_ensemble env k) cs) s0 in
    let s' := ir_calls env pe (map (on_ir_column env k j) cs) s0' in
    snd (ir_drive env (col_driver env k j e) s') = snd (ir_drive_columns env k e s) /\
    ir_outputs env (fst (ir_drive env (col_driver env k j e) s')) =
      col_outputs env k j (ir_outputs (rows env k) (fst (ir_drive_columns env k e s))).
Proof.
  intros env k pE pe args s0 cs j e H0 Hcs Hj He. pose proof (i_new env k j args) as N. rewrite H0 in N.
  destruct (ir_new env args) as [s0'|]; [|contradiction]. destruct N as (R & Z). exists s0'. split; [reflexivity|]. cbv zeta.
  assert (C0 : iclean env k s0) by (unfold iclean; rewrite Z; exact I).
  destruct (i_calls env k j pE pe Hj cs s0 s0' C0 Hcs R) as (C1 & R1).
  set (s := ir_calls (rows env k) pE (map (on_ir_ensemble env k) cs) s0) in *. clearbody s.
  set (s' := ir_calls env pe (map (on_ir_column env k j) cs) s0') in *. clearbody s'.
  unfold ir_drive, ir_drive_columns. cbn [ir_set_drivers]. unfold mbind.
  pose proof (i_erf env k j e s s' R1) as (R2 & S2). pose proof (ik_erf env k e He s C1) as C2.
  destruct (ir_set_erf (rows env k) (Some e) s) as (t & [u|x]), (ir_set_erf env (Some (col_driver env k j e)) s') as (t' & [u'|x']);
    cbn [fst snd] in *; try contradiction; [|subst x'; split; [reflexivity|apply i_outs, R2]].
  pose proof (i_reset env k j t t' Hj C2 R2) as (R3 & S3). pose proof (ik_reset env k t C2) as C3.
  destruct (ir_reset (rows env k) t) as (t2 & [u2|x]), (ir_reset env t') as (t2' & [u2'|x']);
    cbn [fst snd same_result] in *; try contradiction; [|subst x'; split; [reflexivity|apply i_outs, R3]].
  pose proof (i_run env k j t2 t2' R3) as (R4 & S4). split; [|apply i_outs, R4].
  exact (same_result_eq _ _ S4).
Qed.

(** ** A case: two columns *)
Definition two_args : TLArgs (rows demo 1) :=
  mkTLArgs (rows demo 1) (PQ (@mkQ (rows demo 1) (fun j => match j with O => Some 50 | _ => Some 70 end) u_m))
    (PQ (mkQty (rows demo 1) 1200 u_m)) (PQ (mkQty (rows demo 1) (125 # 100) u_Wm2C))
    (PQ (mkQty (rows demo 1) 0 u_Wm2C2)) (PQ (mkQty (rows demo 1) (13 # 10) u_none))
    (PQ (mkQty (rows demo 1) (8 # 10) u_Wm2C)) (PQ (mkQty (rows demo 1) 1 u_yr)).
Definition two_erf : QArr (rows demo 1) :=
  @mkQA (rows demo 1) [(fun _ => Some 1); (fun j => match j with O => Some 2 | _ => Some 3 end); (fun _ => Some 0)] u_Wm2.
Example c63_case :
  no_nan demo 1 two_erf /\
  match tl_new (rows demo 1) two_args with
  | Err _ => False
  | Ok s =>
      snd (tl_drive_columns demo 1 two_erf s) = Ok tt /\
      let t := tl_temp_upper _ (fst (tl_drive_columns demo 1 two_erf s)) in
      let t0 := nth 1 (col_values demo 1 0 t) None in let t1 := nth 1 (col_values demo 1 1 t) None in
      t0 <> None /\ t1 <> None /\ t0 <> t1
  end.
Proof.
  split.
  - intros r j [<-|[<-|[<-|[]]]] Hj; try reflexivity. destruct j; reflexivity.
  - vm_compute. repeat split; discriminate.
Qed.
Example c63_ir_case :
  match ir_new (rows demo 1) (number_args demo 1 (ir_defaults demo)) with
  | Err _ => False
  | Ok s => snd (ir_drive_columns demo 1 two_erf s) = Ok tt /\
      let t := ir_temp1 _ (fst (ir_drive_columns demo 1 two_erf s)) in
      nth 2 (col_values demo 1 0 t) None <> nth 2 (col_values demo 1 1 t) None
  end.
Proof. vm_compute. split; [reflexivity|discriminate]. Qed.
