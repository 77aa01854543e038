(** Consequences of sharing the driver's array. *)
From Coq Require Import List String QArith Bool Arith Lia.
From Verif Require Import Arith Pint Base TwoLayer Impulse Scm Api Heap SpecHeap GenTL GenIR GenHeap GenWorld.
Import ListNotations.
Local Open Scope nat_scope.

Section GenShare.
Variable env : Env.
Variable parse_unit : string -> option (Qty env).
Notation Heap := (Heap env).
Notation World := (World env).
Notation w_step := (w_step env parse_unit).
Notation w_steps := (w_steps env parse_unit).

Lemma model_tl w k s : model_state env w k = Some (STL s) <->
  exists o, nth_error (w_objs w) k = Some (OTL o) /\ view env (tl_class env) (w_heap w) o = s.
Proof.
  unfold model_state. split.
  - destruct (nth_error (w_objs w) k) as [[o|o]|]; cbn; try discriminate.
    intros H. injection H as <-. eauto.
  - intros (o & -> & <-). reflexivity.
Qed.
Lemma model_ir w k s : model_state env w k = Some (SIR s) <->
  exists o, nth_error (w_objs w) k = Some (OIR o) /\ view env (ir_class env) (w_heap w) o = s.
Proof.
  unfold model_state. split.
  - destruct (nth_error (w_objs w) k) as [[o|o]|]; cbn; try discriminate.
    intros H. injection H as <-. eauto.
  - intros (o & -> & <-). reflexivity.
Qed.

Lemma upd_same {A} (l : list A) k x y : nth_error l k = Some x -> nth_error (upd l k y) k = Some y.
Proof.
  intros H. rewrite nth_error_upd, Nat.eqb_refl.
  assert (k < List.length l) by (apply nth_error_Some; now rewrite H).
  destruct (Nat.ltb_spec k (List.length l)); [reflexivity|lia].
Qed.

Lemma call_value_tl w k c s : world_wf env w -> model_state env w k = Some (STL s) ->
  qarg_ok env (w_heap w) (qarg_tl env c) = true ->
  model_state env (fst (w_step (WTL k c) w)) k =
    Some (STL (fst (tl_call env parse_unit (tl_by_value env (w_heap w) c) s))) /\
  snd (w_step (WTL k c) w) = snd (tl_call env parse_unit (tl_by_value env (w_heap w) c) s).
Proof.
  intros Ww Hm Hq. apply model_tl in Hm as (o & Ek & Ev).
  destruct (step_tl env parse_unit w k c o Ww Ek Hq) as (h' & o' & r & -> & Hc & Hv).
  rewrite Ev in Hv. rewrite <- Hv. cbn [fst snd]. split; [|reflexivity].
  apply model_tl. exists o'. cbn [w_heap w_objs]. split; [eapply upd_same; eauto|reflexivity].
Qed.
Lemma call_value_ir w k c s : world_wf env w -> model_state env w k = Some (SIR s) ->
  qarg_ok env (w_heap w) (qarg_ir env c) = true ->
  model_state env (fst (w_step (WIR k c) w)) k =
    Some (SIR (fst (ir_call env parse_unit (ir_by_value env (w_heap w) c) s))) /\
  snd (w_step (WIR k c) w) = snd (ir_call env parse_unit (ir_by_value env (w_heap w) c) s).
Proof.
  intros Ww Hm Hq. apply model_ir in Hm as (o & Ek & Ev).
  destruct (step_ir env parse_unit w k c o Ww Ek Hq) as (h' & o' & r & -> & Hc & Hv).
  rewrite Ev in Hv. rewrite <- Hv. cbn [fst snd]. split; [|reflexivity].
  apply model_ir. exists o'. cbn [w_heap w_objs]. split; [eapply upd_same; eauto|reflexivity].
Qed.

(** [set_erf] in the two cases. *)
Definition after_set (C : Class env) (o : HObj (m_state env C)) q a : HObj (m_state env C) :=
  put_erf_mag env C (Some a) (put_erf env C (Some q) o).
Lemma set_erf_eq C h (o : HObj (m_state env C)) q a u m :
  nth_error (h_qtys h) q = Some (mkQObj a u) -> to_mags env (hqty env h q) u_Wm2 = Ok m ->
  h_set_erf env C (Some q) (h, o) =
  if units_eqb u u_Wm2 then ((h, after_set C o q a), Ok tt)
  else ((halloc env h false m, after_set C o q (List.length (h_arrs h))), Ok tt).
Proof.
  intros Eq Em. unfold h_set_erf, mbind, mread, omod, mmod, onew, mret. cbn [fst snd].
  unfold assert_quantity_arr. rewrite Em. cbn [fst snd]. rewrite Eq. cbn [q_units q_arr].
  destruct (units_eqb u u_Wm2); reflexivity.
Qed.

(** *** Class-independent: the state after the caller has overwritten the
    driver's array with [l'] and given its quantity the units [u']. *)
Section Touch.
Variable C : Class env.
Variables (h : Heap) (o : HObj (m_state env C)) (q a : nat) (u : Units) (m : list (num env)).
Hypothesis Hh : heap_wf env h.
Hypothesis Ho : obj_wf env h o.
Hypothesis Hq : nth_error (h_qtys h) q = Some (mkQObj a u).
Hypothesis Hm : to_mags env (hqty env h q) u_Wm2 = Ok m.

Variables (h1 : Heap) (a1 : nat).
Hypothesis Hset : h_set_erf env C (Some q) (h, o) = ((h1, after_set C o q a1), Ok tt).
Variables (h2 : Heap) (l' : list (num env)) (u' : Units).
Hypothesis Ha : harr env h2 a = l'.
Hypothesis Hb : forall b, b <> a -> harr env h2 b = harr env h1 b.
Hypothesis Hq2 : nth_error (h_qtys h2) q = Some (mkQObj a u').

Lemma touch_view :
  view env C h2 (after_set C o q a1) =
  m_fill env C (o_s o) (Some (mkQA l' u')) (Some (if units_eqb u u_Wm2 then l' else m))
    (harr env h (o_r1 o)) (harr env h (o_r2 o)) (harr env h (o_r3 o)).
Proof.
  assert (Pa : hpublic env h a = true) by exact (Hh q _ Hq).
  pose proof (hpublic_lt _ _ _ Pa) as La.
  rewrite (set_erf_eq C h o q a u m Hq Hm) in Hset.
  assert (R : forall b, In b [o_r1 o; o_r2 o; o_r3 o] -> b <> a /\ b < hlen env h).
  { intros b Ib. destruct Ho. split.
    - intros Z; subst b; destruct Ib as [E|[E|[E|[]]]]; rewrite <- E in Pa; congruence.
    - destruct Ib as [<-|[<-|[<-|[]]]]; assumption. }
  assert (H1 : forall b, b < hlen env h -> harr env h1 b = harr env h b).
  { intros b Lb. destruct (units_eqb u u_Wm2).
    - injection Hset as <- _. reflexivity.
    - injection Hset as <- _. apply halloc_old. exact Lb. }
  unfold view. cbn [after_set put_erf_mag put_erf o_s o_erf o_erf_mag o_r1 o_r2 o_r3 option_map].
  assert (R1 : harr env h2 (o_r1 o) = harr env h (o_r1 o)) by (rewrite Hb, H1 by (apply R; cbn; auto); reflexivity).
  assert (R2 : harr env h2 (o_r2 o) = harr env h (o_r2 o)) by (rewrite Hb, H1 by (apply R; cbn; auto); reflexivity).
  assert (R3 : harr env h2 (o_r3 o) = harr env h (o_r3 o)) by (rewrite Hb, H1 by (apply R; cbn; auto); reflexivity).
  rewrite R1, R2, R3.
  f_equal.
  - f_equal. unfold hqty. rewrite Hq2. cbn [q_arr q_units]. now rewrite Ha.
  - f_equal. destruct (units_eqb u u_Wm2).
    + injection Hset as _ E. rewrite <- E. exact Ha.
    + injection Hset as Eh E.
      rewrite <- E.
      change (List.length (h_arrs h)) with (hlen env h).
      rewrite Hb by lia. rewrite <- Eh. rewrite harr_halloc. now rewrite Nat.eqb_refl.
Qed.
End Touch.

(** *** Runs do not look at [_erf] except for its length and NaN *)
Definition tl_E (x : option (QArr env)) (s : TL env) : TL env := with_erf env s x (tl_erf_mag env s).
Definition tcomm {A} (p : Meth (TL env) A) : Prop := forall s x, p (tl_E x s) = (tl_E x (fst (p s)), snd (p s)).
Lemma tcomm_bind {A B} (p : Meth (TL env) A) (f : A -> Meth (TL env) B) :
  tcomm p -> (forall a, tcomm (f a)) -> tcomm (mbind p f).
Proof.
  intros Hp Hf s x. unfold mbind. rewrite Hp. destruct (p s) as [s' [a|e]]; cbn [fst snd]; [apply Hf|reflexivity].
Qed.
Lemma tcomm_read {A} (r : TL env -> Res A) : (forall s x, r (tl_E x s) = r s) -> tcomm (mread r).
Proof. intros H s x. unfold mread. cbn. now rewrite H. Qed.
Lemma tcomm_mod f : (forall s x, f (tl_E x s) = tl_E x (f s)) -> tcomm (mmod f).
Proof. intros H s x. unfold mmod. cbn [fst snd]. now rewrite H. Qed.
Lemma tcomm_put1 i v : tcomm (tl_put_upper env i v).
Proof. apply tcomm_bind; [apply tcomm_read; reflexivity|]. intros l. apply tcomm_mod. reflexivity. Qed.
Lemma tcomm_put2 i v : tcomm (tl_put_lower env i v).
Proof. apply tcomm_bind; [apply tcomm_read; reflexivity|]. intros l. apply tcomm_mod. reflexivity. Qed.
Lemma tcomm_put3 i v : tcomm (tl_put_rndt env i v).
Proof. apply tcomm_bind; [apply tcomm_read; reflexivity|]. intros l. apply tcomm_mod. reflexivity. Qed.
Lemma tcomm_step : tcomm (tl_step env).
Proof.
  unfold tl_step. apply tcomm_bind; [apply tcomm_mod; reflexivity|]. intros _.
  apply tcomm_bind; [apply tcomm_read; reflexivity|]. intros [|j]; unfold tl_step_at.
  - apply tcomm_bind; [apply tcomm_put1|]. intros _. apply tcomm_bind; [apply tcomm_put2|]. intros _. apply tcomm_put3.
  - apply tcomm_bind; [apply tcomm_read; reflexivity|]. intros tu.
    apply tcomm_bind; [apply tcomm_put1|]. intros _.
    apply tcomm_bind; [apply tcomm_read; reflexivity|]. intros tl.
    apply tcomm_bind; [apply tcomm_put2|]. intros _.
    apply tcomm_bind; [apply tcomm_read; reflexivity|]. intros r. apply tcomm_put3.
Qed.
Lemma tcomm_steps n : tcomm (tl_steps env n).
Proof.
  induction n as [|n IH]; [intros s x; reflexivity|]. cbn [tl_steps].
  apply tcomm_bind; [apply tcomm_step|]. intros _. exact IH.
Qed.

Definition ir_E (x : option (QArr env)) (s : IR env) : IR env := iwith_erf env s x (ir_erf_mag env s).
Definition icomm {A} (p : Meth (IR env) A) : Prop := forall s x, p (ir_E x s) = (ir_E x (fst (p s)), snd (p s)).
Lemma icomm_bind {A B} (p : Meth (IR env) A) (f : A -> Meth (IR env) B) :
  icomm p -> (forall a, icomm (f a)) -> icomm (mbind p f).
Proof.
  intros Hp Hf s x. unfold mbind. rewrite Hp. destruct (p s) as [s' [a|e]]; cbn [fst snd]; [apply Hf|reflexivity].
Qed.
Lemma icomm_read {A} (r : IR env -> Res A) : (forall s x, r (ir_E x s) = r s) -> icomm (mread r).
Proof. intros H s x. unfold mread. cbn. now rewrite H. Qed.
Lemma icomm_mod f : (forall s x, f (ir_E x s) = ir_E x (f s)) -> icomm (mmod f).
Proof. intros H s x. unfold mmod. cbn [fst snd]. now rewrite H. Qed.
Lemma icomm_put1 i v : icomm (ir_put_temp1 env i v).
Proof. apply icomm_bind; [apply icomm_read; reflexivity|]. intros l. apply icomm_mod. reflexivity. Qed.
Lemma icomm_put2 i v : icomm (ir_put_temp2 env i v).
Proof. apply icomm_bind; [apply icomm_read; reflexivity|]. intros l. apply icomm_mod. reflexivity. Qed.
Lemma icomm_put3 i v : icomm (ir_put_rndt env i v).
Proof. apply icomm_bind; [apply icomm_read; reflexivity|]. intros l. apply icomm_mod. reflexivity. Qed.
Lemma icomm_step : icomm (ir_step env).
Proof.
  unfold ir_step. apply icomm_bind; [apply icomm_mod; reflexivity|]. intros _.
  apply icomm_bind; [apply icomm_read; reflexivity|]. intros [|j]; unfold ir_step_at.
  - apply icomm_bind; [apply icomm_put1|]. intros _. apply icomm_bind; [apply icomm_put2|]. intros _. apply icomm_put3.
  - apply icomm_bind; [apply icomm_read; reflexivity|]. intros tu.
    apply icomm_bind; [apply icomm_put1|]. intros _.
    apply icomm_bind; [apply icomm_read; reflexivity|]. intros tl.
    apply icomm_bind; [apply icomm_put2|]. intros _.
    apply icomm_bind; [apply icomm_read; reflexivity|]. intros r. apply icomm_put3.
Qed.
Lemma icomm_steps n : icomm (ir_steps env n).
Proof.
  induction n as [|n IH]; [intros s x; reflexivity|]. cbn [ir_steps].
  apply icomm_bind; [apply icomm_step|]. intros _. exact IH.
Qed.

(** [reset(); run()] with [_erf = e] and [_erf_mag = m] gives the outputs of a
    fresh run driven by any [e'] with those converted values. *)
Lemma tl_stale s e e' m : to_mags env e' u_Wm2 = Ok m ->
  existsb (nisnan env) (mags e) = false -> existsb (nisnan env) (mags e') = false ->
  List.length (mags e) = List.length (mags e') ->
  let r := mbind (tl_reset env) (fun _ => tl_run env) (with_erf env s (Some e) (Some m)) in
  let d := tl_drive env e' s in
  snd r = snd d /\ tl_outputs env (fst r) = tl_outputs env (fst d) /\ tl_erf env (fst r) = Some e.
Proof.
  intros Hm Hn Hn' Hl r d. unfold r, d, tl_drive, mbind. cbn [tl_set_drivers].
  rewrite (set_erf_ok env s e' m Hm).
  rewrite (reset_ok env (with_erf env s (Some e) (Some m)) e m) by (auto; reflexivity).
  rewrite (reset_ok env (with_erf env s (Some e') (Some m)) e' m) by (auto; reflexivity).
  unfold tl_run.
  set (s1 := with_run env (with_erf env s (Some e') (Some m)) None _ _ _).
  change (with_run env (with_erf env s (Some e) (Some m)) None
    (repeat (nnan env) (Datatypes.length m)) (repeat (nnan env) (Datatypes.length m))
    (repeat (nnan env) (Datatypes.length m))) with (tl_E (Some e) s1).
  change (tl_erf_len env (tl_E (Some e) s1)) with (List.length (mags e)).
  change (tl_erf_len env s1) with (List.length (mags e')). rewrite Hl, tcomm_steps. cbn [fst snd].
  repeat split.
Qed.
Lemma ir_stale s e e' m : to_mags env e' u_Wm2 = Ok m ->
  existsb (nisnan env) (mags e) = false -> existsb (nisnan env) (mags e') = false ->
  List.length (mags e) = List.length (mags e') ->
  let r := mbind (ir_reset env) (fun _ => ir_run env) (iwith_erf env s (Some e) (Some m)) in
  let d := ir_drive env e' s in
  snd r = snd d /\ ir_outputs env (fst r) = ir_outputs env (fst d) /\ ir_erf env (fst r) = Some e.
Proof.
  intros Hm Hn Hn' Hl r d. unfold r, d, ir_drive, mbind. cbn [ir_set_drivers].
  rewrite (iset_erf_ok env s e' m Hm).
  rewrite (ireset_ok env (iwith_erf env s (Some e) (Some m)) e m) by (auto; reflexivity).
  rewrite (ireset_ok env (iwith_erf env s (Some e') (Some m)) e' m) by (auto; reflexivity).
  unfold ir_run.
  set (s1 := iwith_run env (iwith_erf env s (Some e') (Some m)) None _ _ _).
  change (iwith_run env (iwith_erf env s (Some e) (Some m)) None
    (repeat (nnan env) (Datatypes.length m)) (repeat (nnan env) (Datatypes.length m))
    (repeat (nnan env) (Datatypes.length m))) with (ir_E (Some e) s1).
  change (ir_erf_len env (ir_E (Some e) s1)) with (List.length (mags e)).
  change (ir_erf_len env s1) with (List.length (mags e')). rewrite Hl, icomm_steps. cbn [fst snd].
  repeat split.
Qed.

(** *** At the level of worlds *)
Lemma write_heap (h : Heap) a (l : list (num env)) : hpublic env h a = true ->
  harr env (hstore env h a l) a = l /\
  (forall b, b <> a -> harr env (hstore env h a l) b = harr env h b) /\
  h_qtys (hstore env h a l) = h_qtys h.
Proof.
  intros P. apply hpublic_lt in P. split; [|split; [|reflexivity]].
  - rewrite harr_hstore by exact P. now rewrite Nat.eqb_refl.
  - intros b N. rewrite harr_hstore by exact P. destruct (Nat.eqb_spec b a); [contradiction|reflexivity].
Qed.
Lemma ito_heap (h : Heap) q a u u2 l : nth_error (h_qtys h) q = Some (mkQObj a u) -> hpublic env h a = true ->
  to_mags env (hqty env h q) u2 = Ok l ->
  exists h2, h_ito env h q u2 = (h2, Ok tt) /\ harr env h2 a = l /\
    (forall b, b <> a -> harr env h2 b = harr env h b) /\
    nth_error (h_qtys h2) q = Some (mkQObj a u2).
Proof.
  intros Hq P Hl. unfold h_ito. rewrite Hq, Hl. eexists. split; [reflexivity|]. cbn [q_arr q_units h_qtys].
  assert (Q : forall h1 : Heap, h_qtys h1 = h_qtys h ->
    nth_error (upd (h_qtys h1) q (mkQObj a u2)) q = Some (mkQObj a u2)).
  { intros h1 ->. eapply upd_same; eauto. }
  destruct (units_eqb u u2) eqn:E.
  - split; [|split; [reflexivity|apply Q; reflexivity]]. unfold to_mags, hqty in Hl. rewrite Hq in Hl.
    cbn [aunits mags q_units q_arr] in Hl. destruct (dim_eqb env u u2); [|discriminate]. rewrite E in Hl. now injection Hl.
  - destruct (write_heap h a l P) as (W1 & W2 & W3).
    split; [exact W1|]. split; [exact W2|apply Q; exact W3].
Qed.

Lemma set_frame C (h h1 : Heap) (o : HObj (m_state env C)) q a u m a1 :
  nth_error (h_qtys h) q = Some (mkQObj a u) -> to_mags env (hqty env h q) u_Wm2 = Ok m ->
  h_set_erf env C (Some q) (h, o) = ((h1, after_set C o q a1), Ok tt) -> hpublic env h a = true ->
  h_qtys h1 = h_qtys h /\ harr env h1 a = harr env h a /\ hpublic env h1 a = true.
Proof.
  intros Hq Hm Hs P. rewrite (set_erf_eq C h o q a u m Hq Hm) in Hs.
  destruct (units_eqb u u_Wm2); injection Hs as <- _; [auto|].
  split; [reflexivity|]. split.
  - apply halloc_old. now apply hpublic_lt.
  - rewrite hpublic_halloc. destruct (Nat.eqb_spec a (hlen env h)) as [E|_]; [|exact P]. apply hpublic_lt in P. lia.
Qed.

Lemma tl_set_step w k o q a u m : nth_error (w_objs w) k = Some (OTL o) ->
  nth_error (h_qtys (w_heap w)) q = Some (mkQObj a u) -> to_mags env (hqty env (w_heap w) q) u_Wm2 = Ok m ->
  exists h1 a1, h_set_erf env (tl_class env) (Some q) (w_heap w, o) = ((h1, after_set (tl_class env) o q a1), Ok tt) /\
    fst (w_step (WTL k (HTSetDrivers q)) w) = mkWorld h1 (upd (w_objs w) k (OTL (after_set (tl_class env) o q a1))).
Proof.
  intros Ek Hq Hm. pose proof (set_erf_eq (tl_class env) (w_heap w) o q a u m Hq Hm) as E.
  cbn [Heap.w_step]. rewrite Ek.
  assert (L : q < List.length (h_qtys (w_heap w))) by (apply nth_error_Some; now rewrite Hq).
  cbn [qarg_tl qarg_ok]. apply Nat.ltb_lt in L. rewrite L.
  destruct (units_eqb u u_Wm2); do 2 eexists; (split; [exact E|]);
    exact (f_equal (fun z => fst (let '(h', x', r) := z in (mkWorld h' (upd (w_objs w) k (OTL x')), r))) E).
Qed.
Lemma tl_write w k s q a u m i v l : world_wf env w -> model_state env w k = Some (STL s) ->
  nth_error (h_qtys (w_heap w)) q = Some (mkQObj a u) -> to_mags env (hqty env (w_heap w) q) u_Wm2 = Ok m ->
  lset (harr env (w_heap w) a) i v = Ok l ->
  let w2 := w_steps [WTL k (HTSetDrivers q); WWrite a i v] w in
  model_state env w2 k = Some (STL (with_erf env s (Some (mkQA l u)) (Some (if units_eqb u u_Wm2 then l else m)))) /\
  hqty env (w_heap w2) q = mkQA l u.
Proof.
  intros Ww Hs Hq Hm Hl. apply model_tl in Hs as (o & Ek & Ev).
  destruct (tl_set_step w k o q a u m Ek Hq Hm) as (h1 & a1 & E1 & E2).
  assert (P : hpublic env (w_heap w) a = true) by exact (ww_heap _ _ Ww q _ Hq).
  destruct (set_frame _ _ _ _ _ _ _ _ _ Hq Hm E1 P) as (F1 & F2 & F3).
  destruct (write_heap h1 a l F3) as (W1 & W2 & W3).
  assert (Q2 : nth_error (h_qtys (hstore env h1 a l)) q = Some (mkQObj a u)) by (rewrite W3, F1; exact Hq).
  cbn zeta. unfold Heap.w_steps. cbn [fold_left]. rewrite E2. cbn [Heap.w_step w_heap w_objs].
  rewrite F3, F2, Hl. cbn [fst]. split.
  - apply model_tl. eexists. cbn [w_heap w_objs]. split; [eapply upd_same; eauto|].
    rewrite (touch_view (tl_class env) (w_heap w) o q a u m (ww_heap _ _ Ww) (proj2 (wf_core _ _ _) (ww_obj _ _ Ww k _ Ek)) Hq Hm h1 a1 E1 _ l u W1 W2 Q2).
    rewrite <- Ev. reflexivity.
  - unfold hqty. cbn [w_heap]. rewrite Q2. cbn [q_arr q_units]. now rewrite W1.
Qed.
Lemma tl_ito w k s q a u m u2 l : world_wf env w -> model_state env w k = Some (STL s) ->
  nth_error (h_qtys (w_heap w)) q = Some (mkQObj a u) -> to_mags env (hqty env (w_heap w) q) u_Wm2 = Ok m ->
  to_mags env (hqty env (w_heap w) q) u2 = Ok l ->
  let w2 := w_steps [WTL k (HTSetDrivers q); WIto q u2] w in
  model_state env w2 k = Some (STL (with_erf env s (Some (mkQA l u2)) (Some (if units_eqb u u_Wm2 then l else m)))) /\
  hqty env (w_heap w2) q = mkQA l u2.
Proof.
  intros Ww Hs Hq Hm Hl. apply model_tl in Hs as (o & Ek & Ev).
  destruct (tl_set_step w k o q a u m Ek Hq Hm) as (h1 & a1 & E1 & E2).
  assert (P : hpublic env (w_heap w) a = true) by exact (ww_heap _ _ Ww q _ Hq).
  destruct (set_frame _ _ _ _ _ _ _ _ _ Hq Hm E1 P) as (F1 & F2 & F3).
  assert (Hq1 : nth_error (h_qtys h1) q = Some (mkQObj a u)) by (rewrite F1; exact Hq).
  assert (Hl1 : to_mags env (hqty env h1 q) u2 = Ok l).
  { replace (hqty env h1 q) with (hqty env (w_heap w) q); [exact Hl|]. unfold hqty. rewrite Hq, Hq1. cbn [q_arr]. now rewrite F2. }
  destruct (ito_heap h1 q a u u2 l Hq1 F3 Hl1) as (h2 & I1 & W1 & W2 & Q2).
  cbn zeta. unfold Heap.w_steps. cbn [fold_left]. rewrite E2. cbn [Heap.w_step w_heap w_objs].
  rewrite I1. cbn [fst]. split.
  - apply model_tl. eexists. cbn [w_heap w_objs]. split; [eapply upd_same; eauto|].
    rewrite (touch_view (tl_class env) (w_heap w) o q a u m (ww_heap _ _ Ww) (proj2 (wf_core _ _ _) (ww_obj _ _ Ww k _ Ek)) Hq Hm h1 a1 E1 _ l u2 W1 W2 Q2).
    rewrite <- Ev. reflexivity.
  - unfold hqty. cbn [w_heap]. rewrite Q2. cbn [q_arr q_units]. now rewrite W1.
Qed.

Lemma ir_set_step w k o q a u m : nth_error (w_objs w) k = Some (OIR o) ->
  nth_error (h_qtys (w_heap w)) q = Some (mkQObj a u) -> to_mags env (hqty env (w_heap w) q) u_Wm2 = Ok m ->
  exists h1 a1, h_set_erf env (ir_class env) (Some q) (w_heap w, o) = ((h1, after_set (ir_class env) o q a1), Ok tt) /\
    fst (w_step (WIR k (HISetDrivers q)) w) = mkWorld h1 (upd (w_objs w) k (OIR (after_set (ir_class env) o q a1))).
Proof.
  intros Ek Hq Hm. pose proof (set_erf_eq (ir_class env) (w_heap w) o q a u m Hq Hm) as E.
  cbn [Heap.w_step]. rewrite Ek.
  assert (L : q < List.length (h_qtys (w_heap w))) by (apply nth_error_Some; now rewrite Hq).
  cbn [qarg_ir qarg_ok]. apply Nat.ltb_lt in L. rewrite L.
  destruct (units_eqb u u_Wm2); do 2 eexists; (split; [exact E|]);
    exact (f_equal (fun z => fst (let '(h', x', r) := z in (mkWorld h' (upd (w_objs w) k (OIR x')), r))) E).
Qed.
Lemma ir_write w k s q a u m i v l : world_wf env w -> model_state env w k = Some (SIR s) ->
  nth_error (h_qtys (w_heap w)) q = Some (mkQObj a u) -> to_mags env (hqty env (w_heap w) q) u_Wm2 = Ok m ->
  lset (harr env (w_heap w) a) i v = Ok l ->
  let w2 := w_steps [WIR k (HISetDrivers q); WWrite a i v] w in
  model_state env w2 k = Some (SIR (iwith_erf env s (Some (mkQA l u)) (Some (if units_eqb u u_Wm2 then l else m)))) /\
  hqty env (w_heap w2) q = mkQA l u.
Proof.
  intros Ww Hs Hq Hm Hl. apply model_ir in Hs as (o & Ek & Ev).
  destruct (ir_set_step w k o q a u m Ek Hq Hm) as (h1 & a1 & E1 & E2).
  assert (P : hpublic env (w_heap w) a = true) by exact (ww_heap _ _ Ww q _ Hq).
  destruct (set_frame _ _ _ _ _ _ _ _ _ Hq Hm E1 P) as (F1 & F2 & F3).
  destruct (write_heap h1 a l F3) as (W1 & W2 & W3).
  assert (Q2 : nth_error (h_qtys (hstore env h1 a l)) q = Some (mkQObj a u)) by (rewrite W3, F1; exact Hq).
  cbn zeta. unfold Heap.w_steps. cbn [fold_left]. rewrite E2. cbn [Heap.w_step w_heap w_objs].
  rewrite F3, F2, Hl. cbn [fst]. split.
  - apply model_ir. eexists. cbn [w_heap w_objs]. split; [eapply upd_same; eauto|].
    rewrite (touch_view (ir_class env) (w_heap w) o q a u m (ww_heap _ _ Ww) (proj2 (wf_core _ _ _) (ww_obj _ _ Ww k _ Ek)) Hq Hm h1 a1 E1 _ l u W1 W2 Q2).
    rewrite <- Ev. reflexivity.
  - unfold hqty. cbn [w_heap]. rewrite Q2. cbn [q_arr q_units]. now rewrite W1.
Qed.
Lemma ir_ito w k s q a u m u2 l : world_wf env w -> model_state env w k = Some (SIR s) ->
  nth_error (h_qtys (w_heap w)) q = Some (mkQObj a u) -> to_mags env (hqty env (w_heap w) q) u_Wm2 = Ok m ->
  to_mags env (hqty env (w_heap w) q) u2 = Ok l ->
  let w2 := w_steps [WIR k (HISetDrivers q); WIto q u2] w in
  model_state env w2 k = Some (SIR (iwith_erf env s (Some (mkQA l u2)) (Some (if units_eqb u u_Wm2 then l else m)))) /\
  hqty env (w_heap w2) q = mkQA l u2.
Proof.
  intros Ww Hs Hq Hm Hl. apply model_ir in Hs as (o & Ek & Ev).
  destruct (ir_set_step w k o q a u m Ek Hq Hm) as (h1 & a1 & E1 & E2).
  assert (P : hpublic env (w_heap w) a = true) by exact (ww_heap _ _ Ww q _ Hq).
  destruct (set_frame _ _ _ _ _ _ _ _ _ Hq Hm E1 P) as (F1 & F2 & F3).
  assert (Hq1 : nth_error (h_qtys h1) q = Some (mkQObj a u)) by (rewrite F1; exact Hq).
  assert (Hl1 : to_mags env (hqty env h1 q) u2 = Ok l).
  { replace (hqty env h1 q) with (hqty env (w_heap w) q); [exact Hl|]. unfold hqty. rewrite Hq, Hq1. cbn [q_arr]. now rewrite F2. }
  destruct (ito_heap h1 q a u u2 l Hq1 F3 Hl1) as (h2 & I1 & W1 & W2 & Q2).
  cbn zeta. unfold Heap.w_steps. cbn [fold_left]. rewrite E2. cbn [Heap.w_step w_heap w_objs].
  rewrite I1. cbn [fst]. split.
  - apply model_ir. eexists. cbn [w_heap w_objs]. split; [eapply upd_same; eauto|].
    rewrite (touch_view (ir_class env) (w_heap w) o q a u m (ww_heap _ _ Ww) (proj2 (wf_core _ _ _) (ww_obj _ _ Ww k _ Ek)) Hq Hm h1 a1 E1 _ l u2 W1 W2 Q2).
    rewrite <- Ev. reflexivity.
  - unfold hqty. cbn [w_heap]. rewrite Q2. cbn [q_arr q_units]. now rewrite W1.
Qed.

(** *** Sequences of package calls *)
Lemma arg_qarg_tl h k c : arg_exists env h (WTL k c) <-> qarg_ok env h (qarg_tl env c) = true.
Proof. destruct c; cbn [qarg_tl qarg_ir qarg_ok arg_exists]; try (symmetry; apply Nat.ltb_lt); tauto. Qed.
Lemma arg_qarg_ir h k c : arg_exists env h (WIR k c) <-> qarg_ok env h (qarg_ir env c) = true.
Proof. destruct c; cbn [qarg_tl qarg_ir qarg_ok arg_exists]; try (symmetry; apply Nat.ltb_lt); tauto. Qed.

(** [h'] holds everything a caller could see in [h]. *)
Definition keeps (h h' : Heap) : Prop :=
  (forall a, hpublic env h a = true -> harr env h' a = harr env h a /\ hpublic env h' a = true) /\
  (forall q k, nth_error (h_qtys h) q = Some k -> nth_error (h_qtys h') q = Some k).
Lemma keeps_refl h : keeps h h. Proof. split; auto. Qed.
Lemma keeps_trans h1 h2 h3 : keeps h1 h2 -> keeps h2 h3 -> keeps h1 h3.
Proof.
  intros [A B] [C D]. split; [|auto]. intros a P. destruct (A a P) as [E1 P1]. destruct (C a P1) as [E2 P2].
  split; [now rewrite E2|exact P2].
Qed.
Lemma keeps_qty h h' q : heap_wf env h -> keeps h h' -> q < List.length (h_qtys h) -> hqty env h' q = hqty env h q.
Proof.
  intros Hh [A B] L. destruct (nth_error (h_qtys h) q) as [k|] eqn:E.
  - unfold hqty. rewrite (B q k E), E. destruct (A (q_arr k) (Hh q k E)) as [-> _]. reflexivity.
  - apply nth_error_None in E. lia.
Qed.
Lemma keeps_lt h h' q : keeps h h' -> q < List.length (h_qtys h) -> q < List.length (h_qtys h').
Proof.
  intros [_ B] L. destruct (nth_error (h_qtys h) q) as [k|] eqn:E.
  - apply nth_error_Some. now rewrite (B q k E).
  - apply nth_error_None in E. lia.
Qed.
Lemma keeps_arg h h' op : keeps h h' -> arg_exists env h op -> arg_exists env h' op.
Proof. intros K. destruct op as [| | | | | |k []|k []]; cbn; eauto using keeps_lt. Qed.
Lemma keeps_value_tl h h' k c : heap_wf env h -> keeps h h' -> arg_exists env h (WTL k c) ->
  tl_by_value env h' c = tl_by_value env h c.
Proof. intros Hh K A. destruct c; cbn in *; try reflexivity; now rewrite (keeps_qty h h'). Qed.
Lemma keeps_value_ir h h' k c : heap_wf env h -> keeps h h' -> arg_exists env h (WIR k c) ->
  ir_by_value env h' c = ir_by_value env h c.
Proof. intros Hh K A. destruct c; cbn in *; try reflexivity; now rewrite (keeps_qty h h'). Qed.

Lemma package_keeps op w : world_wf env w -> package_call env op ->
  keeps (w_heap w) (w_heap (fst (w_step op w))).
Proof. intros Ww P. destruct (package_frame env parse_unit op w Ww P) as (A & B & _). split; assumption. Qed.
Lemma packages_keep ops : forall w, world_wf env w -> Forall (package_call env) ops ->
  keeps (w_heap w) (w_heap (w_steps ops w)).
Proof.
  induction ops as [|op ops IH]; intros w Ww P; [apply keeps_refl|]. inversion P; subst.
  eapply keeps_trans; [apply (package_keeps op w); auto|]. apply (IH (fst (w_step op w))); [now apply step_wf|assumption].
Qed.
Lemma model_lt w k x : model_state env w k = Some x -> k < List.length (w_objs w).
Proof. unfold model_state. intros H. apply nth_error_Some. destruct (nth_error _ _); discriminate. Qed.
Lemma others_keep j ops : forall w x, world_wf env w ->
  Forall (fun op => package_call env op /\ call_on env op <> Some j) ops ->
  model_state env w j = Some x -> model_state env (w_steps ops w) j = Some x.
Proof.
  induction ops as [|op ops IH]; intros w x Ww P Hm; [exact Hm|]. inversion P as [|? ? [P1 P2] P3]; subst.
  apply (IH (fst (w_step op w))); [now apply step_wf|assumption|].
  destruct (package_frame env parse_unit op w Ww P1) as (_ & _ & C). rewrite C; auto. eapply model_lt; eauto.
Qed.

Lemma interleave_tl h0 k ops : heap_wf env h0 -> forall w s, world_wf env w -> keeps h0 (w_heap w) ->
  Forall (package_call env) ops -> Forall (arg_exists env h0) ops ->
  model_state env w k = Some (STL s) ->
  model_state env (w_steps ops w) k =
    Some (STL (tl_calls env parse_unit (map (tl_by_value env h0) (tl_calls_on env k ops)) s)).
Proof.
  intros Hh. induction ops as [|op ops IH]; intros w s Ww K P A Hm; [exact Hm|].
  inversion P as [|? ? P1 P2]; subst. inversion A as [|? ? A1 A2]; subst.
  assert (Ww' := step_wf env parse_unit op w Ww).
  assert (K' : keeps h0 (w_heap (fst (w_step op w)))) by (eapply keeps_trans; [exact K|now apply package_keeps]).
  assert (D : (exists c, op = WTL k c) \/ (call_on env op <> Some k /\ tl_calls_on env k [op] = []) \/ (exists c, op = WIR k c)).
  { destruct op as [| | | | | |j c|j c]; cbn; try (right; left; split; [discriminate|reflexivity]).
    - destruct (Nat.eqb_spec j k) as [->|N]; [left; eauto|right; left; split; [congruence|reflexivity]].
    - destruct (Nat.eqb_spec j k) as [->|N]; [right; right; eauto|right; left; split; [congruence|reflexivity]]. }
  change (w_steps (op :: ops) w) with (w_steps ops (fst (w_step op w))).
  change (tl_calls_on env k (op :: ops)) with (tl_calls_on env k ([op] ++ ops)).
  unfold tl_calls_on at 1. rewrite flat_map_app. fold (tl_calls_on env k [op]). fold (tl_calls_on env k ops).
  destruct D as [[c ->]|[[N ->]|[c ->]]].
  - cbn [tl_calls_on flat_map]. rewrite Nat.eqb_refl. cbn [app map].
    destruct (call_value_tl w k c s Ww Hm (proj1 (arg_qarg_tl (w_heap w) k c) (keeps_arg _ _ _ K A1))) as [E _].
    rewrite (keeps_value_tl _ _ k c Hh K A1) in E.
    rewrite (IH _ _ Ww' K' P2 A2 E). reflexivity.
  - cbn [app map]. apply IH; auto.
    destruct (package_frame env parse_unit op w Ww P1) as (_ & _ & C). rewrite C; auto. eapply model_lt; eauto.
  - cbn [tl_calls_on flat_map app map]. apply IH; auto.
    cbn [Heap.w_step]. apply model_tl in Hm as (o & Ek & Ev). rewrite Ek. cbn [fst]. apply model_tl. eauto.
Qed.
Lemma interleave_ir h0 k ops : heap_wf env h0 -> forall w s, world_wf env w -> keeps h0 (w_heap w) ->
  Forall (package_call env) ops -> Forall (arg_exists env h0) ops ->
  model_state env w k = Some (SIR s) ->
  model_state env (w_steps ops w) k =
    Some (SIR (ir_calls env parse_unit (map (ir_by_value env h0) (ir_calls_on env k ops)) s)).
Proof.
  intros Hh. induction ops as [|op ops IH]; intros w s Ww K P A Hm; [exact Hm|].
  inversion P as [|? ? P1 P2]; subst. inversion A as [|? ? A1 A2]; subst.
  assert (Ww' := step_wf env parse_unit op w Ww).
  assert (K' : keeps h0 (w_heap (fst (w_step op w)))) by (eapply keeps_trans; [exact K|now apply package_keeps]).
  assert (D : (exists c, op = WIR k c) \/ (call_on env op <> Some k /\ ir_calls_on env k [op] = []) \/ (exists c, op = WTL k c)).
  { destruct op as [| | | | | |j c|j c]; cbn; try (right; left; split; [discriminate|reflexivity]).
    - destruct (Nat.eqb_spec j k) as [->|N]; [right; right; eauto|right; left; split; [congruence|reflexivity]].
    - destruct (Nat.eqb_spec j k) as [->|N]; [left; eauto|right; left; split; [congruence|reflexivity]]. }
  change (w_steps (op :: ops) w) with (w_steps ops (fst (w_step op w))).
  change (ir_calls_on env k (op :: ops)) with (ir_calls_on env k ([op] ++ ops)).
  unfold ir_calls_on at 1. rewrite flat_map_app. fold (ir_calls_on env k [op]). fold (ir_calls_on env k ops).
  destruct D as [[c ->]|[[N ->]|[c ->]]].
  - cbn [ir_calls_on flat_map]. rewrite Nat.eqb_refl. cbn [app map].
    destruct (call_value_ir w k c s Ww Hm (proj1 (arg_qarg_ir (w_heap w) k c) (keeps_arg _ _ _ K A1))) as [E _].
    rewrite (keeps_value_ir _ _ k c Hh K A1) in E.
    rewrite (IH _ _ Ww' K' P2 A2 E). reflexivity.
  - cbn [app map]. apply IH; auto.
    destruct (package_frame env parse_unit op w Ww P1) as (_ & _ & C). rewrite C; auto. eapply model_lt; eauto.
  - cbn [ir_calls_on flat_map app map]. apply IH; auto.
    cbn [Heap.w_step]. apply model_ir in Hm as (o & Ek & Ev). rewrite Ek. cbn [fst]. apply model_ir. eauto.
Qed.

End GenShare.
