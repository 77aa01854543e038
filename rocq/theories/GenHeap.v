(** The heap model refines the value model. *)
From Coq Require Import List String QArith Bool Arith Lia.
From Verif Require Import Arith Pint Base TwoLayer Impulse Scm Api Heap GenTL.
Import ListNotations.
Local Open Scope nat_scope.

Section GenHeap.
Variable env : Env.
Variable parse_unit : string -> option (Qty env).
Notation num := (num env).
Notation Heap := (Heap env).

Definition hlen (h : Heap) : nat := List.length (h_arrs h).
Definition qlen (h : Heap) : nat := List.length (h_qtys h).

Definition heap_wf (h : Heap) : Prop :=
  forall q k, nth_error (h_qtys h) q = Some k -> hpublic env h (q_arr k) = true.

Record obj_wf {S} (h : Heap) (o : HObj S) : Prop := mkOWf {
  ow_1 : o_r1 o < hlen h; ow_2 : o_r2 o < hlen h; ow_3 : o_r3 o < hlen h;
  ow_p1 : hpublic env h (o_r1 o) = false; ow_p2 : hpublic env h (o_r2 o) = false;
  ow_p3 : hpublic env h (o_r3 o) = false;
  ow_12 : o_r1 o <> o_r2 o; ow_13 : o_r1 o <> o_r3 o; ow_23 : o_r2 o <> o_r3 o;
  ow_mag : forall a, o_erf_mag o = Some a ->
             a < hlen h /\ a <> o_r1 o /\ a <> o_r2 o /\ a <> o_r3 o;
  ow_erf : forall q, o_erf o = Some q -> q < qlen h
}.

(** [h] is [h0] after more allocations and stores to the arrays [own]. *)
Record ext (own : list nat) (h0 h : Heap) : Prop := mkExt {
  ex_len : hlen h0 <= hlen h;
  ex_pub : forall a, a < hlen h0 -> hpublic env h a = hpublic env h0 a;
  ex_arr : forall a, a < hlen h0 -> ~ In a own -> harr env h a = harr env h0 a;
  ex_qty : forall q k, nth_error (h_qtys h0) q = Some k -> nth_error (h_qtys h) q = Some k
}.

Lemma ext_refl own h : ext own h h.
Proof. split; auto. Qed.

Lemma hpublic_lt h a : hpublic env h a = true -> a < hlen h.
Proof.
  unfold hpublic, hlen. destruct (nth_error (h_arrs h) a) eqn:E; [|discriminate].
  intros _. apply nth_error_Some. now rewrite E.
Qed.

(** *** Heap operations *)
Lemma harr_halloc h p l a : harr env (halloc env h p l) a = if Nat.eqb a (hlen h) then l else harr env h a.
Proof.
  unfold harr, halloc, hlen. cbn [h_arrs]. destruct (Nat.eqb a (List.length (h_arrs h))) eqn:E.
  - apply Nat.eqb_eq in E. subst. rewrite nth_error_app2 by lia. now rewrite Nat.sub_diag.
  - apply Nat.eqb_neq in E. destruct (Nat.lt_ge_cases a (List.length (h_arrs h))).
    + now rewrite nth_error_app1.
    + rewrite (proj2 (nth_error_None _ _)) by (rewrite app_length; cbn; lia).
      now rewrite (proj2 (nth_error_None _ _)).
Qed.
Lemma hpublic_halloc h p l a :
  hpublic env (halloc env h p l) a = if Nat.eqb a (hlen h) then p else hpublic env h a.
Proof.
  unfold hpublic, halloc, hlen. cbn [h_arrs]. destruct (Nat.eqb a (List.length (h_arrs h))) eqn:E.
  - apply Nat.eqb_eq in E. subst. rewrite nth_error_app2 by lia. now rewrite Nat.sub_diag.
  - apply Nat.eqb_neq in E. destruct (Nat.lt_ge_cases a (List.length (h_arrs h))).
    + now rewrite nth_error_app1.
    + rewrite (proj2 (nth_error_None _ _)) by (rewrite app_length; cbn; lia).
      now rewrite (proj2 (nth_error_None _ _)).
Qed.
Lemma hlen_halloc h p l : hlen (halloc env h p l) = Datatypes.S (hlen h).
Proof. unfold hlen, halloc. cbn [h_arrs]. rewrite app_length. cbn. lia. Qed.
Lemma qlen_halloc h p l : qlen (halloc env h p l) = qlen h.
Proof. reflexivity. Qed.

Lemma harr_hstore h a l b : a < hlen h ->
  harr env (hstore env h a l) b = if Nat.eqb b a then l else harr env h b.
Proof.
  intros H. unfold harr, hstore. cbn [h_arrs]. rewrite nth_error_upd.
  rewrite (Nat.eqb_sym b a). destruct (Nat.eqb a b) eqn:E; cbn [andb].
  - apply Nat.eqb_eq in E. subst.
    destruct (Nat.ltb_spec b (List.length (h_arrs h))); [reflexivity|unfold hlen in H; lia].
  - reflexivity.
Qed.
Lemma hpublic_hstore h a l b : hpublic env (hstore env h a l) b = hpublic env h b.
Proof.
  unfold hpublic at 1, hstore. cbn [h_arrs]. rewrite nth_error_upd.
  destruct (Nat.eqb a b) eqn:E; cbn [andb]; [|reflexivity].
  apply Nat.eqb_eq in E. subst. destruct (Nat.ltb_spec b (List.length (h_arrs h))); [reflexivity|].
  unfold hpublic. now rewrite (proj2 (nth_error_None _ _)).
Qed.
Lemma hlen_hstore h a l : hlen (hstore env h a l) = hlen h.
Proof. unfold hlen, hstore. cbn [h_arrs]. apply upd_length. Qed.

Lemma hqty_same h h' q : (forall k, nth_error (h_qtys h) q = Some k ->
    nth_error (h_qtys h') q = Some k /\ harr env h' (q_arr k) = harr env h (q_arr k)) ->
  q < qlen h -> hqty env h' q = hqty env h q.
Proof.
  intros H Hq. unfold hqty. destruct (nth_error (h_qtys h) q) as [k|] eqn:E.
  - destruct (H k eq_refl) as [-> ->]. reflexivity.
  - apply nth_error_None in E. unfold qlen in Hq. lia.
Qed.

(** Views depend on the arrays and quantities the object refers to. *)
Lemma view_same C h h' (o : HObj (m_state env C)) :
  heap_wf h -> obj_wf h o ->
  (forall a, hpublic env h a = true -> harr env h' a = harr env h a) ->
  (forall q k, nth_error (h_qtys h) q = Some k -> nth_error (h_qtys h') q = Some k) ->
  (forall a, o_erf_mag o = Some a -> harr env h' a = harr env h a) ->
  harr env h' (o_r1 o) = harr env h (o_r1 o) ->
  harr env h' (o_r2 o) = harr env h (o_r2 o) ->
  harr env h' (o_r3 o) = harr env h (o_r3 o) ->
  view env C h' o = view env C h o.
Proof.
  intros Hw Ho Hp Hq Hm E1 E2 E3. unfold view. rewrite E1, E2, E3.
  f_equal.
  - destruct (o_erf o) as [q|] eqn:E; [cbn|reflexivity]. f_equal. apply hqty_same.
    + intros k Hk. split; [auto|]. apply Hp. eapply Hw; eauto.
    + exact (ow_erf _ _ Ho q E).
  - destruct (o_erf_mag o) as [a|] eqn:E; [cbn|reflexivity]. f_equal. auto.
Qed.

Section Sim.
Variable C : Class env.
Notation S := (m_state env C).
Notation W := (Heap * HObj S)%type.
Variable h0 : Heap.
Variable own0 : list nat.
Variable mag0 : option nat.

Record Rel (w : W) (s : S) : Prop := mkRel {
  rl_heap : heap_wf (fst w);
  rl_obj : obj_wf (fst w) (snd w);
  rl_view : wview env C w = s;
  rl_ext : ext own0 h0 (fst w);
  rl_own : forall a, In a [o_r1 (snd w); o_r2 (snd w); o_r3 (snd w)] -> In a own0 \/ hlen h0 <= a;
  rl_mag : forall a, o_erf_mag (snd w) = Some a ->
             mag0 = Some a \/ hlen h0 <= a \/ hpublic env h0 a = true
}.

Definition sim {A} (m : Meth W A) (p : Meth S A) : Prop :=
  forall w s, Rel w s -> Rel (fst (m w)) (fst (p s)) /\ snd (m w) = snd (p s).

Lemma sim_bind {A B} (m : Meth W A) (p : Meth S A) (f : A -> Meth W B) (g : A -> Meth S B) :
  sim m p -> (forall a, sim (f a) (g a)) -> sim (mbind m f) (mbind p g).
Proof.
  intros Hm Hf w s R. unfold mbind. destruct (Hm w s R) as [R' E].
  destruct (m w) as [w' [a|e]], (p s) as [s' [a'|e']]; cbn in *; try discriminate.
  - injection E as ->. apply Hf. exact R'.
  - injection E as ->. auto.
Qed.
Lemma sim_read {A} (f : W -> Res A) (g : S -> Res A) :
  (forall w s, Rel w s -> f w = g s) -> sim (mread f) (mread g).
Proof. intros H w s R. cbn. auto. Qed.
Lemma sim_ret {A} (a : A) : sim (mret a) (mret a).
Proof. intros w s R. cbn. auto. Qed.
Lemma sim_raise {A} e : sim (@mraise _ A e) (mraise e).
Proof. intros w s R. cbn. auto. Qed.
Lemma sim_view {A} (g : S -> Res A) : sim (mread (fun w => g (wview env C w))) (mread g).
Proof. apply sim_read. intros w s R. now rewrite (rl_view _ _ R). Qed.

(** Scalar attribute assignments. *)
Lemma rel_put_s w s s' : Rel w s ->
  Rel (fst w, put_s env C s' (snd w))
      (m_fill env C s' (option_map (hqty env (fst w)) (o_erf (snd w)))
         (option_map (harr env (fst w)) (o_erf_mag (snd w)))
         (harr env (fst w) (o_r1 (snd w))) (harr env (fst w) (o_r2 (snd w))) (harr env (fst w) (o_r3 (snd w)))).
Proof.
  intros [Hh Ho Hv He Hw Hm]. destruct w as [h o]. cbn in *. split; cbn; auto.
  destruct Ho. split; cbn; auto.
Qed.

Definition scalar {A} (p : Meth S A) : Prop :=
  forall s e m a b c, p (m_fill env C s e m a b c) =
    (m_fill env C (fst (p s)) e m a b c, snd (p s)).

Lemma sim_olift {A} (p : Meth S A) : scalar p -> sim (olift env C p) p.
Proof.
  intros Hp w s R. unfold olift.
  assert (E : p s = p (wview env C w)) by now rewrite (rl_view _ _ R).
  unfold wview, view in E. rewrite Hp in E. rewrite E.
  destruct (p (o_s (snd w))) as [s' r]. cbn. split; [|reflexivity].
  now apply rel_put_s with (1 := R).
Qed.

(** Stores into result arrays. *)
Lemma rel_store w s a l : Rel w s -> In a [o_r1 (snd w); o_r2 (snd w); o_r3 (snd w)] ->
  Rel (hstore env (fst w) a l, snd w) (wview env C (hstore env (fst w) a l, snd w)).
Proof.
  intros [Hh Ho Hv He Hw Hm] Ha. destruct w as [h o]. cbn in *.
  assert (La : a < hlen h) by (destruct Ho; intuition (subst; auto)).
  split; cbn [fst snd]; auto.
  - intros q k Hq. rewrite hpublic_hstore. eapply Hh; eauto.
  - destruct Ho. split; rewrite ?hlen_hstore, ?hpublic_hstore; auto.
  - destruct He as [L P A Q]. split.
    + rewrite hlen_hstore. lia.
    + intros b Hb. rewrite hpublic_hstore. auto.
    + intros b Hb Hn. rewrite harr_hstore by lia.
      destruct (Nat.eqb b a) eqn:E; [|auto]. apply Nat.eqb_eq in E. subst.
      exfalso. destruct (Hw a Ha); [contradiction|lia].
    + exact Q.
Qed.

Lemma not_pub_arr h a q : heap_wf h -> hpublic env h a = false -> forall l, a < hlen h ->
  hqty env (hstore env h a l) q = hqty env h q.
Proof.
  intros Hw Hp l La. unfold hqty. change (h_qtys (hstore env h a l)) with (h_qtys h).
  destruct (nth_error (h_qtys h) q) as [k|] eqn:E; [|reflexivity].
  rewrite harr_hstore by assumption. destruct (Nat.eqb (q_arr k) a) eqn:E'; [|reflexivity].
  apply Nat.eqb_eq in E'. specialize (Hw q k E). congruence.
Qed.

Ltac neq_arr := rewrite !harr_hstore by assumption;
  repeat match goal with |- context [Nat.eqb ?x ?y] => destruct (Nat.eqb_spec x y); [congruence|] end.

Lemma view_store h (o : HObj S) a l : heap_wf h -> obj_wf h o -> a < hlen h -> hpublic env h a = false ->
  (forall m, o_erf_mag o = Some m -> m <> a) ->
  view env C (hstore env h a l) o =
  m_fill env C (o_s o) (option_map (hqty env h) (o_erf o)) (option_map (harr env h) (o_erf_mag o))
    (if Nat.eqb (o_r1 o) a then l else harr env h (o_r1 o))
    (if Nat.eqb (o_r2 o) a then l else harr env h (o_r2 o))
    (if Nat.eqb (o_r3 o) a then l else harr env h (o_r3 o)).
Proof.
  intros Hw Ho La Pa Hm. unfold view. rewrite !harr_hstore by assumption. f_equal.
  - destruct (o_erf o) as [q|]; [|reflexivity]. cbn. f_equal. now apply not_pub_arr.
  - destruct (o_erf_mag o) as [m|] eqn:E; [|reflexivity]. cbn. f_equal.
    rewrite harr_hstore by assumption. destruct (Nat.eqb_spec m a); [|reflexivity].
    exfalso. eapply Hm; eauto.
Qed.

Definition puts1 i v (p : Meth S unit) : Prop := forall s e m a b c,
  p (m_fill env C s e m a b c) =
  match lset a i v with
  | Ok l => (m_fill env C s e m l b c, Ok tt)
  | Err x => (m_fill env C s e m a b c, Err x)
  end.
Definition puts2 i v (p : Meth S unit) : Prop := forall s e m a b c,
  p (m_fill env C s e m a b c) =
  match lset b i v with
  | Ok l => (m_fill env C s e m a l c, Ok tt)
  | Err x => (m_fill env C s e m a b c, Err x)
  end.
Definition puts3 i v (p : Meth S unit) : Prop := forall s e m a b c,
  p (m_fill env C s e m a b c) =
  match lset c i v with
  | Ok l => (m_fill env C s e m a b l, Ok tt)
  | Err x => (m_fill env C s e m a b c, Err x)
  end.

Ltac eqbs := repeat match goal with |- context [Nat.eqb ?x ?x] => rewrite (Nat.eqb_refl x)
  | H : ?x <> ?y |- context [Nat.eqb ?x ?y] => rewrite (proj2 (Nat.eqb_neq x y) H)
  | H : ?x <> ?y |- context [Nat.eqb ?y ?x] => rewrite (proj2 (Nat.eqb_neq y x) (not_eq_sym H)) end.

Lemma sim_put1 i v p : puts1 i v p -> sim (oput env C o_r1 i v) p.
Proof.
  intros Hp w s R. pose proof R as [Hh Ho Hv He Hw Hm].
  unfold oput, mbind, mread, mmod. rewrite <- Hv. unfold wview at 1 2, view. rewrite Hp.
  destruct (lset (harr env (fst w) (o_r1 (snd w))) i v) as [l|x] eqn:E; cbn [fst snd].
  - split; [|reflexivity]. pose proof (rel_store w s (o_r1 (snd w)) l R (or_introl eq_refl)) as R'.
    destruct Ho. unfold wview in R'. cbn [fst snd] in R'.
    rewrite view_store in R'; auto; [|split; auto|intros m Em; destruct (ow_mag0 m Em) as (?&?&?&?); auto].
    revert R'. eqbs. auto.
  - split; [|reflexivity]. rewrite <- Hv in R. exact R.
Qed.
Lemma sim_put2 i v p : puts2 i v p -> sim (oput env C o_r2 i v) p.
Proof.
  intros Hp w s R. pose proof R as [Hh Ho Hv He Hw Hm].
  unfold oput, mbind, mread, mmod. rewrite <- Hv. unfold wview at 1 2, view. rewrite Hp.
  destruct (lset (harr env (fst w) (o_r2 (snd w))) i v) as [l|x] eqn:E; cbn [fst snd].
  - split; [|reflexivity]. pose proof (rel_store w s (o_r2 (snd w)) l R (or_intror (or_introl eq_refl))) as R'.
    destruct Ho. unfold wview in R'. cbn [fst snd] in R'.
    rewrite view_store in R'; auto; [|split; auto|intros m Em; destruct (ow_mag0 m Em) as (?&?&?&?); auto].
    revert R'. eqbs. auto.
  - split; [|reflexivity]. rewrite <- Hv in R. exact R.
Qed.
Lemma sim_put3 i v p : puts3 i v p -> sim (oput env C o_r3 i v) p.
Proof.
  intros Hp w s R. pose proof R as [Hh Ho Hv He Hw Hm].
  unfold oput, mbind, mread, mmod. rewrite <- Hv. unfold wview at 1 2, view. rewrite Hp.
  destruct (lset (harr env (fst w) (o_r3 (snd w))) i v) as [l|x] eqn:E; cbn [fst snd].
  - split; [|reflexivity]. pose proof (rel_store w s (o_r3 (snd w)) l R (or_intror (or_intror (or_introl eq_refl)))) as R'.
    destruct Ho. unfold wview in R'. cbn [fst snd] in R'.
    rewrite view_store in R'; auto; [|split; auto|intros m Em; destruct (ow_mag0 m Em) as (?&?&?&?); auto].
    revert R'. eqbs. auto.
  - split; [|reflexivity]. rewrite <- Hv in R. exact R.
Qed.

(** Allocation leaves the relation intact. *)
Lemma halloc_old h p l a : a < hlen h -> harr env (halloc env h p l) a = harr env h a.
Proof. intros H. rewrite harr_halloc. destruct (Nat.eqb_spec a (hlen h)); [lia|reflexivity]. Qed.
Lemma halloc_oldp h p l a : a < hlen h -> hpublic env (halloc env h p l) a = hpublic env h a.
Proof. intros H. rewrite hpublic_halloc. destruct (Nat.eqb_spec a (hlen h)); [lia|reflexivity]. Qed.

Lemma ext_halloc own h1 h p l : ext own h1 h -> ext own h1 (halloc env h p l).
Proof.
  intros [L P A Q]. split.
  - rewrite hlen_halloc. lia.
  - intros a Ha. rewrite halloc_oldp by lia. auto.
  - intros a Ha Hn. rewrite halloc_old by lia. auto.
  - exact Q.
Qed.
Lemma heap_wf_halloc h p l : heap_wf h -> heap_wf (halloc env h p l).
Proof.
  intros H q k Hq. specialize (H q k Hq). rewrite halloc_oldp; [exact H|]. now apply hpublic_lt.
Qed.
Lemma obj_wf_halloc h p l (o : HObj S) : obj_wf h o -> obj_wf (halloc env h p l) o.
Proof.
  intros [A1 A2 A3 A4 A5 A6 A7 A8 A9 A10 A11].
  split; rewrite ?hlen_halloc, ?halloc_oldp by assumption; auto.
  intros a Ha. destruct (A10 a Ha) as (?&?&?&?). auto.
Qed.
Lemma view_halloc h p l (o : HObj S) : heap_wf h -> obj_wf h o ->
  view env C (halloc env h p l) o = view env C h o.
Proof.
  intros Hw Ho. apply view_same; auto; try (apply halloc_old; apply Ho).
  - intros a Ha. apply halloc_old. now apply hpublic_lt.
  - intros a Ha. apply halloc_old. now apply (ow_mag _ _ Ho).
Qed.
Lemma rel_new w s p l : Rel w s -> Rel (halloc env (fst w) p l, snd w) s.
Proof.
  intros [Hh Ho Hv He Hw Hm]. split; cbn [fst snd]; auto.
  - now apply heap_wf_halloc.
  - now apply obj_wf_halloc.
  - unfold wview in *. cbn [fst snd]. now rewrite view_halloc.
  - now apply ext_halloc.
Qed.
Lemma rel_newq w s a u : hpublic env (fst w) a = true -> Rel w s -> Rel (hnewq env (fst w) a u, snd w) s.
Proof.
  intros Pa [Hh Ho Hv He Hw Hm]. destruct w as [h o]. cbn [fst snd] in *.
  assert (Hq : forall q k, nth_error (h_qtys h) q = Some k -> nth_error (h_qtys (hnewq env h a u)) q = Some k).
  { intros q k Hq. unfold hnewq. cbn [h_qtys]. rewrite nth_error_app1; [exact Hq|].
    apply nth_error_Some. now rewrite Hq. }
  split; cbn [fst snd]; auto.
  - intros q k H. unfold hnewq in H. cbn [h_qtys] in H. change (hpublic env h (q_arr k) = true).
    destruct (Nat.lt_ge_cases q (List.length (h_qtys h))) as [L|L].
    + rewrite nth_error_app1 in H by exact L. eapply Hh; eauto.
    + rewrite nth_error_app2 in H by exact L.
      destruct (q - List.length (h_qtys h)) as [|n] eqn:E; cbn in H.
      * injection H as <-. exact Pa.
      * now destruct n.
  - destruct Ho. split; auto. intros q Hq'. specialize (ow_erf0 q Hq').
    unfold qlen, hnewq in *. cbn [h_qtys]. rewrite app_length. cbn. lia.
  - unfold wview in *. cbn [fst snd]. rewrite <- Hv.
    apply (view_same C h (hnewq env h a u) o); auto; try (intros; reflexivity).
  - destruct He as [L P A Q]. split; auto.
Qed.

(** [values * ur(unit)] *)
Lemma build_rel w s q : Rel w s ->
  exists w' a, h_build env C q w = (w', Ok a) /\ Rel w' s /\ hqty env (fst w') a = q /\ a < qlen (fst w').
Proof.
  intros R. destruct w as [h o]. unfold h_build, mbind, onew, onewq. cbn [fst snd].
  exists (hnewq env (halloc env h true (mags q)) (List.length (h_arrs h)) (aunits q), o),
         (List.length (h_qtys (halloc env h true (mags q)))).
  split; [reflexivity|]. split; [|split].
  - apply (rel_newq (halloc env h true (mags q), o)); cbn [fst].
    + rewrite hpublic_halloc. unfold hlen. now rewrite Nat.eqb_refl.
    + now apply (rel_new (h, o)).
  - cbn [fst]. unfold hqty, hnewq. cbn [h_qtys]. rewrite nth_error_app2 by lia.
    rewrite Nat.sub_diag. cbn [nth_error q_arr q_units].
    change (mkQA (harr env (halloc env h true (mags q)) (List.length (h_arrs h))) (aunits q) = q).
    rewrite harr_halloc. unfold hlen. rewrite Nat.eqb_refl. now destruct q.
  - cbn [fst]. unfold qlen, hnewq. cbn [h_qtys]. rewrite app_length. cbn. lia.
Qed.

(** The [erf] setter. *)
Definition sets_erf (p : option (QArr env) -> Meth S unit) : Prop := forall v s e m a b c,
  p v (m_fill env C s e m a b c) =
  match assert_quantity_arr env v u_Wm2 with
  | Err x => (m_fill env C s e m a b c, Err x)
  | Ok q => match to_mags env q u_Wm2 with
            | Err x => (m_fill env C s (Some q) m a b c, Err x)
            | Ok l => (m_fill env C s (Some q) (Some l) a b c, Ok tt)
            end
  end.

Lemma assert_arr_some q u r : assert_quantity_arr env (Some q) u = Ok r -> r = q /\ exists l, to_mags env q u = Ok l.
Proof.
  unfold assert_quantity_arr. destruct (to_mags env q u) as [l|x] eqn:E.
  - intros H. injection H as <-. eauto.
  - destruct x; discriminate.
Qed.

Lemma rel_set_erf p w s q : sets_erf p -> Rel w s -> q < qlen (fst w) ->
  Rel (fst (h_set_erf env C (Some q) w)) (fst (p (Some (hqty env (fst w) q)) s)) /\
  snd (h_set_erf env C (Some q) w) = snd (p (Some (hqty env (fst w) q)) s).
Proof.
  intros Hp R Lq. pose proof R as [Hh Ho Hv He Hw Hm]. destruct w as [h o]. cbn [fst snd] in *.
  unfold h_set_erf, mbind, mread, omod, mmod. cbn [fst snd].
  rewrite <- Hv. unfold wview at 1 2, view. cbn [fst snd]. rewrite Hp.
  destruct (assert_quantity_arr env (Some (hqty env h q)) u_Wm2) as [r|x] eqn:E.
  2:{ cbn [fst snd]. split; [|reflexivity]. rewrite <- Hv in R. exact R. }
  destruct (assert_arr_some _ _ _ E) as [-> [l El]]. rewrite El.
  cbn [fst snd].
  destruct (nth_error (h_qtys h) q) as [k|] eqn:Ek.
  2:{ apply nth_error_None in Ek. unfold qlen in Lq. lia. }
  assert (Hk : hqty env h q = mkQA (harr env h (q_arr k)) (q_units k)) by (unfold hqty; now rewrite Ek).
  assert (Pk : hpublic env h (q_arr k) = true) by (eapply Hh; eauto).
  destruct (units_eqb (q_units k) u_Wm2) eqn:Eu.
  - (* the caller's array *)
    cbn [mret fst snd]. split; [|reflexivity].
    assert (l = harr env h (q_arr k)) as ->.
    { rewrite Hk in El. unfold to_mags in El. cbn [aunits mags] in El. rewrite Eu in El.
      destruct (dim_eqb env (q_units k) u_Wm2); congruence. }
    destruct Ho as [A1 A2 A3 A4 A5 A6 A7 A8 A9 A10 A11]. split; cbn [fst snd]; auto.
    + split; cbn; auto.
      * intros a Ha. injection Ha as <-. split; [now apply hpublic_lt|].
        repeat split; intros Z; rewrite Z in Pk; congruence.
      * intros q' Hq'. injection Hq' as <-. exact Lq.
    + cbn. intros a Ha. injection Ha as <-.
      destruct (Nat.lt_ge_cases (q_arr k) (hlen h0)) as [L|L]; [|auto].
      right. right. rewrite <- (ex_pub _ _ _ He) by exact L. exact Pk.
  - (* a new array *)
    unfold onew. cbn [fst snd]. split; [|reflexivity].
    assert (R' := rel_new _ _ false l R). cbn [fst snd] in R'.
    destruct R' as [Hh' Ho' Hv' He' Hw' Hm']. cbn [fst snd] in *.
    destruct Ho as [A1 A2 A3 A4 A5 A6 A7 A8 A9 A10 A11]. split; cbn [fst snd]; auto.
    + destruct Ho'. split; cbn; auto.
      * intros a Ha. injection Ha as <-. pose proof (hlen_halloc h false l) as Z.
        unfold hlen in *. rewrite ?app_length; cbn. repeat split; lia.
      * intros q' Hq'. injection Hq' as <-. exact Lq.
    + unfold wview, view. cbn [fst snd put_erf_mag put_erf o_erf o_erf_mag o_r1 o_r2 o_r3 o_s option_map].
      rewrite (halloc_old _ _ _ _ A1), (halloc_old _ _ _ _ A2), (halloc_old _ _ _ _ A3). f_equal.
      * f_equal. apply hqty_same; [|exact Lq]. intros k' Hk'. split; [exact Hk'|].
        apply halloc_old. apply hpublic_lt. eapply Hh; eauto.
      * f_equal. rewrite harr_halloc. unfold hlen. now rewrite Nat.eqb_refl.
    + cbn. intros a Ha. injection Ha as <-. right. left. destruct He as [L _ _ _]. exact L.
Qed.

Lemma sim_set_new p q : sets_erf p -> sim (mdo a <- h_build env C q; h_set_erf env C (Some a)) (p (Some q)).
Proof.
  intros Hp w s R. destruct (build_rel w s q R) as (w' & a & E & R' & Eq & La).
  unfold mbind at 1 2. rewrite E. rewrite <- Eq. now apply rel_set_erf.
Qed.
Lemma sim_set_none p : sets_erf p -> sim (h_set_erf env C None) (p None).
Proof.
  intros Hp w s R. cbn. pose proof (rl_view _ _ R) as Hv. rewrite <- Hv. unfold wview, view.
  rewrite Hp. cbn. split; [|reflexivity]. rewrite <- Hv in R. exact R.
Qed.
Lemma sim_set_drivers p (d : ErfArg env -> Meth S unit) :
  sets_erf p ->
  (forall e, d e = match e with
    | ENoShape => mraise AttributeError
    | EQnot1 _ | EArrNot1 => mraise AssertionError
    | EArr1 => p None
    | EQ1 q => p (Some q)
    end) ->
  forall e, sim (h_set_drivers env C (HNew e)) (d e).
Proof.
  intros Hp Hd e. rewrite Hd. destruct e; cbn [h_set_drivers]; try apply sim_raise.
  - now apply sim_set_new.
  - now apply sim_set_none.
Qed.

(** [_reset] *)
Definition resets (p : Meth S unit) : Prop := forall s e m a b c,
  p (m_fill env C s e m a b c) =
  if match e with None => true | Some q => existsb (nisnan env) (mags q) end
  then (m_fill env C s e m a b c, Err ModelStateError)
  else match m with
       | None => (m_fill env C (m_noidx env C s) e m a b c, Err AttributeError)
       | Some l => let n := map (fun _ => nnan env) l in
                   (m_fill env C (m_noidx env C s) e m n n n, Ok tt)
       end.

Lemma sim_reset p : resets p -> sim (h_reset env C) p.
Proof.
  intros Hp w s R. pose proof R as [Hh Ho Hv He Hw Hm]. destruct w as [h o]. cbn [fst snd] in *.
  rewrite <- Hv. unfold wview at 1 2, view. cbn [fst snd]. rewrite Hp.
  unfold h_reset, mbind, mread, omod, mmod, onew, mraise. cbn [fst snd].
  assert (Ei : match o_erf o with Some q => existsb (nisnan env) (mags (hqty env h q)) | None => true end
             = match option_map (hqty env h) (o_erf o) with Some q => existsb (nisnan env) (mags q) | None => true end)
    by now destruct (o_erf o).
  rewrite <- Ei.
  destruct (match o_erf o with Some q => existsb (nisnan env) (mags (hqty env h q)) | None => true end).
  { cbn. split; [|reflexivity]. rewrite <- Hv in R. exact R. }
  pose proof (rel_put_s _ _ (m_noidx env C (o_s o)) R) as R1. cbn [fst snd] in R1.
  cbn [fst snd put_s o_erf_mag].
  destruct (o_erf_mag o) as [a|] eqn:Ea; cbn [option_map] in *.
  2:{ cbn [fst snd]. split; [exact R1|reflexivity]. }
  set (n := map (fun _ => nnan env) (harr env h a)).
  cbn [fst snd]. split; [|reflexivity].
  assert (W1 := heap_wf_halloc _ false n Hh).
  assert (W2 := heap_wf_halloc _ false n W1).
  assert (W3 := heap_wf_halloc _ false n W2).
  assert (O1 := obj_wf_halloc _ false n _ Ho).
  assert (O2 := obj_wf_halloc _ false n _ O1).
  assert (O3 := obj_wf_halloc _ false n _ O2).
  set (h1 := halloc env h false n) in *. set (h2 := halloc env h1 false n) in *.
  set (h3 := halloc env h2 false n) in *.
  assert (L1 : hlen h1 = Datatypes.S (hlen h)) by apply hlen_halloc.
  assert (L2 : hlen h2 = Datatypes.S (hlen h1)) by apply hlen_halloc.
  assert (L3 : hlen h3 = Datatypes.S (hlen h2)) by apply hlen_halloc.
  change (List.length (h_arrs h)) with (hlen h). change (List.length (h_arrs h1)) with (hlen h1).
  change (List.length (h_arrs h2)) with (hlen h2).
  assert (N1 : harr env h3 (hlen h) = n).
  { unfold h3. rewrite halloc_old by lia. unfold h2. rewrite halloc_old by lia. unfold h1. rewrite harr_halloc. now rewrite Nat.eqb_refl. }
  assert (N2 : harr env h3 (hlen h1) = n).
  { unfold h3. rewrite !halloc_old by lia. unfold h2. rewrite harr_halloc. now rewrite Nat.eqb_refl. }
  assert (N3 : harr env h3 (hlen h2) = n).
  { unfold h3. rewrite harr_halloc. now rewrite Nat.eqb_refl. }
  assert (P1 : hpublic env h3 (hlen h) = false).
  { unfold h3. rewrite halloc_oldp by lia. unfold h2. rewrite halloc_oldp by lia. unfold h1. rewrite hpublic_halloc. now rewrite Nat.eqb_refl. }
  assert (P2 : hpublic env h3 (hlen h1) = false).
  { unfold h3. rewrite !halloc_oldp by lia. unfold h2. rewrite hpublic_halloc. now rewrite Nat.eqb_refl. }
  assert (P3 : hpublic env h3 (hlen h2) = false).
  { unfold h3. rewrite hpublic_halloc. now rewrite Nat.eqb_refl. }
  destruct (ow_mag _ _ Ho a Ea) as (La & Na1 & Na2 & Na3).
  assert (E3 : ext own0 h0 h3) by (unfold h3, h2, h1; now repeat apply ext_halloc).
  assert (LL := ex_len _ _ _ He).
  split; cbn [fst snd]; auto.
  - assert (Q3 : qlen h3 = qlen h) by reflexivity. clearbody h3 h2 h1. split; cbn; auto; try lia.
    + intros a' Ha'. rewrite Ea in Ha'. injection Ha' as <-. repeat split; lia.
    + rewrite Q3. exact (ow_erf _ _ Ho).
  - unfold wview, view. cbn [fst snd put_s put_r1 put_r2 put_r3 o_s o_erf o_erf_mag o_r1 o_r2 o_r3].
    rewrite N1, N2, N3, Ea. cbn [option_map]. f_equal.
    + destruct (o_erf o) as [q|] eqn:Eq; [|reflexivity]. cbn. f_equal.
      apply hqty_same; [|exact (ow_erf _ _ Ho q Eq)]. intros k Hk. split; [exact Hk|].
      assert (q_arr k < hlen h) by (apply hpublic_lt; eapply Hh; eauto).
      unfold h3. rewrite halloc_old by lia. unfold h2. rewrite halloc_old by lia. unfold h1. now rewrite halloc_old by lia.
    + f_equal. unfold h3. rewrite halloc_old by lia. unfold h2. rewrite halloc_old by lia. unfold h1. now rewrite halloc_old by lia.
  - clearbody h3 h2 h1. cbn. intros b Hb. right. destruct Hb as [<-|[<-|[<-|[]]]]; lia.
  - cbn. intros b Hb. apply Hm. congruence.
Qed.


Lemma sim_len w s (len : S -> nat) :
  (forall s e m a b c, len (m_fill env C s e m a b c) =
     match e with None => 1 | Some q => List.length (mags q) end) ->
  Rel w s -> h_erf_len env C w = len s.
Proof.
  intros Hl R. rewrite <- (rl_view _ _ R). unfold wview, view. rewrite Hl. unfold h_erf_len.
  now destruct (o_erf (snd w)).
Qed.

Lemma sim_forget {A} (m : Meth W A) (p : Meth S A) : sim m p -> sim (forget m) (forget p).
Proof. intros H. apply sim_bind; [exact H|]. intros a. apply sim_ret. Qed.
End Sim.

(** [run_scenarios] of two variants in simulation. *)
Section SimRun.
Variable C : Class env.
Notation S := (m_state env C).
Notation W := (Heap * HObj S)%type.
Variable h0 : Heap.
Variable own0 : list nat.
Variable mag0 : option nat.
Notation sim := (sim C h0 own0 mag0).
Variable nm : string.
Variables (sp : S -> list (string * Qty env)) (dt : PyVal env -> Meth S unit)
  (sd : ErfArg env -> Meth S unit) (rs rn : Meth S unit)
  (ou : S -> list (string * string * list num)).
Variables (dt' : PyVal env -> Meth W unit)
  (sd' : ErfArg env -> Meth W unit) (rs' rn' : Meth W unit).
Let P := mkVariant env S nm sp dt sd rs rn ou.
Let V := mkVariant env W nm (fun w => sp (wview env C w)) dt' sd' rs' rn' (fun w => ou (wview env C w)).
Hypothesis Hdt : forall v, sim (dt' v) (dt v).
Hypothesis Hsd : forall e, sim (sd' e) (sd e).
Hypothesis Hrs : sim rs' rs.
Hypothesis Hrn : sim rn' rn.

Lemma sim_run_row i times r : sim (run_row env parse_unit V i times r) (run_row env parse_unit P i times r).
Proof.
  unfold run_row. apply sim_bind; [apply sim_read; reflexivity|]. intros u.
  apply sim_bind; [apply Hsd|]. intros _.
  apply sim_bind; [apply Hrs|]. intros _.
  apply sim_bind; [apply Hrn|]. intros _.
  apply sim_bind; [exact (sim_view C h0 own0 mag0 (fun s => create_tss env (r_meta env r) _ (ou s)))|].
  intros outs. destruct has_dup; [apply sim_raise|apply sim_ret].
Qed.
Lemma sim_run_rows times rows : forall i, sim (run_rows env parse_unit V i times rows) (run_rows env parse_unit P i times rows).
Proof.
  induction rows as [|r rows IH]; intros i; cbn [run_rows]; [apply sim_ret|].
  apply sim_bind; [apply sim_run_row|]. intros x. apply sim_bind; [apply IH|]. intros xs. apply sim_ret.
Qed.
Lemma sim_run_scenarios sc dv : sim (run_scenarios env parse_unit V sc dv) (run_scenarios env parse_unit P sc dv).
Proof.
  unfold run_scenarios.
  apply sim_bind; [exact (sim_view C h0 own0 mag0 (fun s => Ok (save_paras_meta env P s)))|]. intros save.
  destruct (Nat.eqb _ 0); [apply sim_raise|].
  apply sim_bind; [apply sim_read; reflexivity|]. intros ts.
  apply sim_bind; [apply Hdt|]. intros _.
  change (annotate env V save) with (annotate env P save).
  destruct has_dup; [apply sim_raise|].
  apply sim_bind; [apply sim_run_rows|]. intros out.
  destruct has_dup; [apply sim_raise|apply sim_ret].
Qed.
End SimRun.

(** *** The two classes *)
Ltac scal := intros s e m a b c; cbv [mbind mread mmod mret mraise tl_heat_capacity_upper tl_heat_capacity_lower RecordSet.set]; cbn;
  repeat (match goal with |- context [match ?x with Ok _ => _ | Err _ => _ end] => destruct x end; cbn; try reflexivity).

Section TL.
Variable h0 : Heap.
Variable own0 : list nat.
Variable mag0 : option nat.
Notation C := (tl_class env).
Notation sim := (sim C h0 own0 mag0).

Lemma tl_sc_du v : scalar C (tl_set_du env v). Proof. unfold tl_set_du. scal. Qed.
Lemma tl_sc_dl v : scalar C (tl_set_dl env v). Proof. unfold tl_set_dl. scal. Qed.
Lemma tl_sc_l0 v : scalar C (tl_set_lambda0 env v). Proof. unfold tl_set_lambda0. scal. Qed.
Lemma tl_sc_a v : scalar C (tl_set_a env v). Proof. unfold tl_set_a. scal. Qed.
Lemma tl_sc_ef v : scalar C (tl_set_efficacy env v). Proof. unfold tl_set_efficacy. scal. Qed.
Lemma tl_sc_et v : scalar C (tl_set_eta env v). Proof. unfold tl_set_eta. scal. Qed.
Lemma tl_sc_dt v : scalar C (tl_set_delta_t env v). Proof. unfold tl_set_delta_t. scal. Qed.
Lemma tl_sc_adv : scalar C (tl_advance env). Proof. intros s e m a b c. reflexivity. Qed.
Lemma tl_p1 i v : puts1 C i v (tl_put_upper env i v).
Proof. intros s e m a b c. unfold tl_put_upper, mbind, mread, mmod. cbn. now destruct (lset a i v). Qed.
Lemma tl_p2 i v : puts2 C i v (tl_put_lower env i v).
Proof. intros s e m a b c. unfold tl_put_lower, mbind, mread, mmod. cbn. now destruct (lset b i v). Qed.
Lemma tl_p3 i v : puts3 C i v (tl_put_rndt env i v).
Proof. intros s e m a b c. unfold tl_put_rndt, mbind, mread, mmod. cbn. now destruct (lset c i v). Qed.
Lemma tl_se : sets_erf C (tl_set_erf env).
Proof. intros v. unfold tl_set_erf. scal. Qed.
Lemma tl_rs : resets C (tl_reset env).
Proof.
  intros s e m a b c. unfold tl_reset, mbind, mread, mmod, mraise. cbn.
  destruct (match e with Some q => existsb (nisnan env) (mags q) | None => true end); [reflexivity|].
  now destruct m.
Qed.

Lemma sim_tl_step_at i : sim (h_tl_step_at env i) (tl_step_at env i).
Proof.
  destruct i as [|j]; unfold h_tl_step_at, tl_step_at.
  - apply sim_bind; [apply sim_put1, tl_p1|]. intros _.
    apply sim_bind; [apply sim_put2, tl_p2|]. intros _. apply sim_put3, tl_p3.
  - apply sim_bind; [apply (sim_view C)|]. intros tu.
    apply sim_bind; [apply sim_put1, tl_p1|]. intros _.
    apply sim_bind; [apply (sim_view C)|]. intros tl.
    apply sim_bind; [apply sim_put2, tl_p2|]. intros _.
    apply sim_bind; [apply (sim_view C)|]. intros r. apply sim_put3, tl_p3.
Qed.
Lemma tl_step_advance s : tl_step env s = mbind (tl_advance env) (tl_step_at env) s.
Proof.
  unfold tl_step, tl_advance, mbind, mmod, mread. cbn.
  destruct (tl_idx env s); reflexivity.
Qed.
Lemma sim_tl_step : sim (h_tl_step env) (tl_step env).
Proof.
  intros w s R. rewrite tl_step_advance.
  refine (sim_bind C h0 own0 mag0 _ _ _ _ _ _ w s R).
  - apply sim_olift, tl_sc_adv.
  - apply sim_tl_step_at.
Qed.
Lemma sim_tl_steps n : sim (h_tl_steps env n) (tl_steps env n).
Proof.
  induction n as [|n IH]; cbn [h_tl_steps tl_steps]; [apply sim_ret|].
  apply sim_bind; [apply sim_tl_step|]. intros _. exact IH.
Qed.
Lemma sim_tl_run : sim (h_tl_run env) (tl_run env).
Proof.
  intros w s R. unfold h_tl_run, tl_run.
  rewrite (sim_len C h0 own0 mag0 w s (tl_erf_len env)); [|reflexivity|exact R].
  now apply sim_tl_steps.
Qed.
Lemma sim_tl_drivers e : sim (h_set_drivers env C (HNew e)) (tl_set_drivers env e).
Proof. apply (sim_set_drivers C h0 own0 mag0 (tl_set_erf env)); [apply tl_se|]. intros []; reflexivity. Qed.

Lemma sim_tl_call o : sim (h_tl_call env parse_unit (HT o)) (tl_call env parse_unit o).
Proof.
  destruct o; cbn [h_tl_call tl_call].
  - apply sim_olift, tl_sc_du.
  - apply sim_olift, tl_sc_dl.
  - apply sim_olift, tl_sc_l0.
  - apply sim_olift, tl_sc_a.
  - apply sim_olift, tl_sc_ef.
  - apply sim_olift, tl_sc_et.
  - apply sim_olift, tl_sc_dt.
  - destruct v; [apply sim_set_new|apply sim_set_none]; apply tl_se.
  - apply sim_tl_drivers.
  - apply sim_reset, tl_rs.
  - apply sim_tl_step.
  - apply sim_tl_run.
  - apply sim_forget.
    apply (sim_run_scenarios C h0 own0 mag0 (tl_name) (tl_save_paras env) (tl_set_delta_t env)
             (tl_set_drivers env) (tl_reset env) (tl_run env) (tl_outputs env)).
    + intros v. apply sim_olift, tl_sc_dt.
    + apply sim_tl_drivers.
    + apply sim_reset, tl_rs.
    + apply sim_tl_run.
Qed.
End TL.

Section IR.
Variable h0 : Heap.
Variable own0 : list nat.
Variable mag0 : option nat.
Notation C := (ir_class env).
Notation sim := (sim C h0 own0 mag0).

Lemma ir_sc_q1 v : scalar C (ir_set_q1 env v). Proof. unfold ir_set_q1. scal. Qed.
Lemma ir_sc_q2 v : scalar C (ir_set_q2 env v). Proof. unfold ir_set_q2. scal. Qed.
Lemma ir_sc_d1 v : scalar C (ir_set_d1 env v). Proof. unfold ir_set_d1. scal. Qed.
Lemma ir_sc_d2 v : scalar C (ir_set_d2 env v). Proof. unfold ir_set_d2. scal. Qed.
Lemma ir_sc_ef v : scalar C (ir_set_efficacy env v). Proof. unfold ir_set_efficacy. scal. Qed.
Lemma ir_sc_dt v : scalar C (ir_set_delta_t env v). Proof. unfold ir_set_delta_t. scal. Qed.
Lemma ir_sc_adv : scalar C (ir_advance env). Proof. intros s e m a b c. reflexivity. Qed.
Lemma ir_p1 i v : puts1 C i v (ir_put_temp1 env i v).
Proof. intros s e m a b c. unfold ir_put_temp1, mbind, mread, mmod. cbn. now destruct (lset a i v). Qed.
Lemma ir_p2 i v : puts2 C i v (ir_put_temp2 env i v).
Proof. intros s e m a b c. unfold ir_put_temp2, mbind, mread, mmod. cbn. now destruct (lset b i v). Qed.
Lemma ir_p3 i v : puts3 C i v (ir_put_rndt env i v).
Proof. intros s e m a b c. unfold ir_put_rndt, mbind, mread, mmod. cbn. now destruct (lset c i v). Qed.
Lemma ir_se : sets_erf C (ir_set_erf env).
Proof. intros v. unfold ir_set_erf. scal. Qed.
Lemma ir_rs : resets C (ir_reset env).
Proof.
  intros s e m a b c. unfold ir_reset, mbind, mread, mmod, mraise. cbn.
  destruct (match e with Some q => existsb (nisnan env) (mags q) | None => true end); [reflexivity|].
  now destruct m.
Qed.

Lemma sim_ir_step_at i : sim (h_ir_step_at env i) (ir_step_at env i).
Proof.
  destruct i as [|j]; unfold h_ir_step_at, ir_step_at.
  - apply sim_bind; [apply sim_put1, ir_p1|]. intros _.
    apply sim_bind; [apply sim_put2, ir_p2|]. intros _. apply sim_put3, ir_p3.
  - apply sim_bind; [apply (sim_view C)|]. intros tu.
    apply sim_bind; [apply sim_put1, ir_p1|]. intros _.
    apply sim_bind; [apply (sim_view C)|]. intros tl.
    apply sim_bind; [apply sim_put2, ir_p2|]. intros _.
    apply sim_bind; [apply (sim_view C)|]. intros r. apply sim_put3, ir_p3.
Qed.
Lemma ir_step_advance s : ir_step env s = mbind (ir_advance env) (ir_step_at env) s.
Proof.
  unfold ir_step, ir_advance, mbind, mmod, mread. cbn.
  destruct (ir_idx env s); reflexivity.
Qed.
Lemma sim_ir_step : sim (h_ir_step env) (ir_step env).
Proof.
  intros w s R. rewrite ir_step_advance.
  refine (sim_bind C h0 own0 mag0 _ _ _ _ _ _ w s R).
  - apply sim_olift, ir_sc_adv.
  - apply sim_ir_step_at.
Qed.
Lemma sim_ir_steps n : sim (h_ir_steps env n) (ir_steps env n).
Proof.
  induction n as [|n IH]; cbn [h_ir_steps ir_steps]; [apply sim_ret|].
  apply sim_bind; [apply sim_ir_step|]. intros _. exact IH.
Qed.
Lemma sim_ir_run : sim (h_ir_run env) (ir_run env).
Proof.
  intros w s R. unfold h_ir_run, ir_run.
  rewrite (sim_len C h0 own0 mag0 w s (ir_erf_len env)); [|reflexivity|exact R].
  now apply sim_ir_steps.
Qed.
Lemma sim_ir_drivers e : sim (h_set_drivers env C (HNew e)) (ir_set_drivers env e).
Proof. apply (sim_set_drivers C h0 own0 mag0 (ir_set_erf env)); [apply ir_se|]. intros []; reflexivity. Qed.

Lemma sim_ir_call o : sim (h_ir_call env parse_unit (HI o)) (ir_call env parse_unit o).
Proof.
  destruct o; cbn [h_ir_call ir_call].
  - apply sim_olift, ir_sc_q1.
  - apply sim_olift, ir_sc_q2.
  - apply sim_olift, ir_sc_d1.
  - apply sim_olift, ir_sc_d2.
  - apply sim_olift, ir_sc_ef.
  - apply sim_olift, ir_sc_dt.
  - destruct v; [apply sim_set_new|apply sim_set_none]; apply ir_se.
  - apply sim_ir_drivers.
  - apply sim_reset, ir_rs.
  - apply sim_ir_step.
  - apply sim_ir_run.
  - apply sim_forget.
    apply (sim_run_scenarios C h0 own0 mag0 (ir_name) (ir_save_paras env) (ir_set_delta_t env)
             (ir_set_drivers env) (ir_reset env) (ir_run env) (ir_outputs env)).
    + intros v. apply sim_olift, ir_sc_dt.
    + apply sim_ir_drivers.
    + apply sim_reset, ir_rs.
    + apply sim_ir_run.
Qed.
End IR.
End GenHeap.
