(** Worlds: several models, one caller, shared arrays. *)
From Coq Require Import List String QArith Bool Arith Lia.
From Verif Require Import Arith Pint Base TwoLayer Impulse Scm Api Heap SpecHeap GenTL GenHeap.
Import ListNotations.
Local Open Scope nat_scope.

Section GenWorld.
Variable env : Env.
Variable parse_unit : string -> option (Qty env).
Notation Heap := (Heap env).
Notation World := (World env).
Notation hlen := (hlen env). Notation qlen := (qlen env).

Definition core_of {S} (o : HObj S) : HObj unit :=
  mkHObj tt (o_erf o) (o_erf_mag o) (o_r1 o) (o_r2 o) (o_r3 o).
Definition core (x : Obj env) : HObj unit :=
  match x with OTL o => core_of o | OIR o => core_of o end.
Definition own (c : HObj unit) : list nat := [o_r1 c; o_r2 c; o_r3 c].

Lemma wf_core {S} h (o : HObj S) : obj_wf env h o <-> obj_wf env h (core_of o).
Proof. split; intros []; split; auto. Qed.

Definition disj (c d : HObj unit) : Prop :=
  forall a, In a (own c) -> ~ In a (own d) /\ o_erf_mag d <> Some a.

Record world_wf (w : World) : Prop := mkWWf {
  ww_heap : heap_wf env (w_heap w);
  ww_obj : forall k x, nth_error (w_objs w) k = Some x -> obj_wf env (w_heap w) (core x);
  ww_disj : forall j k x y, j <> k -> nth_error (w_objs w) j = Some x ->
              nth_error (w_objs w) k = Some y -> disj (core x) (core y)
}.

(** Views of an object under a heap that differs outside of what it refers to. *)
Lemma state_same h h' (x : Obj env) : heap_wf env h -> obj_wf env h (core x) ->
  (forall a, hpublic env h a = true -> harr env h' a = harr env h a) ->
  (forall q k, nth_error (h_qtys h) q = Some k -> nth_error (h_qtys h') q = Some k) ->
  (forall a, o_erf_mag (core x) = Some a -> harr env h' a = harr env h a) ->
  (forall a, In a (own (core x)) -> harr env h' a = harr env h a) ->
  state_of env h' x = state_of env h x.
Proof.
  intros Hw Ho Hp Hq Hm Hr. destruct x as [o|o]; cbn [state_of]; f_equal; apply view_same; auto;
    try (apply wf_core; exact Ho); apply Hr; cbn; auto.
Qed.

Lemma pub_not_own h c a : obj_wf env h c -> hpublic env h a = true -> ~ In a (own c).
Proof. intros [] P [<-|[<-|[<-|[]]]]; congruence. Qed.

(** What a call on object [k] guarantees. *)
Record call_ok (w : World) (k : nat) (x : Obj env) (h' : Heap) (x' : Obj env) : Prop := mkCallOk {
  ca_heap : heap_wf env h';
  ca_obj : obj_wf env h' (core x');
  ca_ext : ext env (own (core x)) (w_heap w) h';
  ca_own : forall a, In a (own (core x')) -> In a (own (core x)) \/ hlen (w_heap w) <= a;
  ca_mag : forall a, o_erf_mag (core x') = Some a ->
             o_erf_mag (core x) = Some a \/ hlen (w_heap w) <= a \/ hpublic env (w_heap w) a = true
}.

Lemma obj_wf_ext own0 h h' (c : HObj unit) : ext env own0 h h' -> obj_wf env h c -> obj_wf env h' c.
Proof.
  intros [L P A Q] [A1 A2 A3 A4 A5 A6 A7 A8 A9 A10 A11]. split; auto; try lia.
  - now rewrite P. - now rewrite P. - now rewrite P.
  - intros a Ha. destruct (A10 a Ha) as (?&?&?&?). repeat split; auto; lia.
  - intros q Hq. specialize (A11 q Hq). destruct (nth_error (h_qtys h) q) as [z|] eqn:E.
    + apply Q in E. apply nth_error_Some. now rewrite E.
    + apply nth_error_None in E. unfold GenHeap.qlen in A11. lia.
Qed.

Lemma call_public w k x h' x' : world_wf w -> nth_error (w_objs w) k = Some x -> call_ok w k x h' x' ->
  forall a, hpublic env (w_heap w) a = true ->
    harr env h' a = harr env (w_heap w) a /\ hpublic env h' a = true.
Proof.
  intros Ww Ek Hc a Pa. pose proof (ww_obj _ Ww k x Ek) as Ox.
  destruct (ca_ext _ _ _ _ _ Hc) as [L P A Q]. pose proof (hpublic_lt _ _ _ Pa) as La. split.
  - apply A; [exact La|]. eapply pub_not_own; eauto.
  - now rewrite P.
Qed.

Lemma call_other w k x h' x' j y : world_wf w -> nth_error (w_objs w) k = Some x -> call_ok w k x h' x' ->
  j <> k -> nth_error (w_objs w) j = Some y -> state_of env h' y = state_of env (w_heap w) y.
Proof.
  intros Ww Ek Hc N Ej. pose proof (ww_obj _ Ww j y Ej) as Oy.
  pose proof (ww_disj _ Ww k j x y (not_eq_sym N) Ek Ej) as D.
  destruct (ca_ext _ _ _ _ _ Hc) as [L P A Q].
  apply state_same; auto.
  - apply (ww_heap _ Ww).
  - intros a Pa. apply (call_public w k x h' x' Ww Ek Hc a Pa).
  - intros a Ha. destruct (ow_mag _ _ _ Oy a Ha) as [La _]. apply A; [exact La|].
    intros I. destruct (D a I). contradiction.
  - intros a Ha. apply A.
    + destruct Oy. destruct Ha as [<-|[<-|[<-|[]]]]; assumption.
    + intros I. destruct (D a I). contradiction.
Qed.

Lemma own_lt h (c : HObj unit) a : obj_wf env h c -> In a (own c) -> a < hlen h.
Proof. intros [] [<-|[<-|[<-|[]]]]; assumption. Qed.
Lemma own_priv h (c : HObj unit) a : obj_wf env h c -> In a (own c) -> hpublic env h a = false.
Proof. intros [] [<-|[<-|[<-|[]]]]; assumption. Qed.

Lemma call_wf w k x h' x' : world_wf w -> nth_error (w_objs w) k = Some x -> call_ok w k x h' x' ->
  world_wf (mkWorld h' (upd (w_objs w) k x')).
Proof.
  intros Ww Ek Hc. pose proof Hc as [Hh Ho He Hw Hm].
  assert (Lk : k < List.length (w_objs w)) by (apply nth_error_Some; now rewrite Ek).
  assert (Get : forall j z, nth_error (upd (w_objs w) k x') j = Some z ->
            (j = k /\ z = x') \/ (j <> k /\ nth_error (w_objs w) j = Some z)).
  { intros j z. rewrite nth_error_upd. destruct (Nat.eqb_spec k j) as [->|N].
    - destruct (Nat.ltb_spec j (List.length (w_objs w))); [|lia]. intros H'. left. split; congruence.
    - intros H'. right. auto. }
  split; cbn [w_heap w_objs].
  - exact Hh.
  - intros j z Hz. destruct (Get j z Hz) as [[-> ->]|[N E]]; [exact Ho|].
    eapply obj_wf_ext; [exact He|]. eapply (ww_obj _ Ww); eauto.
  - intros i j y z N Hy Hz a Ia.
    destruct (Get i y Hy) as [[-> ->]|[Ni Ei]], (Get j z Hz) as [[-> ->]|[Nj Ej]]; try lia.
    + (* x' against an old object *)
      pose proof (ww_obj _ Ww j z Ej) as Oz.
      pose proof (ww_disj _ Ww k j x z N Ek Ej) as D.
      destruct (Hw a Ia) as [I|L].
      * apply D, I.
      * split.
        -- intros I. pose proof (own_lt _ _ _ Oz I). lia.
        -- intros I. destruct (ow_mag _ _ _ Oz a I). lia.
    + (* an old object against x' *)
      pose proof (ww_obj _ Ww i y Ei) as Oy. pose proof (own_lt _ _ _ Oy Ia) as La.
      pose proof (ww_disj _ Ww i k y x N Ei Ek a Ia) as [D1 D2].
      split.
      * intros I. destruct (Hw a I); [contradiction|lia].
      * intros I. destruct (Hm a I) as [I'|[I'|I']]; [contradiction|lia|].
        pose proof (own_priv _ _ _ Oy Ia). congruence.
    + eapply (ww_disj _ Ww i j); eauto.
Qed.

(** *** Calls *)
Lemma rel_init C h (o : HObj (m_state env C)) : heap_wf env h -> obj_wf env h o ->
  Rel env C h (own (core_of o)) (o_erf_mag o) (h, o) (view env C h o).
Proof. intros Hh Ho. split; cbn; auto using ext_refl. Qed.

Lemma tl_call_rel h (o : HObj (TL env)) c : heap_wf env h -> obj_wf env h o ->
  qarg_ok env h (qarg_tl env c) = true ->
  let m := h_tl_call env parse_unit c (h, o) in
  let p := tl_call env parse_unit (tl_by_value env h c) (view env (tl_class env) h o) in
  Rel env (tl_class env) h (own (core_of o)) (o_erf_mag o) (fst m) (fst p) /\ snd m = snd p.
Proof.
  intros Hh Ho Hq. pose proof (rel_init (tl_class env) h o Hh Ho) as R.
  destruct c as [q|q|c]; cbn [tl_by_value qarg_tl qarg_ok] in *.
  - apply (rel_set_erf env (tl_class env) h _ _ (tl_set_erf env) (h, o)); auto.
    + apply tl_se. + now apply Nat.ltb_lt.
  - apply (rel_set_erf env (tl_class env) h _ _ (tl_set_erf env) (h, o)); auto.
    + apply tl_se. + now apply Nat.ltb_lt.
  - exact (sim_tl_call env parse_unit h _ _ c _ _ R).
Qed.
Lemma ir_call_rel h (o : HObj (IR env)) c : heap_wf env h -> obj_wf env h o ->
  qarg_ok env h (qarg_ir env c) = true ->
  let m := h_ir_call env parse_unit c (h, o) in
  let p := ir_call env parse_unit (ir_by_value env h c) (view env (ir_class env) h o) in
  Rel env (ir_class env) h (own (core_of o)) (o_erf_mag o) (fst m) (fst p) /\ snd m = snd p.
Proof.
  intros Hh Ho Hq. pose proof (rel_init (ir_class env) h o Hh Ho) as R.
  destruct c as [q|q|c]; cbn [ir_by_value qarg_ir qarg_ok] in *.
  - apply (rel_set_erf env (ir_class env) h _ _ (ir_set_erf env) (h, o)); auto.
    + apply ir_se. + now apply Nat.ltb_lt.
  - apply (rel_set_erf env (ir_class env) h _ _ (ir_set_erf env) (h, o)); auto.
    + apply ir_se. + now apply Nat.ltb_lt.
  - exact (sim_ir_call env parse_unit h _ _ c _ _ R).
Qed.

Lemma rel_call_ok_tl w k (o : HObj (TL env)) w' s : Rel env (tl_class env) (w_heap w) (own (core_of o)) (o_erf_mag o) w' s ->
  call_ok w k (OTL o) (fst w') (OTL (snd w')).
Proof. intros [Hh Ho Hv He Hw Hm]. split; auto. now apply (proj1 (wf_core _ _)). Qed.
Lemma rel_call_ok_ir w k (o : HObj (IR env)) w' s : Rel env (ir_class env) (w_heap w) (own (core_of o)) (o_erf_mag o) w' s ->
  call_ok w k (OIR o) (fst w') (OIR (snd w')).
Proof. intros [Hh Ho Hv He Hw Hm]. split; auto. now apply (proj1 (wf_core _ _)). Qed.

(** One package call on an existing object, completely. *)
Lemma step_tl w k c o : world_wf w -> nth_error (w_objs w) k = Some (OTL o) ->
  qarg_ok env (w_heap w) (qarg_tl env c) = true ->
  exists h' o' r, w_step env parse_unit (WTL k c) w = (mkWorld h' (upd (w_objs w) k (OTL o')), r) /\
    call_ok w k (OTL o) h' (OTL o') /\
    (view env (tl_class env) h' o', r) =
      tl_call env parse_unit (tl_by_value env (w_heap w) c) (view env (tl_class env) (w_heap w) o).
Proof.
  intros Ww Ek Hq. pose proof (ww_obj _ Ww k _ Ek) as Ho. apply (proj2 (wf_core _ o)) in Ho.
  destruct (tl_call_rel _ o c (ww_heap _ Ww) Ho Hq) as [R E].
  cbn [w_step]. rewrite Ek, Hq.
  destruct (h_tl_call env parse_unit c (w_heap w, o)) as [[h' o'] r]. cbn [fst snd] in *.
  exists h', o', r. split; [reflexivity|]. split.
  - apply (rel_call_ok_tl w k o (h', o') _ R).
  - pose proof (rl_view _ _ _ _ _ _ _ R) as Hv. unfold wview in Hv. cbn [fst snd] in Hv. rewrite Hv, E.
    now destruct (tl_call env parse_unit _ _).
Qed.
Lemma step_ir w k c o : world_wf w -> nth_error (w_objs w) k = Some (OIR o) ->
  qarg_ok env (w_heap w) (qarg_ir env c) = true ->
  exists h' o' r, w_step env parse_unit (WIR k c) w = (mkWorld h' (upd (w_objs w) k (OIR o')), r) /\
    call_ok w k (OIR o) h' (OIR o') /\
    (view env (ir_class env) h' o', r) =
      ir_call env parse_unit (ir_by_value env (w_heap w) c) (view env (ir_class env) (w_heap w) o).
Proof.
  intros Ww Ek Hq. pose proof (ww_obj _ Ww k _ Ek) as Ho. apply (proj2 (wf_core _ o)) in Ho.
  destruct (ir_call_rel _ o c (ww_heap _ Ww) Ho Hq) as [R E].
  cbn [w_step]. rewrite Ek, Hq.
  destruct (h_ir_call env parse_unit c (w_heap w, o)) as [[h' o'] r]. cbn [fst snd] in *.
  exists h', o', r. split; [reflexivity|]. split.
  - apply (rel_call_ok_ir w k o (h', o') _ R).
  - pose proof (rl_view _ _ _ _ _ _ _ R) as Hv. unfold wview in Hv. cbn [fst snd] in Hv. rewrite Hv, E.
    now destruct (ir_call env parse_unit _ _).
Qed.

(** *** Heap growth that no object notices *)
Lemma ext_wf w h' : world_wf w -> heap_wf env h' -> ext env [] (w_heap w) h' ->
  world_wf (mkWorld h' (w_objs w)) /\
  forall k x, nth_error (w_objs w) k = Some x -> state_of env h' x = state_of env (w_heap w) x.
Proof.
  intros Ww Hh He. split.
  - split; cbn [w_heap w_objs]; auto.
    + intros k x Ek. eapply obj_wf_ext; [exact He|]. eapply (ww_obj _ Ww); eauto.
    + apply (ww_disj _ Ww).
  - intros k x Ek. pose proof (ww_obj _ Ww k x Ek) as Ox. destruct He as [L P A Q].
    apply state_same; auto.
    + apply (ww_heap _ Ww).
    + intros a Pa. apply A; [now apply hpublic_lt|auto].
    + intros a Ha. apply A; [now apply (ow_mag _ _ _ Ox)|auto].
    + intros a Ha. apply A; [eapply own_lt; eauto|auto].
Qed.

(** A new object with private arrays at the end of the heap. *)
Definition grow3 (h : Heap) : Heap :=
  halloc env (halloc env (halloc env h false [nnan env]) false [nnan env]) false [nnan env].

Lemma new_wf w x : world_wf w -> 
  core x = mkHObj tt None None (hlen (w_heap w)) (hlen (w_heap w) + 1) (hlen (w_heap w) + 2) ->
  world_wf (mkWorld (grow3 (w_heap w)) (w_objs w ++ [x])).
Proof.
  intros Ww Ex. set (h := w_heap w) in *.
  assert (H1 : heap_wf env (grow3 h)) by (unfold grow3; repeat apply heap_wf_halloc; apply (ww_heap _ Ww)).
  assert (E1 : ext env [] h (grow3 h)) by (unfold grow3; repeat apply ext_halloc; apply ext_refl).
  destruct (ext_wf w (grow3 h) Ww H1 E1) as [W1 _].
  assert (L1 : hlen (halloc env h false [nnan env]) = Datatypes.S (hlen h)) by apply hlen_halloc.
  assert (L3 : hlen (grow3 h) = hlen h + 3) by (unfold grow3; rewrite !hlen_halloc; lia).
  assert (Ox : obj_wf env (grow3 h) (core x)).
  { rewrite Ex. split; cbn [o_r1 o_r2 o_r3 o_erf o_erf_mag]; rewrite ?L3; try lia; try discriminate.
    - unfold grow3. rewrite !hpublic_halloc, !hlen_halloc.
      repeat match goal with |- context [Nat.eqb ?a ?b] => destruct (Nat.eqb_spec a b); try lia end; reflexivity.
    - unfold grow3. rewrite !hpublic_halloc, !hlen_halloc.
      repeat match goal with |- context [Nat.eqb ?a ?b] => destruct (Nat.eqb_spec a b); try lia end; reflexivity.
    - unfold grow3. rewrite !hpublic_halloc, !hlen_halloc.
      repeat match goal with |- context [Nat.eqb ?a ?b] => destruct (Nat.eqb_spec a b); try lia end; reflexivity. }
  assert (Get : forall j z, nth_error (w_objs w ++ [x]) j = Some z ->
            (j = List.length (w_objs w) /\ z = x) \/ (j < List.length (w_objs w) /\ nth_error (w_objs w) j = Some z)).
  { intros j z Hz. destruct (Nat.lt_ge_cases j (List.length (w_objs w))) as [L|L].
    - rewrite nth_error_app1 in Hz by exact L. auto.
    - rewrite nth_error_app2 in Hz by exact L. destruct (j - List.length (w_objs w)) as [|n] eqn:E; cbn in Hz.
      + left. split; [lia|congruence].
      + destruct n; discriminate. }
  split; cbn [w_heap w_objs].
  - exact H1.
  - intros k z Hz. destruct (Get k z Hz) as [[-> ->]|[L E]]; [exact Ox|]. eapply (ww_obj _ W1); eauto.
  - intros i j y z N Hy Hz a Ia.
    destruct (Get i y Hy) as [[-> ->]|[Li Ei]], (Get j z Hz) as [[-> ->]|[Lj Ej]]; try lia.
    + pose proof (ww_obj _ Ww j z Ej) as Oz.
      assert (hlen h <= a) by (rewrite Ex in Ia; cbn in Ia; lia).
      split; intros I.
      * pose proof (own_lt _ _ _ Oz I). fold h in H0. lia.
      * destruct (ow_mag _ _ _ Oz a I) as [Z _]. fold h in Z. lia.
    + pose proof (ww_obj _ Ww i y Ei) as Oy. pose proof (own_lt _ _ _ Oy Ia) as La. fold h in La.
      rewrite Ex. split; [|discriminate]. cbn. lia.
    + eapply (ww_disj _ Ww i j); eauto.
Qed.

Lemma h_new_eq C init h : h_new env C init h =
  match init with
  | Err e => (h, Err e)
  | Ok s => (grow3 h, Ok (mkHObj s None None (hlen h) (hlen h + 1) (hlen h + 2)))
  end.
Proof. reflexivity. Qed.

Lemma ext_newq h a u : ext env [] h (hnewq env h a u).
Proof.
  split; auto. intros q k Hq. unfold hnewq. cbn [h_qtys]. rewrite nth_error_app1; [exact Hq|].
  apply nth_error_Some. now rewrite Hq.
Qed.
Lemma heap_wf_newq h a u : heap_wf env h -> hpublic env h a = true -> heap_wf env (hnewq env h a u).
Proof.
  intros Hh Pa q k H. unfold hnewq in H. cbn [h_qtys] in H. change (hpublic env h (q_arr k) = true).
  destruct (Nat.lt_ge_cases q (List.length (h_qtys h))) as [L|L].
  - rewrite nth_error_app1 in H by exact L. eapply Hh; eauto.
  - rewrite nth_error_app2 in H by exact L.
    destruct (q - List.length (h_qtys h)) as [|n]; cbn in H; [injection H as <-; exact Pa|now destruct n].
Qed.

(** Same sizes and flags, every quantity still at the same array. *)
Lemma same_shape_wf w h' : world_wf w ->
  hlen h' = hlen (w_heap w) -> (forall a, hpublic env h' a = hpublic env (w_heap w) a) ->
  qlen h' = qlen (w_heap w) ->
  (forall q k, nth_error (h_qtys h') q = Some k ->
     exists k0, nth_error (h_qtys (w_heap w)) q = Some k0 /\ q_arr k = q_arr k0) ->
  world_wf (mkWorld h' (w_objs w)).
Proof.
  intros Ww L P Q A. split; cbn [w_heap w_objs].
  - intros q k Hq. destruct (A q k Hq) as (k0 & E & ->). rewrite P. eapply (ww_heap _ Ww); eauto.
  - intros k x Ek. destruct (ww_obj _ Ww k x Ek) as [A1 A2 A3 A4 A5 A6 A7 A8 A9 A10 A11].
    split; rewrite ?L, ?P, ?Q; auto.
  - apply (ww_disj _ Ww).
Qed.

Lemma ito_shape h q u : heap_wf env h ->
  hlen (fst (h_ito env h q u)) = hlen h /\
  (forall a, hpublic env (fst (h_ito env h q u)) a = hpublic env h a) /\
  qlen (fst (h_ito env h q u)) = qlen h /\
  (forall p k, nth_error (h_qtys (fst (h_ito env h q u))) p = Some k ->
     exists k0, nth_error (h_qtys h) p = Some k0 /\ q_arr k = q_arr k0).
Proof.
  intros Hh. unfold h_ito. destruct (nth_error (h_qtys h) q) as [k|] eqn:E; cbn [fst]; [|eauto 6].
  destruct (to_mags env (hqty env h q) u) as [l|x]; cbn [fst]; [|eauto 6].
  assert (Y : forall (h1 : Heap), h_qtys h1 = h_qtys h -> hlen h1 = hlen h -> (forall a, hpublic env h1 a = hpublic env h a) ->
    let h2 := mkHeap (h_arrs h1) (upd (h_qtys h1) q {| q_arr := q_arr k; q_units := u |}) in
    hlen h2 = hlen h /\ (forall a, hpublic env h2 a = hpublic env h a) /\ qlen h2 = qlen h /\
    (forall p k', nth_error (h_qtys h2) p = Some k' ->
       exists k0, nth_error (h_qtys h) p = Some k0 /\ q_arr k' = q_arr k0)).
  { intros h1 Eq El Ep h2. split; [exact El|]. split; [exact Ep|]. split.
    - unfold qlen, h2. cbn [h_qtys]. rewrite upd_length, Eq. reflexivity.
    - intros p k' Hp. unfold h2 in Hp. cbn [h_qtys] in Hp. rewrite nth_error_upd, Eq in Hp.
      destruct (Nat.eqb_spec q p) as [->|N].
      + destruct (Nat.ltb p _); [|discriminate]. injection Hp as <-. eauto.
      + eauto. }
  destruct (units_eqb (q_units k) u).
  - apply Y; auto.
  - apply Y; auto.
    + apply hlen_hstore.
    + intros a. apply hpublic_hstore.
Qed.

(** *** Every operation preserves the invariant *)
Lemma step_wf op w : world_wf w -> world_wf (fst (w_step env parse_unit op w)).
Proof.
  intros Ww. destruct op as [l|a u|a i v|q u|g|g|k c|k c].
  - cbn [w_step fst]. apply (ext_wf w); [exact Ww|apply heap_wf_halloc, (ww_heap _ Ww)|apply ext_halloc, ext_refl].
  - cbn [w_step]. destruct (hpublic env (w_heap w) a) eqn:E; cbn [fst]; [|exact Ww].
    apply (ext_wf w); [exact Ww|apply heap_wf_newq; [apply (ww_heap _ Ww)|exact E]|apply ext_newq].
  - cbn [w_step]. destruct (hpublic env (w_heap w) a) eqn:E; cbn [fst]; [|exact Ww].
    destruct (lset (harr env (w_heap w) a) i v) as [l|x]; cbn [fst]; [|exact Ww].
    apply same_shape_wf; auto.
    + apply hlen_hstore.
    + intros b. apply hpublic_hstore.
    + intros q k Hq. exists k. auto.
  - cbn [w_step]. destruct (ito_shape (w_heap w) q u (ww_heap _ Ww)) as (A & B & C & D).
    destruct (h_ito env (w_heap w) q u) as [h' r]. cbn [fst] in *. now apply same_shape_wf.
  - cbn [w_step]. rewrite h_new_eq. destruct (tl_new env g) as [s|x]; cbn [fst].
    + apply new_wf; [exact Ww|reflexivity].
    + now destruct w.
  - cbn [w_step]. rewrite h_new_eq. destruct (ir_new env g) as [s|x]; cbn [fst].
    + apply new_wf; [exact Ww|reflexivity].
    + now destruct w.
  - destruct (nth_error (w_objs w) k) as [[o|o]|] eqn:E.
    + destruct (qarg_ok env (w_heap w) (qarg_tl env c)) eqn:Eq.
      * destruct (step_tl w k c o Ww E Eq) as (h' & o' & r & -> & Hc & _). cbn [fst].
        eapply call_wf; eauto.
      * cbn [w_step]. now rewrite E, Eq.
    + cbn [w_step]. now rewrite E.
    + cbn [w_step]. now rewrite E.
  - destruct (nth_error (w_objs w) k) as [[o|o]|] eqn:E.
    + cbn [w_step]. now rewrite E.
    + destruct (qarg_ok env (w_heap w) (qarg_ir env c)) eqn:Eq.
      * destruct (step_ir w k c o Ww E Eq) as (h' & o' & r & -> & Hc & _). cbn [fst].
        eapply call_wf; eauto.
      * cbn [w_step]. now rewrite E, Eq.
    + cbn [w_step]. now rewrite E.
Qed.

Lemma empty_wf : world_wf (w_empty env).
Proof.
  split; cbn.
  - intros q k H. destruct q; discriminate.
  - intros k x H. destruct k; discriminate.
  - intros j k x y _ H. destruct j; discriminate.
Qed.
Lemma steps_wf ops : forall w, world_wf w -> world_wf (w_steps env parse_unit ops w).
Proof.
  induction ops as [|op ops IH]; intros w H; [exact H|]. cbn. apply IH, step_wf, H.
Qed.
Lemma reachable_wf w : w_reachable env parse_unit w -> world_wf w.
Proof. intros [ops ->]. apply steps_wf, empty_wf. Qed.

(** *** Package calls do not touch the caller's data, nor other models *)
Lemma package_frame op w : world_wf w -> package_call env op ->
  let w' := fst (w_step env parse_unit op w) in
  (forall a, hpublic env (w_heap w) a = true ->
     harr env (w_heap w') a = harr env (w_heap w) a /\ hpublic env (w_heap w') a = true) /\
  (forall q k, nth_error (h_qtys (w_heap w)) q = Some k -> nth_error (h_qtys (w_heap w')) q = Some k) /\
  (forall j, call_on env op <> Some j -> j < List.length (w_objs w) ->
     model_state env w' j = model_state env w j).
Proof.
  intros Ww Hop.
  assert (Grow : forall x : Obj env,
    (forall a, hpublic env (w_heap w) a = true ->
      harr env (grow3 (w_heap w)) a = harr env (w_heap w) a /\ hpublic env (grow3 (w_heap w)) a = true) /\
    (forall q k, nth_error (h_qtys (w_heap w)) q = Some k -> nth_error (h_qtys (grow3 (w_heap w))) q = Some k) /\
    (forall j, j < List.length (w_objs w) ->
       model_state env (mkWorld (grow3 (w_heap w)) (w_objs w ++ [x])) j = model_state env w j)).
  { intros x.
    assert (H1 : heap_wf env (grow3 (w_heap w))) by (unfold grow3; repeat apply heap_wf_halloc; apply (ww_heap _ Ww)).
    assert (E1 : ext env [] (w_heap w) (grow3 (w_heap w))) by (unfold grow3; repeat apply ext_halloc; apply ext_refl).
    destruct (ext_wf w (grow3 (w_heap w)) Ww H1 E1) as [_ Hv]. destruct E1 as [L P A Q].
    split; [|split].
    - intros a Pa. pose proof (hpublic_lt _ _ _ Pa). split; [apply A; auto|now rewrite P].
    - exact Q.
    - intros j Lj. unfold model_state. cbn [w_heap w_objs]. rewrite nth_error_app1 by exact Lj.
      destruct (nth_error (w_objs w) j) as [y|] eqn:E; [|reflexivity]. cbn. f_equal. eauto. }
  assert (Triv : forall o, (forall a, hpublic env (w_heap w) a = true ->
      harr env (w_heap w) a = harr env (w_heap w) a /\ hpublic env (w_heap w) a = true) /\
    (forall q k, nth_error (h_qtys (w_heap w)) q = Some k -> nth_error (h_qtys (w_heap w)) q = Some k) /\
    (forall j, call_on env o <> Some j -> j < List.length (w_objs w) ->
       model_state env w j = model_state env w j)) by auto.
  assert (Call : forall k x h' x', nth_error (w_objs w) k = Some x -> call_ok w k x h' x' ->
    (forall a, hpublic env (w_heap w) a = true ->
      harr env h' a = harr env (w_heap w) a /\ hpublic env h' a = true) /\
    (forall q k, nth_error (h_qtys (w_heap w)) q = Some k -> nth_error (h_qtys h') q = Some k) /\
    (forall j, Some k <> Some j -> j < List.length (w_objs w) ->
       model_state env (mkWorld h' (upd (w_objs w) k x')) j = model_state env w j)).
  { intros k x h' x' Ek Hc. split; [|split].
    - exact (call_public w k x h' x' Ww Ek Hc).
    - exact (ex_qty _ _ _ _ (ca_ext _ _ _ _ _ Hc)).
    - intros j Nj Lj. unfold model_state. cbn [w_heap w_objs]. rewrite nth_error_upd.
      destruct (Nat.eqb_spec k j) as [->|N]; [congruence|].
      destruct (nth_error (w_objs w) j) as [y|] eqn:E; [|reflexivity]. cbn. f_equal.
      exact (call_other w k x h' x' j y Ww Ek Hc (not_eq_sym N) E). }
  destruct op as [l|a u|a i v|q u|g|g|k c|k c]; try contradiction; cbn [call_on].
  - cbn [w_step]. rewrite h_new_eq. destruct (tl_new env g) as [s|x]; cbn [fst].
    + destruct (Grow (OTL (mkHObj s None None (hlen (w_heap w)) (hlen (w_heap w) + 1) (hlen (w_heap w) + 2)))) as (A & B & C).
      cbn [w_heap]. auto.
    + destruct w. cbn. auto.
  - cbn [w_step]. rewrite h_new_eq. destruct (ir_new env g) as [s|x]; cbn [fst].
    + destruct (Grow (OIR (mkHObj s None None (hlen (w_heap w)) (hlen (w_heap w) + 1) (hlen (w_heap w) + 2)))) as (A & B & C).
      cbn [w_heap]. auto.
    + destruct w. cbn. auto.
  - destruct (nth_error (w_objs w) k) as [[o|o]|] eqn:E.
    + destruct (qarg_ok env (w_heap w) (qarg_tl env c)) eqn:Eq.
      * destruct (step_tl w k c o Ww E Eq) as (h' & o' & r & -> & Hc & _). cbn [fst w_heap].
        eapply Call; eauto.
      * cbn [w_step]. rewrite E, Eq. apply (Triv (WTL k c)).
    + cbn [w_step]. rewrite E. apply (Triv (WTL k c)).
    + cbn [w_step]. rewrite E. apply (Triv (WTL k c)).
  - destruct (nth_error (w_objs w) k) as [[o|o]|] eqn:E.
    + cbn [w_step]. rewrite E. apply (Triv (WIR k c)).
    + destruct (qarg_ok env (w_heap w) (qarg_ir env c)) eqn:Eq.
      * destruct (step_ir w k c o Ww E Eq) as (h' & o' & r & -> & Hc & _). cbn [fst w_heap].
        eapply Call; eauto.
      * cbn [w_step]. rewrite E, Eq. apply (Triv (WIR k c)).
    + cbn [w_step]. rewrite E. apply (Triv (WIR k c)).
Qed.

(** *** Caller operations on arrays no model refers to *)
Lemma view_same' C h h' (o : HObj (m_state env C)) :
  (forall q, o_erf o = Some q -> hqty env h' q = hqty env h q) ->
  (forall a, o_erf_mag o = Some a -> harr env h' a = harr env h a) ->
  (forall a, In a (own (core_of o)) -> harr env h' a = harr env h a) ->
  view env C h' o = view env C h o.
Proof.
  intros Hq Hm Hr. unfold view. rewrite !Hr by (cbn; auto). f_equal.
  - destruct (o_erf o); [cbn; f_equal; auto|reflexivity].
  - destruct (o_erf_mag o); [cbn; f_equal; auto|reflexivity].
Qed.

Definition obj_drives (h : Heap) (x : Obj env) (a : nat) : Prop :=
  match x with OTL o => drives env h o a | OIR o => drives env h o a end.
Lemma in_use_iff w a : in_use env w a <-> exists k x, nth_error (w_objs w) k = Some x /\ obj_drives (w_heap w) x a.
Proof.
  split.
  - intros [(k & o & E & D)|(k & o & E & D)]; [exists k, (OTL o)|exists k, (OIR o)]; auto.
  - intros (k & [o|o] & E & D); [left|right]; exists k, o; auto.
Qed.

(** Overwriting public array [a], and changing the units of the quantity [p]
    (if any) that points to it, where [x] does not refer to [a]. *)
Lemma state_touch h h' x a : heap_wf env h -> obj_wf env h (core x) -> hpublic env h a = true ->
  ~ obj_drives h x a ->
  (forall b, b <> a -> harr env h' b = harr env h b) ->
  (forall q k, nth_error (h_qtys h) q = Some k -> q_arr k <> a -> nth_error (h_qtys h') q = Some k) ->
  state_of env h' x = state_of env h x.
Proof.
  intros Hw Ho Pa Nd Hb Hq.
  assert (G : forall S (o : HObj S), obj_wf env h (core_of o) -> ~ drives env h o a ->
    (forall q, o_erf o = Some q -> hqty env h' q = hqty env h q) /\
    (forall b, o_erf_mag o = Some b -> harr env h' b = harr env h b) /\
    (forall b, In b (own (core_of o)) -> harr env h' b = harr env h b)).
  { intros S o Oo Nd'. split; [|split].
    - intros q Eq. apply hqty_same; [|exact (ow_erf _ _ _ Oo q Eq)].
      intros k Ek. assert (q_arr k <> a).
      { intros Z. apply Nd'. right. exists q, k. auto. }
      split; [apply Hq; auto|apply Hb; auto].
    - intros b Eb. apply Hb. intros ->. apply Nd'. left. exact Eb.
    - intros b Ib. apply Hb. intros ->. pose proof (own_priv _ _ _ Oo Ib). congruence. }
  destruct x as [o|o]; cbn [state_of]; f_equal; destruct (G _ o Ho Nd) as (A & B & D); now apply view_same'.
Qed.

Lemma caller_quiet op w : world_wf w -> quiet_op env w op -> ~ package_call env op ->
  w_objs (fst (w_step env parse_unit op w)) = w_objs w /\
  forall k x, nth_error (w_objs w) k = Some x ->
    state_of env (w_heap (fst (w_step env parse_unit op w))) x = state_of env (w_heap w) x.
Proof.
  intros Ww Hq Np. destruct op as [l|a u|a i v|q u|g|g|k c|k c]; try (exfalso; apply Np; exact I).
  - cbn [w_step fst]. split; [reflexivity|]. cbn [w_heap].
    apply (ext_wf w); [exact Ww|apply heap_wf_halloc, (ww_heap _ Ww)|apply ext_halloc, ext_refl].
  - cbn [w_step]. destruct (hpublic env (w_heap w) a) eqn:E; cbn [fst]; [|auto].
    split; [reflexivity|]. cbn [w_heap].
    apply (ext_wf w); [exact Ww|apply heap_wf_newq; [apply (ww_heap _ Ww)|exact E]|apply ext_newq].
  - cbn [w_step]. destruct (hpublic env (w_heap w) a) eqn:E; cbn [fst]; [|auto].
    destruct (lset (harr env (w_heap w) a) i v) as [l|x]; cbn [fst]; [|auto].
    split; [reflexivity|]. cbn [w_heap]. intros k x Ek.
    apply (state_touch _ _ _ a); auto.
    + apply (ww_heap _ Ww).
    + apply (ww_obj _ Ww k x Ek).
    + intros D. apply Hq. apply in_use_iff. eauto.
    + intros b Nb. rewrite harr_hstore by now apply hpublic_lt.
      destruct (Nat.eqb_spec b a); [contradiction|reflexivity].
  - cbn [w_step]. unfold h_ito. cbn [quiet_op] in Hq.
    destruct (nth_error (h_qtys (w_heap w)) q) as [k|] eqn:Ek; [|destruct w; cbn; auto].
    specialize (Hq k eq_refl).
    destruct (to_mags env (hqty env (w_heap w) q) u) as [l|x]; [|destruct w; cbn; auto].
    cbn [fst w_objs w_heap]. split; [reflexivity|]. intros j x Ej.
    pose proof (ww_heap _ Ww q k Ek) as Pa.
    apply (state_touch _ _ _ (q_arr k)); auto.
    + apply (ww_heap _ Ww).
    + apply (ww_obj _ Ww j x Ej).
    + intros D. apply Hq. apply in_use_iff. eauto.
    + intros b Nb. destruct (units_eqb (q_units k) u).
      * reflexivity.
      * change (harr env (hstore env (w_heap w) (q_arr k) l) b = harr env (w_heap w) b).
        rewrite harr_hstore by now apply hpublic_lt.
        destruct (Nat.eqb_spec b (q_arr k)); [contradiction|reflexivity].
    + intros p k' Ep Na. cbn [h_qtys].
      assert (Eq : h_qtys (if units_eqb (q_units k) u then w_heap w else hstore env (w_heap w) (q_arr k) l) = h_qtys (w_heap w))
        by now destruct (units_eqb (q_units k) u).
      rewrite nth_error_upd, Eq. destruct (Nat.eqb_spec q p) as [->|N]; [|exact Ep].
      rewrite Ek in Ep. congruence.
Qed.

(** *** Constructors *)
Definition bare C (s : m_state env C) : Prop :=
  m_fill env C s None None [nnan env] [nnan env] [nnan env] = s.
Lemma bare_scalar C {A} (p : Meth (m_state env C) A) s : scalar env C p -> bare C s -> bare C (fst (p s)).
Proof.
  intros Hp Hs. unfold bare in *. pose proof (Hp s None None [nnan env] [nnan env] [nnan env]) as E.
  rewrite Hs in E. rewrite E at 2. reflexivity.
Qed.
Lemma bare_seq C {A B} (p : Meth (m_state env C) A) (f : A -> Meth (m_state env C) B) s :
  bare C (fst (p s)) -> (forall a s, bare C s -> bare C (fst (f a s))) -> bare C (fst (mbind p f s)).
Proof. intros Hp Hf. unfold mbind. destruct (p s) as [s' [a|e]]; cbn in *; auto. Qed.

Lemma tl_bare (s : TL env) : tl_erf env s = None -> tl_erf_mag env s = None ->
  tl_temp_upper env s = [nnan env] -> tl_temp_lower env s = [nnan env] -> tl_rndt env s = [nnan env] ->
  bare (tl_class env) s.
Proof. destruct s. cbn. intros. subst. reflexivity. Qed.
Lemma ir_bare (s : IR env) : ir_erf env s = None -> ir_erf_mag env s = None ->
  ir_temp1 env s = [nnan env] -> ir_temp2 env s = [nnan env] -> ir_rndt env s = [nnan env] ->
  bare (ir_class env) s.
Proof. destruct s. cbn. intros. subst. reflexivity. Qed.
Lemma tl_new_bare g s : tl_new env g = Ok s -> bare (tl_class env) s.
Proof.
  unfold tl_new. intros H.
  assert (B : bare (tl_class env) (fst (tl_init_body env g (tl_blank env)))).
  { assert (B0 : bare (tl_class env) (tl_blank env)) by reflexivity. revert B0. generalize (tl_blank env).
    unfold tl_init_body. intros s0 B0.
    apply bare_seq; [apply bare_scalar; [apply tl_sc_du|exact B0]|intros _ s1 B1].
    apply bare_seq; [apply bare_scalar; [apply tl_sc_dl|exact B1]|intros _ s2 B2].
    apply bare_seq; [apply bare_scalar; [apply tl_sc_l0|exact B2]|intros _ s3 B3].
    apply bare_seq; [apply bare_scalar; [apply tl_sc_a|exact B3]|intros _ s4 B4].
    apply bare_seq; [apply bare_scalar; [apply tl_sc_ef|exact B4]|intros _ s5 B5].
    apply bare_seq; [apply bare_scalar; [apply tl_sc_et|exact B5]|intros _ s6 B6].
    apply bare_seq; [apply bare_scalar; [apply tl_sc_dt|exact B6]|intros _ s7 B7].
    apply tl_bare; try reflexivity. change (tl_erf_mag env s7 = None). rewrite <- B7. reflexivity. }
  destruct (tl_init_body env g (tl_blank env)) as [s' [[]|x]]; [|discriminate]. injection H as <-. exact B.
Qed.
Lemma ir_new_bare g s : ir_new env g = Ok s -> bare (ir_class env) s.
Proof.
  unfold ir_new. intros H.
  assert (B : bare (ir_class env) (fst (ir_init_body env g (ir_blank env)))).
  { assert (B0 : bare (ir_class env) (ir_blank env)) by reflexivity. revert B0. generalize (ir_blank env).
    unfold ir_init_body. intros s0 B0.
    apply bare_seq; [apply bare_scalar; [apply ir_sc_q1|exact B0]|intros _ s1 B1].
    apply bare_seq; [apply bare_scalar; [apply ir_sc_q2|exact B1]|intros _ s2 B2].
    apply bare_seq; [apply bare_scalar; [apply ir_sc_d1|exact B2]|intros _ s3 B3].
    apply bare_seq; [apply bare_scalar; [apply ir_sc_d2|exact B3]|intros _ s4 B4].
    apply bare_seq; [apply bare_scalar; [apply ir_sc_ef|exact B4]|intros _ s5 B5].
    apply bare_seq; [apply bare_scalar; [apply ir_sc_dt|exact B5]|intros _ s6 B6].
    apply bare_seq; [exact B6|]. intros [|] s7 B7; [exact B7|].
    apply ir_bare; try reflexivity. change (ir_erf_mag env s7 = None). rewrite <- B7. reflexivity. }
  destruct (ir_init_body env g (ir_blank env)) as [s' [[]|x]]; [|discriminate]. injection H as <-. exact B.
Qed.

Lemma grow3_get h : harr env (grow3 h) (hlen h) = [nnan env] /\ harr env (grow3 h) (hlen h + 1) = [nnan env] /\
  harr env (grow3 h) (hlen h + 2) = [nnan env].
Proof.
  unfold grow3. rewrite !harr_halloc, !hlen_halloc.
  repeat split; repeat match goal with |- context [Nat.eqb ?a ?b] => destruct (Nat.eqb_spec a b); try lia end; reflexivity.
Qed.
Lemma new_view C h s : bare C s -> view env C (grow3 h) (mkHObj s None None (hlen h) (hlen h + 1) (hlen h + 2)) = s.
Proof.
  intros B. unfold view. cbn [o_r1 o_r2 o_r3 o_erf o_erf_mag o_s option_map].
  destruct (grow3_get h) as (-> & -> & ->). exact B.
Qed.

(** *** Quiet histories *)
Definition state_reachable (s : ObjState env) : Prop :=
  match s with
  | STL s => tl_reachable env parse_unit s
  | SIR s => ir_reachable env parse_unit s
  end.
Lemma tl_reach_call s o : tl_reachable env parse_unit s -> tl_reachable env parse_unit (fst (tl_call env parse_unit o s)).
Proof.
  intros (g & s0 & ops & E & ->). exists g, s0, (ops ++ [o]). split; [exact E|].
  unfold tl_calls. now rewrite fold_left_app.
Qed.
Lemma ir_reach_call s o : ir_reachable env parse_unit s -> ir_reachable env parse_unit (fst (ir_call env parse_unit o s)).
Proof.
  intros (g & s0 & ops & E & ->). exists g, s0, (ops ++ [o]). split; [exact E|].
  unfold ir_calls. now rewrite fold_left_app.
Qed.

Definition all_reach (w : World) : Prop :=
  forall k x, nth_error (w_objs w) k = Some x -> state_reachable (state_of env (w_heap w) x).

Lemma package_dec (op : WOp env) : {package_call env op} + {~ package_call env op}.
Proof. destruct op; cbn; auto. Qed.

Lemma call_reach w k x h' x' : world_wf w -> nth_error (w_objs w) k = Some x -> call_ok w k x h' x' ->
  all_reach w -> state_reachable (state_of env h' x') -> all_reach (mkWorld h' (upd (w_objs w) k x')).
Proof.
  intros Ww Ek Hc Hr Hx j y. cbn [w_objs w_heap]. rewrite nth_error_upd.
  destruct (Nat.eqb_spec k j) as [->|N].
  - destruct (Nat.ltb _ _); [|discriminate]. intros E. injection E as <-. exact Hx.
  - intros Ej. rewrite (call_other w k x h' x' j y Ww Ek Hc (not_eq_sym N) Ej). eapply Hr; eauto.
Qed.

Lemma new_reach w x : world_wf w -> all_reach w ->
  state_reachable (state_of env (grow3 (w_heap w)) x) ->
  all_reach (mkWorld (grow3 (w_heap w)) (w_objs w ++ [x])).
Proof.
  intros Ww Hr Hx j y. cbn [w_objs w_heap]. intros Ej.
  assert (H1 : heap_wf env (grow3 (w_heap w))) by (unfold grow3; repeat apply heap_wf_halloc; apply (ww_heap _ Ww)).
  assert (E1 : ext env [] (w_heap w) (grow3 (w_heap w))) by (unfold grow3; repeat apply ext_halloc; apply ext_refl).
  destruct (ext_wf w (grow3 (w_heap w)) Ww H1 E1) as [_ Hv].
  destruct (Nat.lt_ge_cases j (List.length (w_objs w))) as [L|L].
  - rewrite nth_error_app1 in Ej by exact L. rewrite (Hv j y Ej). eapply Hr; eauto.
  - rewrite nth_error_app2 in Ej by exact L. destruct (j - List.length (w_objs w)) as [|n]; cbn in Ej.
    + injection Ej as <-. exact Hx.
    + destruct n; discriminate.
Qed.

Lemma step_reach op w : world_wf w -> quiet_op env w op -> all_reach w ->
  all_reach (fst (w_step env parse_unit op w)).
Proof.
  intros Ww Hq Hr. destruct (package_dec op) as [P|P].
  2:{ destruct (caller_quiet op w Ww Hq P) as [Eo Es]. intros k x Ek. rewrite Eo in Ek.
      rewrite (Es k x Ek). eapply Hr; eauto. }
  destruct op as [l|a u|a i v|q u|g|g|k c|k c]; try contradiction.
  - cbn [w_step]. rewrite h_new_eq. destruct (tl_new env g) as [s|x] eqn:E; cbn [fst].
    + apply new_reach; auto. cbn [state_of]. rewrite new_view by (eapply tl_new_bare; eauto).
      exists g, s, []. auto.
    + destruct w. exact Hr.
  - cbn [w_step]. rewrite h_new_eq. destruct (ir_new env g) as [s|x] eqn:E; cbn [fst].
    + apply new_reach; auto. cbn [state_of]. rewrite new_view by (eapply ir_new_bare; eauto).
      exists g, s, []. auto.
    + destruct w. exact Hr.
  - destruct (nth_error (w_objs w) k) as [[o|o]|] eqn:E.
    + destruct (qarg_ok env (w_heap w) (qarg_tl env c)) eqn:Eq.
      * destruct (step_tl w k c o Ww E Eq) as (h' & o' & r & -> & Hc & Hv). cbn [fst].
        apply (call_reach w k _ h' _ Ww E Hc Hr). cbn [state_of state_reachable].
        pose proof (f_equal fst Hv) as Hv'. cbn [fst] in Hv'. rewrite Hv'. apply tl_reach_call.
        exact (Hr k _ E).
      * cbn [w_step]. now rewrite E, Eq.
    + cbn [w_step]. now rewrite E.
    + cbn [w_step]. now rewrite E.
  - destruct (nth_error (w_objs w) k) as [[o|o]|] eqn:E.
    + cbn [w_step]. now rewrite E.
    + destruct (qarg_ok env (w_heap w) (qarg_ir env c)) eqn:Eq.
      * destruct (step_ir w k c o Ww E Eq) as (h' & o' & r & -> & Hc & Hv). cbn [fst].
        apply (call_reach w k _ h' _ Ww E Hc Hr). cbn [state_of state_reachable].
        pose proof (f_equal fst Hv) as Hv'. cbn [fst] in Hv'. rewrite Hv'. apply ir_reach_call.
        exact (Hr k _ E).
      * cbn [w_step]. now rewrite E, Eq.
    + cbn [w_step]. now rewrite E.
Qed.

Lemma quiet_reach ops : forall w, world_wf w -> all_reach w -> quiet env parse_unit ops w ->
  all_reach (w_steps env parse_unit ops w).
Proof.
  induction ops as [|op ops IH]; intros w Ww Hr Hq; [exact Hr|]. destruct Hq as [Q1 Q2].
  cbn. apply IH; [now apply step_wf|now apply step_reach|exact Q2].
Qed.

End GenWorld.
