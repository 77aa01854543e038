(** The files after an installation, complete or interrupted (C65). *)
From Coq Require Import List String Ascii Bool Arith Lia.
From Verif Require Import Arith Version VersionStr Package PackageProof Install SpecInstall InstallProof.
Import ListNotations.
Local Open Scope list_scope.

Lemma put_same : forall fs p t, put fs p t p = Some t.
Proof. intros. unfold put. now rewrite str_eqb_refl. Qed.
Lemma put_other : forall fs p t q, q <> p -> put fs p t q = fs q.
Proof.
  intros. unfold put. destruct (str_eqb q p) eqn:E; [|reflexivity]. apply str_eqb_eq in E. contradiction.
Qed.
Lemma str_dec : forall a b : str, {a = b} + {a <> b}.
Proof. apply list_eq_dec. apply Ascii.ascii_dec. Qed.

(** Opening for appending, and appending. *)
Lemma append_file : forall fs p t q, effects fs [Touch p; Append p t] q = if str_dec q p then Some (content fs p ++ t) else fs q.
Proof.
  intros. unfold effects. cbn [fold_left effect]. destruct (str_dec q p) as [->|N].
  - rewrite put_same. unfold content. now rewrite put_same.
  - now rewrite !put_other.
Qed.
Lemma append_content : forall fs p t, content (effects fs [Touch p; Append p t]) p = content fs p ++ t.
Proof. intros. unfold content at 1. rewrite append_file. destruct (str_dec p p); [reflexivity|congruence]. Qed.
Lemma touch_content : forall fs p q, content (effects fs [Touch p]) q = content fs q.
Proof.
  intros. unfold effects. cbn [fold_left effect]. unfold content. destruct (str_dec q p) as [->|N].
  - now rewrite put_same.
  - now rewrite put_other.
Qed.
Lemma write_file : forall fs p t q, effects fs [Truncate p; Append p t] q = if str_dec q p then Some t else fs q.
Proof.
  intros. unfold effects. cbn [fold_left effect]. destruct (str_dec q p) as [->|N].
  - rewrite put_same. unfold content. now rewrite put_same.
  - now rewrite !put_other.
Qed.
Lemma effects_app : forall fs a b, effects fs (a ++ b) = effects (effects fs a) b.
Proof. intros. unfold effects. apply fold_left_app. Qed.

(** The name of [__init__.py]. *)
Lemma path_join_end : forall a b, exists x, path_join a b = x ++ b.
Proof.
  intros [|c a] b; unfold path_join.
  - now exists [].
  - destruct (endswith _ _); [now exists (c :: a)|]. exists ((c :: a) ++ s_ "/"). now rewrite <- app_assoc.
Qed.
Lemma init_py_end : forall vs, exists x, init_py vs = x ++ s_ "__init__.py".
Proof. intros. apply path_join_end. Qed.
Lemma init_py_not : forall vs q, last q "p"%char <> "y"%char -> init_py vs <> q.
Proof.
  intros vs q N E. destruct (init_py_end vs) as (x & X). rewrite X in E. subst q. apply N.
  change (s_ "__init__.py") with (s_ "__init__.p" ++ ["y"%char]). rewrite app_assoc. apply last_last.
Qed.
Lemma init_py_manifest : forall vs, init_py vs <> f_manifest.
Proof. intros. now apply init_py_not. Qed.
Lemma init_py_attr : forall vs, init_py vs <> f_gitattributes.
Proof. intros. now apply init_py_not. Qed.

(** ** The new texts *)
Definition init_new (old : str) : str := if contains INIT_PY_SNIPPET old then old else old ++ INIT_PY_SNIPPET.
Definition man_add (vs old : str) : str :=
  let inc := simple_includes old in
  (if member f_versioneer inc then [] else include_line f_versioneer) ++ (if member vs inc then [] else include_line vs).
Definition man_new (vs old : str) : str := old ++ man_add vs old.
Definition attr_new (vs old : str) : str := if attr_present vs old then old else old ++ export_line vs.

Definition target (T vs : str) (fs : Files) (p : str) : option str :=
  if str_dec p f_manifest then Some (man_new vs (content fs f_manifest))
  else if str_dec p f_gitattributes then Some (attr_new vs (content fs f_gitattributes))
  else if str_dec p (init_py vs) then
    match (if str_dec (init_py vs) vs then Some T else fs (init_py vs)) with
    | None => None
    | Some old => Some (init_new old)
    end
  else if str_dec p vs then Some T
  else fs p.

Lemma contains_nonempty : forall p t, p <> [] -> contains p t = true -> t <> [].
Proof.
  intros p t Z H E. subst t. apply contains_spec in H. destruct H as (a & b & H).
  apply (f_equal (@List.length ascii)) in H. rewrite !app_length in H. destruct p; [congruence|cbn in H; lia].
Qed.

Definition e1 (T vs : str) : list Effect := [Truncate vs; Append vs T].

Lemma init_phase : forall fs ipy p, effects fs (init_effects fs ipy) p =
  if str_dec p ipy then match fs ipy with None => None | Some old => Some (init_new old) end else fs p.
Proof.
  intros fs ipy p. unfold init_effects, init_new. destruct (fs ipy) as [old|] eqn:F.
  - destruct (contains INIT_PY_SNIPPET old) eqn:C.
    + unfold effects; cbn [fold_left]. destruct (str_dec p ipy) as [->|N]; [exact F|reflexivity].
    + rewrite append_file. unfold content. rewrite F. reflexivity.
  - unfold effects; cbn [fold_left]. destruct (str_dec p ipy) as [->|N]; [exact F|reflexivity].
Qed.
Lemma manifest_phase : forall fs vs p, effects fs (manifest_effects fs vs) p =
  if str_dec p f_manifest then Some (man_new vs (content fs f_manifest)) else fs p.
Proof.
  intros fs vs p. unfold manifest_effects, man_new, man_add. set (inc := simple_includes (content fs f_manifest)).
  assert (K : member f_versioneer inc = true -> fs f_manifest = Some (content fs f_manifest)).
  { unfold inc, content. destruct (fs f_manifest); [reflexivity|]. intros H. discriminate H. }
  destruct (member f_versioneer inc) eqn:A; destruct (member vs inc) eqn:B; cbn [app].
  - unfold effects; cbn [fold_left]. rewrite app_nil_r. destruct (str_dec p f_manifest) as [->|N]; [now apply K|reflexivity].
  - apply append_file.
  - rewrite append_file. now rewrite app_nil_r.
  - change [Touch f_manifest; Append f_manifest (include_line f_versioneer); Touch f_manifest; Append f_manifest (include_line vs)]
      with ([Touch f_manifest; Append f_manifest (include_line f_versioneer)] ++ [Touch f_manifest; Append f_manifest (include_line vs)]).
    rewrite effects_app, append_file, append_content, append_file.
    destruct (str_dec p f_manifest); [now rewrite app_assoc|reflexivity].
Qed.
Lemma attr_phase : forall fs vs p, effects fs (attr_effects fs vs) p =
  if str_dec p f_gitattributes then Some (attr_new vs (content fs f_gitattributes)) else fs p.
Proof.
  intros fs vs p. unfold attr_effects, attr_new. destruct (attr_present vs (content fs f_gitattributes)) eqn:A.
  - unfold effects; cbn [fold_left]. destruct (str_dec p f_gitattributes) as [->|N]; [|reflexivity].
    unfold content in *. destruct (fs f_gitattributes); [reflexivity|discriminate A].
  - apply append_file.
Qed.

Section Run.
Variables (LONG : Config -> str) (c : Config) (vs : str).
Hypothesis Hc : configured c vs.
Hypothesis Hvs : version_path vs.

Let T := LONG c.
Let fs1 fs := effects fs (e1 T vs).
Let fs2 fs := effects (fs1 fs) (init_effects (fs1 fs) (init_py vs)).
Let fs3 fs := effects (fs2 fs) (manifest_effects (fs2 fs) vs).

Lemma do_setup_eq : forall fs, do_setup LONG (CfgOk c) fs =
  mkOutcome (e1 T vs ++ init_effects (fs1 fs) (init_py vs) ++ manifest_effects (fs2 fs) vs ++ attr_effects (fs3 fs) vs)
    (Ok 0)
    (Some ([f_manifest; vs] ++ (match fs1 fs (init_py vs) with Some _ => [init_py vs] | None => [] end) ++ [f_versioneer] ++
           (match attr_effects (fs3 fs) vs with [] => [] | _ => [f_gitattributes] end))).
Proof.
  intros fs. destruct Hc as [H1 H2]. unfold do_setup. rewrite H2, H1. cbn [negb]. rewrite str_eqb_refl. reflexivity.
Qed.

Lemma vs_not_manifest : vs <> f_manifest. Proof. now destruct Hvs as (_ & ? & _). Qed.
Lemma vs_not_attr : vs <> f_gitattributes. Proof. now destruct Hvs as (_ & _ & ? & _). Qed.
Lemma vs_not_versioneer : vs <> f_versioneer. Proof. now destruct Hvs as (_ & _ & _ & ?). Qed.
Lemma manifest_not_attr : f_manifest <> f_gitattributes. Proof. discriminate. Qed.

Lemma fs1_at : forall fs p, fs1 fs p = if str_dec p vs then Some T else fs p.
Proof. intros. apply write_file. Qed.
Lemma fs2_at : forall fs p, fs2 fs p =
  if str_dec p (init_py vs) then match fs1 fs (init_py vs) with None => None | Some old => Some (init_new old) end else fs1 fs p.
Proof. intros. apply init_phase. Qed.
Lemma fs2_content : forall fs q, q <> vs -> q <> init_py vs -> content (fs2 fs) q = content fs q.
Proof.
  intros fs q A B. unfold content. rewrite fs2_at. destruct (str_dec q (init_py vs)); [contradiction|].
  rewrite fs1_at. destruct (str_dec q vs); [contradiction|reflexivity].
Qed.
Lemma fs3_content : forall fs, content (fs3 fs) f_gitattributes = content fs f_gitattributes.
Proof.
  intros fs. unfold content at 1. unfold fs3. rewrite manifest_phase.
  destruct (str_dec f_gitattributes f_manifest) as [E|_]; [discriminate E|].
  apply fs2_content; [intros E; now apply vs_not_attr|intros E; now apply (init_py_attr vs)].
Qed.

Lemma after_target : forall fs p, after_setup LONG (CfgOk c) fs p = target T vs fs p.
Proof.
  intros fs p. unfold after_setup. rewrite do_setup_eq. cbn [o_effects].
  rewrite !effects_app. fold (fs1 fs). fold (fs2 fs). fold (fs3 fs).
  rewrite attr_phase, fs3_content. unfold target.
  destruct (str_dec p f_manifest) as [->|N1].
  - destruct (str_dec f_manifest f_gitattributes) as [E|_]; [discriminate E|].
    unfold fs3. rewrite manifest_phase. destruct (str_dec f_manifest f_manifest); [|congruence].
    rewrite fs2_content; [reflexivity|intros E; now apply vs_not_manifest|intros E; now apply (init_py_manifest vs)].
  - destruct (str_dec p f_gitattributes) as [->|N2]; [reflexivity|].
    unfold fs3. rewrite manifest_phase. destruct (str_dec p f_manifest); [contradiction|].
    rewrite fs2_at. destruct (str_dec p (init_py vs)) as [->|N3].
    + rewrite fs1_at. reflexivity.
    + apply fs1_at.
Qed.

(** ** States from which the same files result *)
Definition sim (fs fs' : Files) : Prop :=
  ended (content fs' f_manifest) /\ ended (content fs' f_gitattributes) /\
  man_new vs (content fs' f_manifest) = man_new vs (content fs f_manifest) /\
  attr_new vs (content fs' f_gitattributes) = attr_new vs (content fs f_gitattributes) /\
  (init_py vs <> vs ->
     match fs (init_py vs), fs' (init_py vs) with
     | None, None => True | Some a, Some b => init_new a = init_new b | _, _ => False end) /\
  (forall p, p <> f_manifest -> p <> f_gitattributes -> p <> init_py vs -> p <> vs -> fs' p = fs p).

Lemma sim_refl : forall fs, ended (content fs f_manifest) -> ended (content fs f_gitattributes) -> sim fs fs.
Proof. intros fs A B. repeat split; try assumption. intros _. destruct (fs (init_py vs)); trivial. Qed.
Lemma sim_trans : forall a b d, sim a b -> sim b d -> sim a d.
Proof.
  intros a b d (A1 & A2 & A3 & A4 & A5 & A6) (B1 & B2 & B3 & B4 & B5 & B6).
  split; [exact B1|]. split; [exact B2|]. split; [congruence|]. split; [congruence|]. split.
  - intros N. specialize (A5 N). specialize (B5 N).
    destruct (a (init_py vs)), (b (init_py vs)), (d (init_py vs)); try contradiction; trivial. congruence.
  - intros p N1 N2 N3 N4. rewrite B6, A6; auto.
Qed.
Lemma sim_target : forall fs fs', sim fs fs' -> forall p, target T vs fs' p = target T vs fs p.
Proof.
  intros fs fs' (_ & _ & A3 & A4 & A5 & A6) p. unfold target.
  destruct (str_dec p f_manifest); [congruence|]. destruct (str_dec p f_gitattributes); [congruence|].
  destruct (str_dec p (init_py vs)) as [->|N3].
  - destruct (str_dec (init_py vs) vs) as [E|N]; [reflexivity|]. specialize (A5 N).
    destruct (fs (init_py vs)), (fs' (init_py vs)); try contradiction; congruence.
  - destruct (str_dec p vs); [reflexivity|]. now apply A6.
Qed.

(** Only the version file differs. *)
Lemma sim_version : forall fs fs', ended (content fs f_manifest) -> ended (content fs f_gitattributes) ->
  (forall p, p <> vs -> fs' p = fs p) -> sim fs fs'.
Proof.
  intros fs fs' A B H.
  assert (M : content fs' f_manifest = content fs f_manifest).
  { unfold content. rewrite H; [reflexivity|]. intros E. now apply vs_not_manifest. }
  assert (G : content fs' f_gitattributes = content fs f_gitattributes).
  { unfold content. rewrite H; [reflexivity|]. intros E. now apply vs_not_attr. }
  unfold sim. rewrite M, G. repeat split; try assumption.
  - intros N. rewrite (H _ N). destruct (fs (init_py vs)); trivial.
  - intros p _ _ _ N. now apply H.
Qed.

Lemma init_new_idem : forall old, init_new (init_new old) = init_new old.
Proof.
  intros old. unfold init_new at 1. replace (contains INIT_PY_SNIPPET (init_new old)) with true; [reflexivity|].
  symmetry. unfold init_new. destruct (contains INIT_PY_SNIPPET old) eqn:C; [exact C|].
  apply contains_spec. exists old, []. now rewrite app_nil_r.
Qed.
Lemma sim_init : forall fs k, ended (content fs f_manifest) -> ended (content fs f_gitattributes) ->
  sim fs (effects fs (firstn k (init_effects fs (init_py vs)))).
Proof.
  intros fs k A B.
  assert (NM := init_py_manifest vs). assert (NA := init_py_attr vs).
  unfold init_effects. destruct (fs (init_py vs)) as [old|] eqn:F; [|destruct k; now apply sim_refl].
  destruct (contains INIT_PY_SNIPPET old) eqn:C; [destruct k; now apply sim_refl|].
  assert (G : forall fs' t, (forall p, fs' p = if str_dec p (init_py vs) then Some t else fs p) -> init_new t = init_new old -> sim fs fs').
  { intros fs' t H E.
    assert (O : forall p, p <> init_py vs -> fs' p = fs p).
    { intros p N. rewrite H. destruct (str_dec p (init_py vs)); [contradiction|reflexivity]. }
    unfold sim. unfold content. rewrite !O by congruence. fold (content fs f_manifest) (content fs f_gitattributes).
    repeat split; try assumption.
    - intros _. rewrite F, H. destruct (str_dec (init_py vs) (init_py vs)); [now symmetry|congruence].
    - intros p _ _ N _. now apply O. }
  destruct k as [|[|k]].
  - now apply sim_refl.
  - cbn [firstn]. apply (G _ old); [|reflexivity]. intros p. unfold effects. cbn [fold_left effect].
    destruct (str_dec p (init_py vs)) as [->|N]; [rewrite put_same; unfold content; now rewrite F|now rewrite put_other].
  - cbn [firstn]. rewrite firstn_nil. apply (G _ (old ++ INIT_PY_SNIPPET)).
    + intros p. rewrite append_file. unfold content. now rewrite F.
    + change (old ++ INIT_PY_SNIPPET) with (if false then old else old ++ INIT_PY_SNIPPET). rewrite <- C.
      apply init_new_idem.
Qed.

(** MANIFEST.in *)
Lemma versioneer_unbroken : unbroken f_versioneer.
Proof. split; [discriminate|]. intros x K. cbn in K. repeat (destruct K as [<-|K]; [discriminate|]). destruct K. Qed.
Lemma vs_unbroken : unbroken vs. Proof. now destruct Hvs. Qed.
Lemma include_line_ended : forall t x, ended (t ++ include_line x).
Proof. intros. unfold include_line. rewrite app_assoc with (m := x). apply ended_line. Qed.
Lemma member_one : forall x y, member x [y] = true <-> x = y.
Proof. intros. rewrite member_in. cbn. split; [intros [E|[]]; congruence|intros ->; now left]. Qed.
Lemma member_one_no : forall x y, x <> y -> member x [y] = false.
Proof. intros x y N. destruct (member x [y]) eqn:E; [|reflexivity]. now apply member_one in E. Qed.
Lemma inc_versioneer : simple_includes (include_line f_versioneer) = [f_versioneer].
Proof. exact (includes_line _ versioneer_unbroken). Qed.
Lemma inc_vs : simple_includes (include_line vs) = [vs].
Proof. exact (includes_line _ vs_unbroken). Qed.
Lemma man_step1 : forall m, ended m -> member f_versioneer (simple_includes m) = false ->
  man_new vs (m ++ include_line f_versioneer) = man_new vs m.
Proof.
  intros m E H. unfold man_new, man_add. rewrite simple_includes_app, inc_versioneer, !member_app by exact E.
  rewrite H, (proj2 (member_one f_versioneer f_versioneer) eq_refl), (member_one_no vs f_versioneer vs_not_versioneer).
  cbn [orb]. rewrite orb_false_r. cbn [app]. now rewrite <- app_assoc.
Qed.
Lemma man_idem : forall m, ended m -> man_new vs (man_new vs m) = man_new vs m /\ ended (man_new vs m).
Proof.
  intros m E. unfold man_new, man_add. 
  destruct (member f_versioneer (simple_includes m)) eqn:A; destruct (member vs (simple_includes m)) eqn:B; cbn [app].
  - rewrite !app_nil_r, A, B. cbn [app]. split; [apply app_nil_r|exact E].
  - rewrite simple_includes_app, inc_vs, !member_app, A by exact E. cbn [orb].
    rewrite (proj2 (member_one vs vs) eq_refl), orb_true_r. cbn [app]. split; [apply app_nil_r|apply include_line_ended].
  - rewrite !app_nil_r, simple_includes_app, inc_versioneer, !member_app, B by exact E. cbn [orb].
    rewrite (proj2 (member_one f_versioneer f_versioneer) eq_refl), orb_true_r. cbn [app]. split; [apply app_nil_r|apply include_line_ended].
  - rewrite (app_assoc m), (simple_includes_app (m ++ include_line f_versioneer)), (simple_includes_app m), inc_versioneer, inc_vs, !member_app; [|exact E|apply include_line_ended].
    rewrite (proj2 (member_one f_versioneer f_versioneer) eq_refl), (proj2 (member_one vs vs) eq_refl).
    rewrite !orb_true_r. cbn [orb app]. split; [apply app_nil_r|apply include_line_ended].
Qed.
Lemma sim_manifest : forall fs k, ended (content fs f_manifest) -> ended (content fs f_gitattributes) ->
  sim fs (effects fs (firstn k (manifest_effects fs vs))).
Proof.
  intros fs k A B.
  assert (NM := init_py_manifest vs).
  set (m := content fs f_manifest) in *.
  assert (G : forall fs' t, (forall p, p <> f_manifest -> fs' p = fs p) -> content fs' f_manifest = t -> ended t ->
                man_new vs t = man_new vs m -> sim fs fs').
  { intros fs' t O H Et E. unfold sim. rewrite H.
    assert (GA : content fs' f_gitattributes = content fs f_gitattributes).
    { unfold content. rewrite O; [reflexivity|discriminate]. }
    rewrite GA. repeat split; try assumption.
    - intros _. rewrite (O _ NM). destruct (fs (init_py vs)); trivial.
    - intros p N _ _ _. now apply O. }
  assert (TO : forall p q, p <> q -> effects fs [Touch q] p = fs p).
  { intros p q N. unfold effects. cbn [fold_left effect]. now apply put_other. }
  assert (AO : forall f t p, p <> f_manifest -> effects f [Touch f_manifest; Append f_manifest t] p = f p).
  { intros f t p N. rewrite append_file. now destruct (str_dec p f_manifest). }
  assert (T0 : sim fs (effects fs [Touch f_manifest])).
  { apply (G _ m); [intros p N; now apply TO|apply touch_content|exact A|reflexivity]. }
  destruct (man_idem m A) as [I1 I2].
  unfold manifest_effects. fold m. unfold man_new, man_add in I1, I2.
  destruct (member f_versioneer (simple_includes m)) eqn:V; destruct (member vs (simple_includes m)) eqn:W; cbn [app] in *.
  - destruct k; now apply sim_refl.
  - destruct k as [|[|k]]; cbn [firstn]; [now apply sim_refl|exact T0|]. rewrite firstn_nil.
    apply (G _ (m ++ include_line vs)); [apply AO|apply append_content|exact I2|].
    unfold man_new, man_add. rewrite V, W. exact I1.
  - rewrite !app_nil_r in *. destruct k as [|[|k]]; cbn [firstn]; [now apply sim_refl|exact T0|]. rewrite firstn_nil.
    apply (G _ (m ++ include_line f_versioneer)); [apply AO|apply append_content|exact I2|].
    now apply man_step1.
  - assert (S1 : sim fs (effects fs [Touch f_manifest; Append f_manifest (include_line f_versioneer)])).
    { apply (G _ (m ++ include_line f_versioneer)); [apply AO|apply append_content|apply include_line_ended|].
      now apply man_step1. }
    destruct k as [|[|[|[|k]]]]; cbn [firstn]; [now apply sim_refl|exact T0|exact S1| |].
    + change [Touch f_manifest; Append f_manifest (include_line f_versioneer); Touch f_manifest]
        with ([Touch f_manifest; Append f_manifest (include_line f_versioneer)] ++ [Touch f_manifest]).
      rewrite effects_app. set (fs' := effects fs [Touch f_manifest; Append f_manifest (include_line f_versioneer)]) in *.
      apply (G _ (m ++ include_line f_versioneer)).
      * intros p N. unfold effects. cbn [fold_left effect]. rewrite put_other by exact N. now apply AO.
      * rewrite touch_content. apply append_content.
      * apply include_line_ended.
      * now apply man_step1.
    + rewrite firstn_nil.
      change [Touch f_manifest; Append f_manifest (include_line f_versioneer); Touch f_manifest; Append f_manifest (include_line vs)]
        with ([Touch f_manifest; Append f_manifest (include_line f_versioneer)] ++ [Touch f_manifest; Append f_manifest (include_line vs)]).
      rewrite effects_app. apply (G _ (m ++ include_line f_versioneer ++ include_line vs)).
      * intros p N. rewrite AO by exact N. now apply AO.
      * rewrite append_content, append_content. now rewrite <- app_assoc.
      * exact I2.
      * unfold man_new at 2, man_add. rewrite V, W. exact I1.
Qed.

(** .gitattributes *)
Lemma attr_new_idem : forall t, ended t -> attr_new vs (attr_new vs t) = attr_new vs t /\ ended (attr_new vs t).
Proof.
  intros t E. unfold attr_new at 1. destruct (attr_present vs t) eqn:A.
  - unfold attr_new. rewrite A, A. now split.
  - unfold attr_new. rewrite A, attr_present_app, attr_present_line, orb_true_r by (exact E || exact vs_unbroken).
    split; [reflexivity|]. unfold export_line. rewrite app_assoc with (m := s_ " export-subst"). apply ended_line.
Qed.
Lemma sim_attr : forall fs k, ended (content fs f_manifest) -> ended (content fs f_gitattributes) ->
  sim fs (effects fs (firstn k (attr_effects fs vs))).
Proof.
  intros fs k A B.
  assert (NA := init_py_attr vs). set (m := content fs f_gitattributes) in *.
  assert (G : forall fs' t, (forall p, p <> f_gitattributes -> fs' p = fs p) -> content fs' f_gitattributes = t -> ended t ->
                attr_new vs t = attr_new vs m -> sim fs fs').
  { intros fs' t O H Et E. unfold sim. rewrite H.
    assert (GA : content fs' f_manifest = content fs f_manifest).
    { unfold content. rewrite O; [reflexivity|discriminate]. }
    rewrite GA. repeat split; try assumption.
    - intros _. rewrite (O _ NA). destruct (fs (init_py vs)); trivial.
    - intros p _ N _ _. now apply O. }
  destruct (attr_new_idem m B) as [I1 I2].
  unfold attr_effects. fold m. unfold attr_new in I1, I2.
  destruct (attr_present vs m) eqn:P; [destruct k; now apply sim_refl|].
  destruct k as [|[|k]]; cbn [firstn].
  - now apply sim_refl.
  - apply (G _ m); [|apply touch_content|exact B|reflexivity].
    intros p N. unfold effects. cbn [fold_left effect]. now apply put_other.
  - rewrite firstn_nil. apply (G _ (m ++ export_line vs)); [|apply append_content|exact I2|].
    + intros p N. rewrite append_file. now destruct (str_dec p f_gitattributes).
    + unfold attr_new. rewrite P. exact I1.
Qed.

Lemma firstn_phase : forall (a b : list Effect) fs k,
  effects fs (firstn k (a ++ b)) = effects fs (firstn k a) \/
  exists j, effects fs (firstn k (a ++ b)) = effects (effects fs a) (firstn j b).
Proof.
  intros a b fs k. rewrite firstn_app. destruct (le_lt_dec (List.length a) k) as [H|H].
  - right. exists (k - List.length a). rewrite firstn_all2 by exact H. apply effects_app.
  - left. replace (k - List.length a) with 0 by lia. cbn. now rewrite app_nil_r.
Qed.

Lemma sim_fs1 : forall fs, ended (content fs f_manifest) -> ended (content fs f_gitattributes) -> sim fs (fs1 fs).
Proof.
  intros fs A B. apply sim_version; [exact A|exact B|]. intros p N. rewrite fs1_at. now destruct (str_dec p vs).
Qed.
Lemma firstn_whole : forall (a : list Effect), firstn (List.length a) a = a.
Proof. intros. apply firstn_all. Qed.

Lemma sim_interrupted : forall fs fs', ended (content fs f_manifest) -> ended (content fs f_gitattributes) ->
  interrupted LONG c fs fs' -> sim fs fs'.
Proof.
  intros fs fs' A B H. destruct H as [k|w t t' Hw Ht].
  - rewrite do_setup_eq. cbn [o_effects].
    destruct (firstn_phase (e1 T vs) (init_effects (fs1 fs) (init_py vs) ++ manifest_effects (fs2 fs) vs ++ attr_effects (fs3 fs) vs) fs k) as [E|(j & E)]; rewrite E; clear E.
    { apply sim_version; [exact A|exact B|]. intros p N. destruct k as [|[|k]]; cbn [firstn e1]; [reflexivity| |].
      - unfold effects. cbn [fold_left effect]. now apply put_other.
      - rewrite firstn_nil. rewrite write_file. now destruct (str_dec p vs). }
    assert (S1 := sim_fs1 fs A B). fold (fs1 fs). apply (sim_trans _ _ _ S1).
    destruct S1 as (A1 & B1 & _).
    destruct (firstn_phase (init_effects (fs1 fs) (init_py vs)) (manifest_effects (fs2 fs) vs ++ attr_effects (fs3 fs) vs) (fs1 fs) j) as [E|(i & E)]; rewrite E; clear E.
    { now apply sim_init. }
    assert (S2 := sim_init (fs1 fs) (List.length (init_effects (fs1 fs) (init_py vs))) A1 B1).
    rewrite firstn_whole in S2. fold (fs2 fs) in S2. fold (fs2 fs). apply (sim_trans _ _ _ S2).
    destruct S2 as (A2 & B2 & _).
    destruct (firstn_phase (manifest_effects (fs2 fs) vs) (attr_effects (fs3 fs) vs) (fs2 fs) i) as [E|(h & E)]; rewrite E; clear E.
    { now apply sim_manifest. }
    assert (S3 := sim_manifest (fs2 fs) (List.length (manifest_effects (fs2 fs) vs)) A2 B2).
    rewrite firstn_whole in S3. fold (fs3 fs) in S3. fold (fs3 fs). apply (sim_trans _ _ _ S3).
    destruct S3 as (A3 & B3 & _). now apply sim_attr.
  - destruct Hc as [_ Hs]. rewrite Hs in Hw. inversion Hw; subst w.
    apply sim_version; [exact A|exact B|]. intros p N. rewrite write_file. now destruct (str_dec p vs).
Qed.

Lemma sim_attempts : forall fs fs', ended (content fs f_manifest) -> ended (content fs f_gitattributes) ->
  attempts LONG c fs fs' -> sim fs fs'.
Proof.
  intros fs fs' A B H. induction H as [|x y H IH Hi].
  - now apply sim_refl.
  - apply (sim_trans _ _ _ IH). destruct IH as (A1 & B1 & _). now apply sim_interrupted.
Qed.
End Run.
