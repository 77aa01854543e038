(** "python versioneer.py setup" (C65). *)
From Coq Require Import List String Ascii Bool Arith Lia.
From Verif Require Import Arith Version VersionStr Package PackageProof Install SpecInstall InstallProof GenInstall.
Import ListNotations.
Local Open Scope list_scope.

(** After a run: the version file has the generated text, __init__.py (if there is
    one) the snippet, MANIFEST.in includes both files and .gitattributes marks the
    version file. *)
Theorem c65_installed : forall (LONG : Config -> str) (c : Config) (vs : str) (fs : Files),
  configured c vs -> version_path vs ->
  ended (content fs f_manifest) -> ended (content fs f_gitattributes) ->
  let fs' := after_setup LONG (CfgOk c) fs in
  o_result (do_setup LONG (CfgOk c) fs) = Ok 0 /\
  (init_py vs <> vs -> fs' vs = Some (LONG c)) /\
  (forall t, fs' (init_py vs) = Some t -> occurs INIT_PY_SNIPPET t) /\
  includes (content fs' f_manifest) (s_ "versioneer.py") /\
  includes (content fs' f_manifest) vs /\
  (~ longer_pattern (content fs f_gitattributes) vs -> exports (content fs' f_gitattributes) vs).
Proof.
  intros LONG c vs fs Hc Hvs HM HA fs'.
  assert (U : unbroken vs) by now destruct Hvs.
  split; [now rewrite (do_setup_eq LONG c vs Hc)|].
  assert (TG : forall p, fs' p = target (LONG c) vs fs p) by (intros p; now apply after_target).
  assert (EM : content fs' f_manifest = man_new vs (content fs f_manifest)).
  { unfold content at 1. rewrite TG. unfold target. destruct (str_dec f_manifest f_manifest); [reflexivity|congruence]. }
  assert (EA : content fs' f_gitattributes = attr_new vs (content fs f_gitattributes)).
  { unfold content at 1. rewrite TG. unfold target. destruct (str_dec f_gitattributes f_manifest) as [E|_]; [discriminate E|].
    destruct (str_dec f_gitattributes f_gitattributes); [reflexivity|congruence]. }
  split; [|split; [|split; [|split]]].
  - intros N. rewrite TG. unfold target. destruct Hvs as (_ & N1 & N2 & _).
    destruct (str_dec vs f_manifest); [contradiction|]. destruct (str_dec vs f_gitattributes); [contradiction|].
    destruct (str_dec vs (init_py vs)); [congruence|]. destruct (str_dec vs vs); [reflexivity|congruence].
  - intros t E. rewrite TG in E. unfold target in E.
    destruct (str_dec (init_py vs) f_manifest) as [K|_]; [now apply init_py_manifest in K|].
    destruct (str_dec (init_py vs) f_gitattributes) as [K|_]; [now apply init_py_attr in K|].
    destruct (str_dec (init_py vs) (init_py vs)) as [_|K]; [|congruence].
    destruct (if str_dec (init_py vs) vs then Some (LONG c) else fs (init_py vs)) as [old|]; [|discriminate].
    inversion E; subst. unfold init_new. destruct (contains INIT_PY_SNIPPET old) eqn:C.
    + now apply contains_spec.
    + exists old, []. now rewrite app_nil_r.
  - rewrite EM. apply includes_spec, member_in. unfold man_new, man_add.
    rewrite simple_includes_app, member_app by exact HM.
    change (s_ "versioneer.py") with f_versioneer.
    destruct (member f_versioneer (simple_includes (content fs f_manifest))); [reflexivity|]. cbn [orb].
    rewrite simple_includes_app, member_app, inc_versioneer by exact (include_line_ended [] f_versioneer).
    now rewrite (proj2 (member_one f_versioneer f_versioneer) eq_refl).
  - rewrite EM. apply includes_spec, member_in. unfold man_new, man_add.
    rewrite simple_includes_app, member_app by exact HM.
    destruct (member vs (simple_includes (content fs f_manifest))); [reflexivity|]. cbn [orb].
    rewrite simple_includes_app, member_app, (inc_vs vs Hvs).
    + now rewrite (proj2 (member_one vs vs) eq_refl), orb_true_r.
    + destruct (member f_versioneer (simple_includes (content fs f_manifest))); [apply ended_nil|exact (include_line_ended [] f_versioneer)].
  - intros NL. rewrite EA. unfold attr_new. destruct (attr_present vs (content fs f_gitattributes)) eqn:P.
    + destruct (attr_present_spec vs _ U P) as [X|X]; [exact X|contradiction].
    + exists [], (s_ " export-subst"). split; [intros x []|]. split; [|split].
      * apply line_of_later; [exact HA|]. unfold export_line. rewrite app_assoc. split.
        -- intros K. apply in_app_or in K. destruct K as [K|K]; [exact (proj2 U _ K newline_blank)|].
           cbn in K. repeat (destruct K as [K|K]; [discriminate K|]). destruct K.
        -- exists [], [newline]. split; [cbn [app]; now rewrite <- ?app_assoc|]. split; [now left|]. right. now exists [].
      * exists " "%char, (s_ "export-subst"). split; reflexivity.
      * exact (export_word " "%char eq_refl).
Qed.

Lemma effects_grow : forall p es fs, (forall e, In e es -> e <> Truncate p) ->
  effects fs es p = fs p \/ exists more, effects fs es p = Some (content fs p ++ more).
Proof.
  intros p es. induction es as [|e es IH]; intros fs H; [now left|].
  assert (E : effects fs (e :: es) = effects (effect fs e) es) by reflexivity. rewrite E.
  assert (S : effect fs e p = fs p \/ exists more, effect fs e p = Some (content fs p ++ more)).
  { destruct e as [q|q|q t]; cbn [effect].
    - destruct (str_dec p q) as [->|N]; [exfalso; apply (H (Truncate q)); [now left|reflexivity]|]. left. now apply put_other.
    - destruct (str_dec p q) as [->|N]; [|left; now apply put_other]. right. exists []. rewrite put_same. now rewrite app_nil_r.
    - destruct (str_dec p q) as [->|N]; [|left; now apply put_other]. right. exists t. now rewrite put_same. }
  destruct (IH (effect fs e)) as [R|(m & R)]; [intros x K; apply H; now right| |].
  - rewrite R. exact S.
  - right. rewrite R. unfold content. destruct S as [S|(m' & S)]; rewrite S.
    + now exists m.
    + exists (m' ++ m). unfold content. now rewrite app_assoc.
Qed.

(** Whatever the configuration: apart from the version file, a file either stays as
    it is or keeps its text and gets something added at the end. *)
Theorem c65_kept : forall (LONG : Config -> str) (read : CfgRead) (fs : Files) (p : str),
  (forall c, read = CfgOk c -> c_versionfile_source c <> Some p) ->
  after_setup LONG read fs p = fs p \/
  exists more, after_setup LONG read fs p = Some (content fs p ++ more).
Proof.
  intros LONG read fs p H. unfold after_setup. apply effects_grow. intros e He E. subst e.
  destruct read as [c| | |]; cbn [do_setup o_effects] in He.
  - specialize (H c eq_refl). destruct (c_versionfile_source c) as [vs|] eqn:V; [|destruct He].
    assert (NV : vs <> p) by congruence.
    destruct (negb (str_eqb (c_VCS c) (s_ "git"))); cbn [o_effects] in He.
    + destruct He as [E|[]]. inversion E; contradiction.
    + apply in_app_or in He. destruct He as [He|He].
      { destruct He as [E|[E|[]]]; inversion E; contradiction. }
      apply in_app_or in He. destruct He as [He|He].
      { unfold init_effects in He. destruct (effects fs _ (init_py vs)); [|destruct He]. destruct (contains _ _); [destruct He|].
        destruct He as [E|[E|[]]]; discriminate E. }
      apply in_app_or in He. destruct He as [He|He].
      { unfold manifest_effects in He. apply in_app_or in He. destruct He as [He|He];
        (destruct (member _ _); [destruct He|]; destruct He as [E|[E|[]]]; discriminate E). }
      unfold attr_effects in He. destruct (attr_present _ _); [destruct He|]. destruct He as [E|[E|[]]]; discriminate E.
  - destruct He as [E|[E|[]]]; discriminate E.
  - destruct He as [E|[E|[]]]; discriminate E.
  - destruct He.
Qed.

Definition path_of (e : Effect) : str := match e with Truncate p | Touch p | Append p _ => p end.
Lemma effects_elsewhere : forall p es fs, (forall e, In e es -> path_of e <> p) -> effects fs es p = fs p.
Proof.
  intros p es. induction es as [|e es IH]; intros fs H; [reflexivity|].
  change (effects fs (e :: es)) with (effects (effect fs e) es). rewrite IH by (intros x K; apply H; now right).
  assert (N : path_of e <> p) by (apply H; now left).
  destruct e; cbn in *; apply put_other; congruence.
Qed.

(** Every file a run changes is handed to "git add"; the only files it creates are
    the version file, MANIFEST.in and .gitattributes. *)
Theorem c65_staged : forall (LONG : Config -> str) (c : Config) (vs : str) (fs : Files) (p : str),
  configured c vs -> after_setup LONG (CfgOk c) fs p <> fs p ->
  exists staged, o_staged (do_setup LONG (CfgOk c) fs) = Some staged /\ In p staged /\
    (fs p = None -> p = vs \/ p = f_manifest \/ p = f_gitattributes).
Proof.
  intros LONG c vs fs p Hc H. rewrite (do_setup_eq LONG c vs Hc). cbn [o_staged]. eexists. split; [reflexivity|].
  unfold after_setup in H. rewrite (do_setup_eq LONG c vs Hc) in H. cbn [o_effects] in H.
  destruct (str_dec p vs) as [->|N1]; [split; [right; now left|intros _; now left]|].
  destruct (str_dec p f_manifest) as [->|N2]; [split; [now left|intros _; right; now left]|].
  rewrite effects_app in H. set (f1 := effects fs (e1 (LONG c) vs)) in *.
  assert (F1 : f1 p = fs p) by (unfold f1, e1; rewrite write_file; now destruct (str_dec p vs)).
  rewrite effects_app in H. set (f2 := effects f1 (init_effects f1 (init_py vs))) in *.
  rewrite effects_app in H. set (f3 := effects f2 (manifest_effects f2 vs)) in *.
  assert (F3 : f3 p = f2 p) by (unfold f3; rewrite manifest_phase; now destruct (str_dec p f_manifest)).
  destruct (str_dec p f_gitattributes) as [->|N3].
  - split; [|intros _; right; now right].
    destruct (attr_effects f3 vs) as [|e es] eqn:E.
    + exfalso. apply H. unfold effects at 1. cbn [fold_left]. rewrite F3. unfold f2. rewrite init_phase, <- F1.
      destruct (str_dec f_gitattributes (init_py vs)) as [K|_]; [now symmetry in K; apply init_py_attr in K|reflexivity].
    + rewrite !in_app_iff. right. right. right. now left.
  - assert (F4 : effects f3 (attr_effects f3 vs) p = f3 p) by (rewrite attr_phase; now destruct (str_dec p f_gitattributes)).
    rewrite F4, F3 in H. unfold f2 in H. rewrite init_phase in H.
    destruct (str_dec p (init_py vs)) as [->|N4]; [|congruence].
    destruct (f1 (init_py vs)) as [old|] eqn:O; [|congruence].
    split; [|intros K; congruence].
    rewrite !in_app_iff. right. left. now left.
Qed.

(** However often a run is interrupted, and wherever, a complete run afterwards
    leaves the files a single complete run would have left. *)
Theorem c65_interrupted : forall (LONG : Config -> str) (c : Config) (vs : str) (fs fs' : Files),
  configured c vs -> version_path vs ->
  ended (content fs f_manifest) -> ended (content fs f_gitattributes) ->
  attempts LONG c fs fs' ->
  same_files (after_setup LONG (CfgOk c) fs') (after_setup LONG (CfgOk c) fs).
Proof.
  intros LONG c vs fs fs' Hc Hvs HM HA H p. rewrite !(after_target LONG c vs Hc Hvs).
  apply sim_target. now apply (sim_attempts LONG c vs Hc Hvs).
Qed.

(** Running it again changes nothing. *)
Theorem c65_again : forall (LONG : Config -> str) (c : Config) (vs : str) (fs : Files) (n : nat),
  configured c vs -> version_path vs ->
  ended (content fs f_manifest) -> ended (content fs f_gitattributes) ->
  same_files (runs LONG c (S n) fs) (after_setup LONG (CfgOk c) fs).
Proof.
  intros LONG c vs fs n Hc Hvs HM HA.
  assert (G : forall n fs', attempts LONG c fs fs' -> same_files (runs LONG c (S n) fs') (after_setup LONG (CfgOk c) fs)).
  { clear n. induction n as [|n IH]; intros fs' H.
    - cbn [runs]. now apply (c65_interrupted LONG c vs).
    - change (runs LONG c (S (S n)) fs') with (runs LONG c (S n) (after_setup LONG (CfgOk c) fs')).
      apply IH. apply one_more with (fs1 := fs'); [exact H|]. unfold after_setup.
      assert (S := stopped LONG c fs' (List.length (o_effects (do_setup LONG (CfgOk c) fs')))).
      now rewrite firstn_all in S. }
  apply G. apply no_attempt.
Qed.

(** ... and the second run writes nothing but the version file. *)
Theorem c65_again_writes : forall (LONG : Config -> str) (c : Config) (vs : str) (fs : Files),
  configured c vs -> version_path vs -> init_py vs <> vs ->
  ended (content fs f_manifest) -> ended (content fs f_gitattributes) ->
  o_effects (do_setup LONG (CfgOk c) (after_setup LONG (CfgOk c) fs)) = [Truncate vs; Append vs (LONG c)].
Proof.
  intros LONG c vs fs Hc Hvs NI HM HA.
  set (g := after_setup LONG (CfgOk c) fs).
  assert (TG : forall p, g p = target (LONG c) vs fs p) by (intros p; now apply after_target).
  assert (EM : content g f_manifest = man_new vs (content fs f_manifest)).
  { unfold content at 1. rewrite TG. unfold target. destruct (str_dec f_manifest f_manifest); [reflexivity|congruence]. }
  assert (EA : content g f_gitattributes = attr_new vs (content fs f_gitattributes)).
  { unfold content at 1. rewrite TG. unfold target. destruct (str_dec f_gitattributes f_manifest) as [E|_]; [discriminate E|].
    destruct (str_dec f_gitattributes f_gitattributes); [reflexivity|congruence]. }
  rewrite (do_setup_eq LONG c vs Hc). cbn [o_effects].
  set (f1 := effects g (e1 (LONG c) vs)).
  assert (F1 : forall p, p <> vs -> f1 p = g p) by (intros p N; unfold f1, e1; rewrite write_file; now destruct (str_dec p vs)).
  assert (I1 : init_effects f1 (init_py vs) = []).
  { unfold init_effects. rewrite (F1 _ NI), TG. unfold target.
    destruct (str_dec (init_py vs) f_manifest) as [K|_]; [now apply init_py_manifest in K|].
    destruct (str_dec (init_py vs) f_gitattributes) as [K|_]; [now apply init_py_attr in K|].
    destruct (str_dec (init_py vs) (init_py vs)) as [_|K]; [|congruence].
    destruct (str_dec (init_py vs) vs) as [K|_]; [contradiction|].
    destruct (fs (init_py vs)) as [old|]; [|reflexivity].
    replace (contains INIT_PY_SNIPPET (init_new old)) with true; [reflexivity|]. symmetry. unfold init_new.
    destruct (contains INIT_PY_SNIPPET old) eqn:C; [exact C|]. apply contains_spec. exists old, []. now rewrite app_nil_r. }
  rewrite I1. change (effects f1 []) with f1.
  assert (M1 : manifest_effects f1 vs = []).
  { destruct (man_idem vs Hvs (content fs f_manifest) HM) as [E _]. rewrite <- EM in E.
    assert (CM : content f1 f_manifest = content g f_manifest) by (unfold content; rewrite F1; [reflexivity|destruct Hvs as (_ & N & _); congruence]).
    unfold manifest_effects. rewrite CM. unfold man_new in E at 1.
    rewrite <- (app_nil_r (content g f_manifest)) in E at 3. apply app_inv_head in E. unfold man_add in E.
    apply app_eq_nil in E. destruct E as [Ea Eb].
    destruct (member f_versioneer (simple_includes (content g f_manifest))); [|discriminate Ea].
    destruct (member vs (simple_includes (content g f_manifest))); [reflexivity|discriminate Eb]. }
  rewrite M1. change (effects f1 []) with f1.
  assert (A1 : attr_effects f1 vs = []).
  { assert (CA : content f1 f_gitattributes = content g f_gitattributes) by (unfold content; rewrite F1; [reflexivity|destruct Hvs as (_ & _ & N & _); congruence]).
    unfold attr_effects. rewrite CA, EA. unfold attr_new. destruct (attr_present vs (content fs f_gitattributes)) eqn:P; [now rewrite P|].
    rewrite attr_present_app, (attr_present_line vs (proj1 Hvs)), orb_true_r by exact HA. reflexivity. }
  rewrite A1. reflexivity.
Qed.

(** Without a usable configuration: nothing is installed. *)
Theorem c65_unconfigured : forall (LONG : Config -> str) (fs : Files),
  (forall read, read = CfgNoFile \/ read = CfgNoSection ->
     o_result (do_setup LONG read fs) = Ok 1 /\ o_staged (do_setup LONG read fs) = None /\
     after_setup LONG read fs f_setup_cfg = Some (content fs f_setup_cfg ++ SAMPLE_CONFIG) /\
     forall p, p <> f_setup_cfg -> after_setup LONG read fs p = fs p) /\
  (o_result (do_setup LONG CfgNoOption fs) = Ok 1 /\ same_files (after_setup LONG CfgNoOption fs) fs) /\
  (forall c, c_versionfile_source c = None ->
     o_result (do_setup LONG (CfgOk c) fs) = Err TypeError /\ same_files (after_setup LONG (CfgOk c) fs) fs) /\
  (forall c vs, c_versionfile_source c = Some vs -> c_VCS c <> s_ "git" ->
     o_result (do_setup LONG (CfgOk c) fs) = Err KeyError /\
     after_setup LONG (CfgOk c) fs vs = Some [] /\
     forall p, p <> vs -> after_setup LONG (CfgOk c) fs p = fs p).
Proof.
  intros LONG fs. split; [|split; [|split]].
  - intros read R.
    assert (E : do_setup LONG read fs = mkOutcome [Touch f_setup_cfg; Append f_setup_cfg SAMPLE_CONFIG] (Ok 1) None) by (destruct R as [-> | ->]; reflexivity).
    unfold after_setup. rewrite E. cbn [o_result o_staged o_effects]. split; [reflexivity|]. split; [reflexivity|]. split.
    + rewrite append_file. destruct (str_dec f_setup_cfg f_setup_cfg); [reflexivity|congruence].
    + intros p N. rewrite append_file. now destruct (str_dec p f_setup_cfg).
  - split; [reflexivity|]. intros p. reflexivity.
  - intros c H. unfold after_setup, do_setup. rewrite H. split; [reflexivity|]. intros p. reflexivity.
  - intros c vs H N. unfold after_setup, do_setup. rewrite H.
    replace (str_eqb (c_VCS c) (s_ "git")) with false.
    + cbn [negb o_result o_effects]. split; [reflexivity|]. unfold effects. cbn [fold_left effect]. split; [apply put_same|].
      intros p K. now apply put_other.
    + symmetry. destruct (str_eqb (c_VCS c) (s_ "git")) eqn:E; [|reflexivity]. apply str_eqb_eq in E. contradiction.
Qed.

(** ** scan_setup_py *)
Lemma occurs_app : forall p a b, ~ In newline p -> occurs p (a ++ newline :: b) <-> occurs p a \/ occurs p b.
Proof.
  intros p a b N. split.
  - intros (x & y & E). destruct (app_eq_app _ _ _ _ E) as (l & [[E1 E2]|[E1 E2]]).
    + (* a = x ++ l, p ++ y = l ++ newline :: b *)
      destruct (app_eq_app _ _ _ _ E2) as (m & [[F1 F2]|[F1 F2]]).
      * (* p = l ++ m *) destruct m as [|z m].
        -- left. exists x, []. rewrite app_nil_r in F1. subst. now rewrite app_nil_r.
        -- cbn in F2. inversion F2; subst. exfalso. apply N. apply in_or_app. right. now left.
      * left. exists x, m. subst. reflexivity.
    + destruct l as [|z l].
      * cbn in E2. destruct p as [|q p].
        -- left. exists a, []. now rewrite app_nil_r.
        -- cbn in E2. inversion E2; subst. exfalso. apply N. now left.
      * cbn in E2. inversion E2; subst. right. now exists l, y.
  - intros [(x & y & ->)|(x & y & ->)].
    + exists x, (y ++ newline :: b). now rewrite <- !app_assoc.
    + exists (a ++ newline :: x), y. now rewrite <- app_assoc.
Qed.
Lemma contains_lines : forall n p t, List.length t <= n -> p <> [] -> ~ In newline p ->
  existsb (contains p) (file_lines t) = contains p t.
Proof.
  induction n as [|n IH]; intros p t Hn Z N.
  - destruct t; [|cbn in Hn; lia]. cbn [file_lines existsb]. symmetry. destruct (contains p []) eqn:C; [|reflexivity].
    now apply (contains_nonempty p []) in C.
  - destruct (newline_split t) as [H|(l & t' & -> & H)].
    + destruct t as [|c t].
      * cbn [file_lines existsb]. symmetry. destruct (contains p []) eqn:C; [|reflexivity]. now apply (contains_nonempty p []) in C.
      * rewrite file_lines_one by (discriminate || exact H). cbn [existsb]. apply orb_false_r.
    + rewrite file_lines_more by exact H. cbn [existsb]. rewrite IH; [|rewrite app_length in Hn; cbn in Hn; lia|exact Z|exact N].
      apply eq_true_iff_eq. rewrite orb_true_iff, !contains_spec, !occurs_app by exact N.
      split; intros [K|K]; [destruct K as [K|K]|..]; auto.
      exfalso. destruct K as (x & y & K). destruct x; [|discriminate]. destruct p; [congruence|discriminate].
Qed.
Lemma scan_fold : forall ls i k g st, fold_left scan_line ls (i, k, g, st) =
  (i || existsb (contains (s_ "import versioneer")) ls,
   k || existsb (contains (s_ "versioneer.get_cmdclass()")) ls,
   g || existsb (contains (s_ "versioneer.get_version()")) ls,
   st || existsb (contains (s_ "versioneer.VCS")) ls || existsb (contains (s_ "versioneer.versionfile_source")) ls).
Proof.
  induction ls as [|l ls IH]; intros i k g st.
  - cbn [fold_left existsb]. now rewrite !orb_false_r.
  - cbn [fold_left]. unfold scan_line at 2. rewrite IH. cbn [existsb]. f_equal; [f_equal; [f_equal|]|];
    repeat match goal with |- context [contains ?p l] => generalize (contains p l); intros ? end;
    repeat match goal with |- context [existsb ?p ls] => generalize (existsb p ls); intros ? end;
    repeat match goal with b : bool |- _ => destruct b end; reflexivity.
Qed.

(** One error if one of the three phrases is missing from setup.py, one if an old
    setting is left in it. *)
Theorem c65_scan : forall (setup_py : str),
  exists missing stale : bool,
    scan_setup_py setup_py = (if missing then 1 else 0) + (if stale then 1 else 0) /\
    (missing = false <->
       occurs (s_ "import versioneer") setup_py /\ occurs (s_ "versioneer.get_cmdclass()") setup_py /\
       occurs (s_ "versioneer.get_version()") setup_py) /\
    (stale = true <->
       occurs (s_ "versioneer.VCS") setup_py \/ occurs (s_ "versioneer.versionfile_source") setup_py).
Proof.
  intros t. unfold scan_setup_py. rewrite scan_fold. cbn [orb].
  assert (NN : forall p, forallb (fun c => negb (ceqb c newline)) p = true -> ~ In newline p).
  { intros p H K. rewrite forallb_forall in H. specialize (H _ K). discriminate H. }
  rewrite !(contains_lines (List.length t) _ t (le_n _)) by (discriminate || (apply NN; reflexivity)).
  exists (negb (contains (s_ "import versioneer") t && contains (s_ "versioneer.get_cmdclass()") t && contains (s_ "versioneer.get_version()") t)),
    (contains (s_ "versioneer.VCS") t || contains (s_ "versioneer.versionfile_source") t).
  split; [|split].
  - destruct (contains (s_ "import versioneer") t && contains (s_ "versioneer.get_cmdclass()") t && contains (s_ "versioneer.get_version()") t); reflexivity.
  - rewrite negb_false_iff, !andb_true_iff, !contains_spec. tauto.
  - rewrite orb_true_iff, !contains_spec. tauto.
Qed.

(** The exit status: 0 exactly when the installation was done and setup.py passes. *)
Theorem c65_exit : forall (LONG : Config -> str) (read : CfgRead) (fs : Files),
  setup_main LONG read fs = Some (Ok 0) <->
  exists c vs t,
    read = CfgOk c /\ configured c vs /\ after_setup LONG read fs (s_ "setup.py") = Some t /\
    occurs (s_ "import versioneer") t /\ occurs (s_ "versioneer.get_cmdclass()") t /\
    occurs (s_ "versioneer.get_version()") t /\
    ~ occurs (s_ "versioneer.VCS") t /\ ~ occurs (s_ "versioneer.versionfile_source") t.
Proof.
  intros LONG read fs. unfold setup_main. split.
  - intros H. destruct (o_result (do_setup LONG read fs)) as [errors|e] eqn:R; [|discriminate].
    destruct (after_setup LONG read fs (s_ "setup.py")) as [t|] eqn:A; [|discriminate].
    destruct (Nat.eqb (errors + scan_setup_py t) 0) eqn:Z; [|discriminate].
    apply Nat.eqb_eq in Z. assert (errors = 0) by lia. assert (S : scan_setup_py t = 0) by lia. subst errors.
    destruct read as [c| | |]; try discriminate R.
    cbn [do_setup] in R. destruct (c_versionfile_source c) as [vs|] eqn:V; [|discriminate R].
    destruct (negb (str_eqb (c_VCS c) (s_ "git"))) eqn:G; [discriminate R|].
    apply negb_false_iff, str_eqb_eq in G. exists c, vs, t. split; [reflexivity|]. split; [now split|]. split; [reflexivity|].
    destruct (c65_scan t) as (m & st & E & M & ST). rewrite S in E.
    destruct m; [destruct st; discriminate E|]. destruct st; [discriminate E|].
    destruct (proj1 M eq_refl) as (X1 & X2 & X3). repeat split; try assumption; intros K;
      (assert (false = true) by (apply ST; tauto)); discriminate.
  - intros (c & vs & t & -> & Hc & A & X1 & X2 & X3 & Y1 & Y2). rewrite A.
    rewrite (do_setup_eq LONG c vs Hc). cbn [o_result].
    destruct (c65_scan t) as (m & st & E & M & ST).
    assert (m = false) by (apply M; tauto). assert (st = false) by (destruct st; [exfalso; destruct (proj1 ST eq_refl); contradiction|reflexivity]).
    subst. rewrite E. reflexivity.
Qed.

(** ** What the hypotheses are for *)

(** A version file path with white space in it: every run adds a line to MANIFEST.in again. *)
Theorem c65_blank_in_path : forall (LONG : Config -> str) (c : Config) (vs : str) (fs : Files),
  configured c vs -> (exists x, In x vs /\ blank x) ->
  vs <> f_manifest -> vs <> f_gitattributes ->
  exists front, content (after_setup LONG (CfgOk c) fs) f_manifest =
    content fs f_manifest ++ front ++ s_ "include " ++ vs ++ [newline].
Proof.
  intros LONG c vs fs Hc (x & Hx & Bx) N1 N2.
  assert (NM : member vs (simple_includes (content fs f_manifest)) = false).
  { destruct (member vs (simple_includes (content fs f_manifest))) eqn:M; [|reflexivity].
    apply member_in, includes_spec in M. destruct M as (r & _ & (U & _)). exfalso. exact (proj2 U x Hx Bx). }
  unfold after_setup. rewrite (do_setup_eq LONG c vs Hc). cbn [o_effects]. rewrite !effects_app.
  set (f1 := effects fs (e1 (LONG c) vs)). set (f2 := effects f1 (init_effects f1 (init_py vs))).
  assert (C2 : content f2 f_manifest = content fs f_manifest).
  { unfold content, f2. rewrite init_phase. destruct (str_dec f_manifest (init_py vs)) as [K|_]; [symmetry in K; now apply init_py_manifest in K|].
    unfold f1, e1. rewrite write_file. destruct (str_dec f_manifest vs); [congruence|reflexivity]. }
  unfold content at 1. rewrite attr_phase. destruct (str_dec f_manifest f_gitattributes) as [K|_]; [discriminate K|].
  rewrite manifest_phase. destruct (str_dec f_manifest f_manifest) as [_|K]; [|congruence].
  rewrite C2. unfold man_new, man_add. rewrite NM.
  exists (if member f_versioneer (simple_includes (content fs f_manifest)) then [] else include_line f_versioneer).
  reflexivity.
Qed.

(** A line for a longer name passes for the version file's own: .gitattributes stays
    as it is, without the mark. *)
Theorem c65_longer_name : forall (LONG : Config -> str) (c : Config) (vs : str) (fs : Files),
  configured c vs -> version_path vs ->
  fs f_gitattributes = Some (vs ++ s_ ".bak export-subst" ++ [newline]) ->
  after_setup LONG (CfgOk c) fs f_gitattributes = fs f_gitattributes /\
  ~ exports (content fs f_gitattributes) vs.
Proof.
  intros LONG c vs fs Hc Hvs HF. assert (U : unbroken vs) by now destruct Hvs.
  assert (L : file_lines (vs ++ s_ ".bak export-subst" ++ [newline]) = [(vs ++ s_ ".bak export-subst") ++ [newline]]).
  { rewrite app_assoc, file_lines_more; [reflexivity|]. intros K. apply in_app_or in K.
    destruct K as [K|K]; [exact (proj2 U _ K newline_blank)|]. cbn in K. repeat (destruct K as [K|K]; [discriminate K|]). destruct K. }
  split.
  - rewrite (after_target LONG c vs Hc Hvs). unfold target. destruct (str_dec f_gitattributes f_manifest) as [K|_]; [discriminate K|].
    destruct (str_dec f_gitattributes f_gitattributes) as [_|K]; [|congruence].
    unfold content. rewrite HF. unfold attr_new. replace (attr_present _ _) with true; [reflexivity|].
    symmetry. unfold attr_present. rewrite L. cbn [existsb]. rewrite orb_false_r. unfold attr_line.
    apply andb_true_intro. split.
    + apply strip_starts; [exact U|]. exists [], (s_ ".bak export-subst" ++ [newline]). split; [now rewrite <- app_assoc|intros x []].
    + apply member_in. rewrite words_strip, words_newline.
      change (s_ ".bak export-subst") with (s_ ".bak" ++ " "%char :: s_ "export-subst").
      rewrite app_assoc, words_app by reflexivity. rewrite words_unbroken.
      * change (words (s_ "export-subst")) with [s_ "export-subst"]. now left.
      * split; [destruct vs; discriminate|]. intros x K. apply in_app_or in K. destruct K as [K|K]; [now apply U|].
        cbn in K. repeat (destruct K as [<-|K]; [discriminate|]). destruct K.
  - unfold content. rewrite HF. intros (a & r & A & Hl & (d & r' & -> & D) & _).
    destruct (fun Z => file_lines_complete (a ++ vs ++ d :: r') _ Z Hl) as (X & E & HX).
    { intros Z. apply (f_equal (@List.length ascii)) in Z. rewrite !app_length in Z. cbn in Z. lia. }
    rewrite L in HX. destruct HX as [HX|[]]. subst X.
    assert (E' : exists z, vs ++ s_ ".bak export-subst" ++ z = a ++ vs ++ d :: r' \/ vs ++ s_ ".bak export-subst" ++ z = a ++ vs ++ d :: r' ++ [newline]).
    { exists [newline]. destruct E as [E|E]; [left|right]; rewrite <- app_assoc in E; rewrite E; [reflexivity|now rewrite <- !app_assoc]. }
    destruct E' as (z & E').
    assert (K : exists q, vs ++ s_ ".bak export-subst" ++ z = a ++ vs ++ d :: q) by (destruct E' as [E'|E']; [now exists r'|now exists (r' ++ [newline])]).
    destruct K as (q & K). destruct a as [|b a].
    + cbn [app] in K. apply app_inv_head in K. cbn in K. inversion K; subst. discriminate D.
    + destruct U as [Z U]. destruct vs as [|v vs]; [congruence|]. cbn in K. inversion K; subst.
      apply (U b); [now left|]. apply A. now left.
Qed.

(** A last line without its line end: the added line is glued to it, so that
    versioneer.py is not included after the run, and the next run adds a line again. *)
Theorem c65_needs_line_end : exists (LONG : Config -> str) (c : Config) (vs : str) (fs : Files),
  configured c vs /\ version_path vs /\
  ~ includes (content (after_setup LONG (CfgOk c) fs) f_manifest) (s_ "versioneer.py") /\
  ~ same_files (runs LONG c 2 fs) (after_setup LONG (CfgOk c) fs).
Proof.
  exists (fun _ => s_ "text"), (mkConfig (s_ "git") [] (Some (s_ "pkg/_version.py")) None None), (s_ "pkg/_version.py"),
    (fun p => if str_eqb p f_manifest then Some (s_ "graft docs") else None).
  split; [now split|]. split.
  { split; [|repeat split; discriminate]. split; [discriminate|]. intros x K. cbn in K.
    repeat (destruct K as [<-|K]; [discriminate|]). destruct K. }
  split.
  - intros H. apply includes_spec, member_in in H. revert H.
    match goal with |- ?b = true -> _ => assert (E : b = false) by (vm_compute; reflexivity) end.
    rewrite E. discriminate.
  - intros H. specialize (H f_manifest). revert H.
    match goal with |- ?a = ?b -> _ => assert (E : option_map (@List.length ascii) a <> option_map (@List.length ascii) b) by (vm_compute; discriminate) end.
    intros H. apply E. now rewrite H.
Qed.

(** ** This repository *)
Definition repo_files : Files := fun p =>
  if str_eqb p (s_ "MANIFEST.in") then
    Some (s_ "include README.rst" ++ [newline] ++ s_ "include LICENSE" ++ [newline] ++ s_ "include CHANGELOG.rst" ++ [newline; newline] ++
          s_ "include versioneer.py" ++ [newline] ++ s_ "include src/openscm_twolayermodel/_version.py" ++ [newline])
  else if str_eqb p (s_ ".gitattributes") then
    Some (s_ "src/openscm_twolayermodel/_version.py export-subst" ++ [newline])
  else if str_eqb p (s_ "src/openscm_twolayermodel/__init__.py") then
    Some (s_ "from ._version import get_versions" ++ [newline] ++
          s_ "from .impulse_response_model import ImpulseResponseModel  # noqa" ++ [newline] ++
          s_ "from .two_layer_model import TwoLayerModel  # noqa" ++ [newline; newline] ++
          s_ "__version__ = get_versions()[" ++ [ascii_of_nat 34] ++ s_ "version" ++ [ascii_of_nat 34] ++ s_ "]" ++ [newline] ++
          s_ "del get_versions" ++ [newline])
  else if str_eqb p (s_ "setup.py") then
    Some (s_ "import versioneer" ++ [newline] ++ s_ "cmdclass = versioneer.get_cmdclass()" ++ [newline] ++
          s_ "    version=versioneer.get_version()," ++ [newline])
  else None.
Definition repo_config : Config :=
  mkConfig (s_ "git") (s_ "pep440") (Some (s_ "src/openscm_twolayermodel/_version.py")) (Some (s_ "v")) (Some (s_ "openscm_twolayermodel-")).

(** The hypotheses hold for this repository; setup leaves MANIFEST.in and
    .gitattributes alone, adds the snippet to __init__.py and succeeds. *)
Example c65_repository :
  configured repo_config (s_ "src/openscm_twolayermodel/_version.py") /\
  version_path (s_ "src/openscm_twolayermodel/_version.py") /\
  init_py (s_ "src/openscm_twolayermodel/_version.py") = s_ "src/openscm_twolayermodel/__init__.py" /\
  ended (content repo_files f_manifest) /\ ended (content repo_files f_gitattributes) /\
  ~ longer_pattern (content repo_files f_gitattributes) (s_ "src/openscm_twolayermodel/_version.py") /\
  (forall (LONG : Config -> str),
    after_setup LONG (CfgOk repo_config) repo_files f_manifest = repo_files f_manifest /\
    after_setup LONG (CfgOk repo_config) repo_files f_gitattributes = repo_files f_gitattributes /\
    after_setup LONG (CfgOk repo_config) repo_files (s_ "src/openscm_twolayermodel/__init__.py") =
      Some (content repo_files (s_ "src/openscm_twolayermodel/__init__.py") ++ INIT_PY_SNIPPET) /\
    setup_main LONG (CfgOk repo_config) repo_files = Some (Ok 0)).
Proof.
  assert (U : unbroken (s_ "src/openscm_twolayermodel/_version.py")).
  { split; [discriminate|]. intros x K. cbn in K. repeat (destruct K as [<-|K]; [discriminate|]). destruct K. }
  assert (Hc : configured repo_config (s_ "src/openscm_twolayermodel/_version.py")) by now split.
  assert (Hv : version_path (s_ "src/openscm_twolayermodel/_version.py")) by (split; [exact U|repeat split; discriminate]).
  split; [exact Hc|]. split; [exact Hv|]. split; [vm_compute; reflexivity|].
  assert (EM : ended (content repo_files f_manifest)).
  { right. exists (removelast (content repo_files f_manifest)). vm_compute. reflexivity. }
  assert (EA : ended (content repo_files f_gitattributes)).
  { right. exists (removelast (content repo_files f_gitattributes)). vm_compute. reflexivity. }
  split; [exact EM|]. split; [exact EA|]. split.
  - intros (a & d & r & A & D & Hl).
    destruct (fun Z => file_lines_complete (a ++ s_ "src/openscm_twolayermodel/_version.py" ++ d :: r) _ Z Hl) as (X & E & HX).
    { intros Z. apply (f_equal (@List.length ascii)) in Z. rewrite !app_length in Z. cbn in Z. lia. }
    assert (L : file_lines (content repo_files f_gitattributes) = [s_ "src/openscm_twolayermodel/_version.py" ++ " "%char :: s_ "export-subst" ++ [newline]]) by (vm_compute; reflexivity).
    rewrite L in HX. destruct HX as [HX|[]]. subst X.
    destruct a as [|b a].
    + destruct E as [E|E]; cbn [app] in E; [|rewrite <- app_assoc in E]; apply app_inv_head in E; cbn in E; inversion E; subst; apply D; reflexivity.
    + exfalso. assert (B : blank b) by (apply A; now left). destruct E as [E|E]; cbn in E; inversion E; subst; discriminate B.
  - intros LONG.
    split; [|split; [|split]].
    + vm_compute. reflexivity.
    + vm_compute. reflexivity.
    + vm_compute. reflexivity.
    + vm_compute. reflexivity.
Qed.

(** An interrupted run: the hypothesis of [c65_interrupted] is met after the first
    half of the version file has been written. *)
Example c65_torn : exists fs', attempts (fun _ => s_ "half and half") repo_config repo_files fs' /\
  fs' (s_ "src/openscm_twolayermodel/_version.py") = Some (s_ "half").
Proof.
  exists (effects repo_files [Truncate (s_ "src/openscm_twolayermodel/_version.py"); Append (s_ "src/openscm_twolayermodel/_version.py") (s_ "half")]).
  split; [|reflexivity]. eapply one_more; [apply no_attempt|].
  now apply torn with (t' := s_ " and half").
Qed.
