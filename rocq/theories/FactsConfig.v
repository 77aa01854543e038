(** Reading setup.cfg (C66). *)
From Coq Require Import List String Ascii Bool Arith Lia.
From Verif Require Import Arith Version VersionStr Package PackageProof Install SpecInstall InstallProof GenInstall FactsInstall Config SpecConfig ConfigProof SetupCfg.
Import ListNotations.
Local Open Scope list_scope.

Lemma no_section : forall t, get_config_from_root (Some t) = Some CfgNoSection ->
  p_bad (read_cfg t) = false /\ ~ In sec_versioneer (p_sections (read_cfg t)).
Proof.
  intros t H. cbn [get_config_from_root] in H. destruct (p_bad (read_cfg t)); [discriminate|]. split; [reflexivity|].
  intros K. apply member_in in K. rewrite K in H. cbn [negb] in H.
  destruct (raw_option _ _ _); [|discriminate].
  repeat match type of H with context [match ?x with _ => _ end] => destruct x; try discriminate end.
Qed.

Lemma setting_of_in : forall settings n v, setting_of settings n = Some v -> exists m, In (m, v) settings.
Proof.
  induction settings as [|[m w] settings IH]; intros n v H; [discriminate|]. cbn [setting_of] in H.
  destruct (list_eq_dec Ascii.ascii_dec (small m) (small n)).
  - inversion H; subst. exists m. now left.
  - destruct (IH n v H) as (m' & K). exists m'. now right.
Qed.
Lemma rstrip_written : forall v, setting_value v -> rstrip (written v) = written v.
Proof.
  intros v (_ & _ & H). unfold rstrip. rewrite lstrip_id; [apply rev_involutive|].
  intros c K. rewrite written_last in K. apply not_blank. now apply H.
Qed.

Lemma block_sec : forall s settings e, In e (block s settings) -> key_sec e = s.
Proof.
  intros s settings e H. unfold block in H. apply in_rev in H. apply in_map_iff in H. destruct H as (x & <- & _). reflexivity.
Qed.

(** Reading the section anywhere between two parts of a text without one. *)
Lemma section_reads : forall before after settings,
  ended before -> own_section after -> proper_settings settings ->
  p_bad (read_cfg (before ++ after)) = false -> ~ In sec_versioneer (p_sections (read_cfg (before ++ after))) ->
  ~ In default_section (p_sections (read_cfg (before ++ after))) ->
  let q := read_cfg (before ++ section_text settings ++ after) in
  p_bad q = false /\ In sec_versioneer (p_sections q) /\
  forall n, raw_option q sec_versioneer (lower n) = option_map written (setting_of settings n).
Proof.
  intros before after settings EB OA PS HBad NV ND q.
  set (p1 := read_cfg before).
  assert (N1 : ~ In sec_versioneer (p_sections p1)).
  { intros K. apply NV. rewrite read_app by exact EB. now apply sections_grow_all. }
  assert (B1 : p_bad p1 = false).
  { destruct (p_bad p1) eqn:B; [|reflexivity]. rewrite read_app in HBad by exact EB.
    rewrite bad_sticky_all in HBad; [discriminate|exact B]. }
  (* the section itself *)
  set (h := mkParser (sec_versioneer :: p_sections p1) (p_entries p1) (Some sec_versioneer) None 0 false).
  set (q1 := fold_left read_line (map setting_line settings) h).
  assert (Q1 : p_sections q1 = sec_versioneer :: p_sections p1 /\ p_entries q1 = block sec_versioneer settings ++ p_entries p1 /\ p_bad q1 = false).
  { apply (read_settings settings h sec_versioneer PS eq_refl eq_refl). intros x _. cbn [p_entries h].
    now apply no_section_no_entry. }
  assert (EQ : q = fold_left read_line (file_lines after) q1).
  { unfold q. rewrite read_app by exact EB. fold p1. unfold section_text.
    replace ((s_ "[versioneer]" ++ [newline] ++ flat_map setting_line settings) ++ after)
      with (s_ "[versioneer]" ++ newline :: (flat_map setting_line settings ++ after)) by now rewrite <- !app_assoc.
    rewrite file_lines_more.
    - rewrite settings_lines by (destruct PS; assumption). cbn [fold_left]. rewrite fold_left_app.
      change (s_ "[versioneer]" ++ [newline]) with (s_ "[" ++ sec_versioneer ++ s_ "]" ++ [newline]).
      rewrite read_header; [|discriminate|intros K; cbn in K; repeat (destruct K as [K|K]; [discriminate K|]); destruct K].
      replace (member sec_versioneer (p_sections p1)) with false.
      + cbn [andb]. rewrite B1. reflexivity.
      + symmetry. destruct (member sec_versioneer (p_sections p1)) eqn:M; [|reflexivity]. apply member_in in M. contradiction.
    - intros K. cbn in K. repeat (destruct K as [K|K]; [discriminate K|]). destruct K. }
  assert (HB : forall e, In e (block sec_versioneer settings) -> key_sec e = sec_versioneer) by (intros e; apply block_sec).
  destruct Q1 as (S1 & E1 & BQ1).
  (* what follows *)
  assert (AL : exists e b, p_entries (read_cfg (before ++ after)) = e ++ b /\
                p_entries q = e ++ block sec_versioneer settings ++ b /\ p_bad q = false /\ In sec_versioneer (p_sections q)).
  { destruct OA as [->|(name & r & Z & NB & NN & ->)].
    - exists [], (p_entries p1). rewrite app_nil_r. fold p1. rewrite EQ. cbn [file_lines fold_left app].
      repeat split; try assumption. rewrite S1. now left.
    - rewrite read_app in HBad, NV by exact EB. rewrite read_app by exact EB. fold p1 in HBad, NV |- *.
      set (after := s_ "[" ++ name ++ s_ "]" ++ r) in *.
      assert (FL : exists r' ls, file_lines after = (s_ "[" ++ name ++ s_ "]" ++ r') :: ls).
      { assert (NP : ~ In newline (s_ "[" ++ name ++ s_ "]")).
        { intros K. apply in_app_or in K. destruct K as [K|K]; [destruct K as [K|[]]; discriminate K|].
          apply in_app_or in K. destruct K as [K|K]; [contradiction|destruct K as [K|[]]; discriminate K]. }
        assert (EA : after = (s_ "[" ++ name ++ s_ "]") ++ r) by (unfold after; now rewrite <- !app_assoc).
        destruct (newline_split r) as [NR|(x & y & -> & NR)].
        - exists r, []. rewrite file_lines_one; [reflexivity|discriminate|].
          rewrite EA. intros K. apply in_app_or in K. destruct K; contradiction.
        - exists (x ++ [newline]), (file_lines y). rewrite EA, app_assoc, file_lines_more.
          + now rewrite <- !app_assoc.
          + intros K. apply in_app_or in K. destruct K; contradiction. }
      destruct FL as (r' & ls & FL). rewrite EQ. rewrite FL in HBad, NV |- *. cbn [fold_left] in HBad, NV |- *.
      rewrite (read_header p1 name r' Z NB) in HBad, NV |- *. rewrite (read_header q1 name r' Z NB).
      assert (NNV : name <> sec_versioneer).
      { intros ->. apply NV. apply sections_grow_all. 
        destruct (member sec_versioneer (p_sections p1)) eqn:M; [apply member_in in M; contradiction|]. cbn [andb p_sections]. now left. }
      assert (MM : forall n, n <> sec_versioneer -> member n (p_sections q1) = member n (p_sections p1)).
      { intros n Nn. rewrite S1. unfold member. cbn [existsb]. destruct (str_eqb n sec_versioneer) eqn:K; [|reflexivity].
        apply str_eqb_eq in K. contradiction. }
      rewrite (MM name NNV).
      destruct (member name (p_sections p1) && negb (str_eqb name default_section)).
      + exfalso. rewrite bad_sticky_all in HBad; [discriminate|reflexivity].
      + assert (A : alongside (block sec_versioneer settings) (p_entries p1)
                  (mkParser (name :: p_sections p1) (p_entries p1) (Some name) None 0 (p_bad p1))
                  (mkParser (name :: p_sections q1) (p_entries q1) (Some name) None 0 (p_bad q1))).
        { repeat split; cbn [p_sections p_entries p_section p_option p_indent p_bad].
          - intros n Nn. unfold member in *. cbn [existsb]. now rewrite (MM n Nn).
          - right. rewrite S1. now left.
          - exists []. repeat split; try assumption. congruence.
          - congruence.
          - congruence. }
        assert (F := alongside_all _ _ ls _ _ HB A NV). destruct F as (_ & F2 & (e & F3 & F4 & _) & _ & _ & _ & F7 & _).
        exists e, (p_entries p1). repeat split; try assumption. rewrite F7. exact HBad. }
  destruct AL as (e & b & EP & EQ' & BQ & SQ). split; [exact BQ|]. split; [exact SQ|].
  intros n. unfold raw_option. rewrite EQ', !entry_app.
  assert (NE : forall s m, ~ In s (p_sections (read_cfg (before ++ after))) -> entry (s, m) e = None /\ entry (s, m) b = None).
  { intros s m Hs. assert (X := no_section_no_entry (before ++ after) s m Hs). rewrite EP, entry_app in X.
    destruct (entry (s, m) e); [discriminate|]. now split. }
  destruct (NE sec_versioneer (lower n) NV) as [X1 X2]. destruct (NE default_section (lower n) ND) as [Y1 Y2].
  rewrite X1, X2, Y1, Y2. destruct PS as [PS1 PS2]. rewrite (entry_block sec_versioneer n settings PS2).
  destruct (setting_of settings n) as [v|] eqn:SO.
  - cbn [option_map join_lines]. f_equal. apply rstrip_written. apply setting_of_in in SO. destruct SO as (m & K). now apply (PS1 m v).
  - cbn [option_map]. rewrite (entry_none default_section); [reflexivity|].
    intros K. apply in_map_iff in K. destruct K as (x & X & K). rewrite (HB x K) in X. discriminate X.
Qed.

(** A [versioneer] section written into a setup.cfg without one, before, between or
    after its other sections, is read back: each setting with the value it was given. *)
Theorem c66_read_back : forall (before after : str) (settings : list (str * str)),
  get_config_from_root (Some (before ++ after)) = Some CfgNoSection ->
  ~ occurs (s_ "[DEFAULT]") (before ++ after) ->
  ended before -> own_section after -> proper_settings settings ->
  get_config_from_root (Some (before ++ section_text settings ++ after)) =
  Some (match setting_of settings (s_ "VCS") with
        | None => CfgNoOption
        | Some vcs =>
            CfgOk (mkConfig vcs
              (match setting_of settings (s_ "style") with Some x => x | None => [] end)
              (setting_of settings (s_ "versionfile_source"))
              (unquoted (setting_of settings (s_ "tag_prefix")))
              (setting_of settings (s_ "parentdir_prefix")))
        end).
Proof.
  intros before after settings H ND EB OA PS.
  destruct (no_section _ H) as [HB NV].
  assert (NDS : ~ In default_section (p_sections (read_cfg (before ++ after)))) by (apply not_in_text; exact ND).
  destruct (section_reads before after settings EB OA PS HB NV NDS) as (Q1 & Q2 & Q3).
  set (q := read_cfg (before ++ section_text settings ++ after)) in *.
  cbn [get_config_from_root]. fold q. rewrite Q1, (proj2 (member_in _ _) Q2). cbn [negb].
  assert (G : forall n, get_or_none q sec_versioneer n = Some (setting_of settings n)).
  { intros n. unfold get_or_none. rewrite Q3. destruct (setting_of settings n) as [v|]; [|reflexivity].
    cbn [option_map]. unfold get_option. now rewrite interpolate_written. }
  rewrite !G, Q3. destruct (setting_of settings (s_ "VCS")) as [vcs|]; [|reflexivity]. cbn [option_map].
  unfold get_option. rewrite interpolate_written. do 3 f_equal.
  destruct (setting_of settings (s_ "tag_prefix")) as [x|]; [|reflexivity]. unfold unquoted.
  destruct (list_eq_dec Ascii.ascii_dec x (s_ "''")) as [->|N1]; [reflexivity|].
  destruct (list_eq_dec Ascii.ascii_dec x (s_ """""")) as [->|N2]; [reflexivity|].
  replace (str_eqb x (s_ "''")) with false; [replace (str_eqb x [ascii_of_nat 34; ascii_of_nat 34]) with false; [reflexivity|]|];
    symmetry.
  - destruct (str_eqb x [ascii_of_nat 34; ascii_of_nat 34]) eqn:E; [|reflexivity]. apply str_eqb_eq in E. contradiction.
  - destruct (str_eqb x (s_ "''")) eqn:E; [|reflexivity]. apply str_eqb_eq in E. contradiction.
Qed.

(** ... so that the command installs. *)
Theorem c66_then_installs : forall (LONG : Config -> str) (fs : Files) (before after vs : str) (settings : list (str * str)),
  get_config_from_root (Some (before ++ after)) = Some CfgNoSection ->
  ~ occurs (s_ "[DEFAULT]") (before ++ after) ->
  ended before -> own_section after -> proper_settings settings ->
  setting_of settings (s_ "VCS") = Some (s_ "git") -> setting_of settings (s_ "versionfile_source") = Some vs ->
  fs f_setup_cfg = Some (before ++ section_text settings ++ after) ->
  exists c, configured c vs /\ setup_command LONG fs = Some (do_setup LONG (CfgOk c) fs).
Proof.
  intros LONG fs before after vs settings H ND EB OA PS HV HS HF.
  assert (R := c66_read_back before after settings H ND EB OA PS). rewrite HV in R.
  unfold setup_command. rewrite HF, R. eexists. split; [|reflexivity]. split; [reflexivity|exact HS].
Qed.

(** ** The sample section *)
Lemma strip_newline : forall l, strip (l ++ [newline]) = strip l.
Proof.
  intros l. unfold strip, strip_by.
  assert (K : forall x, lstrip_by space_s (x ++ [newline]) = [] /\ lstrip_by space_s x = [] \/
              lstrip_by space_s (x ++ [newline]) = lstrip_by space_s x ++ [newline]).
  { induction x as [|c x IH]; [now left|]. cbn [app lstrip_by]. destruct (space_s c); [exact IH|now right]. }
  destruct (K l) as [[A B]|A].
  - now rewrite A, B.
  - rewrite A, rev_app_distr. reflexivity.
Qed.
Lemma indentation_newline : forall l, strip l <> [] -> indentation (l ++ [newline]) = indentation l.
Proof.
  intros l. induction l as [|c l IH]; intros H; [now destruct H|]. cbn [app indentation].
  destruct (space_s c) eqn:S; [|reflexivity]. f_equal. apply IH. intros K. apply H.
  unfold strip, strip_by in *. cbn [lstrip_by]. rewrite S. exact K.
Qed.
Lemma read_line_newline : forall p l, read_line p (l ++ [newline]) = read_line p l.
Proof.
  intros p l. unfold read_line. rewrite strip_newline. destruct (strip l) as [|c v] eqn:S; [reflexivity|].
  rewrite indentation_newline by congruence. reflexivity.
Qed.

(** Ending the last line, or adding an empty one, changes nothing that matters here. *)
Definition alike (p q : Parser) : Prop :=
  p_sections q = p_sections p /\ map fst (p_entries q) = map fst (p_entries p) /\ p_section q = p_section p /\ p_option q = p_option p /\ p_bad q = p_bad p.
Lemma read_more : forall t r, exists q, alike (read_cfg t) q /\ read_cfg (t ++ newline :: r) = fold_left read_line (file_lines r) q.
Proof.
  intros t r.
  assert (NL : alike (read_cfg t) (read_line (read_cfg t) [newline])).
  { unfold read_line. change (strip [newline]) with (@nil ascii). cbn iota.
    destruct (p_section (read_cfg t)) eqn:S, (p_option (read_cfg t)) eqn:O; repeat split; try assumption;
      cbn [p_entries p_section p_option]; try apply extend_keys; congruence. }
  destruct (newline_split (rev t)) as [N|(l & t' & E & N)].
  - (* no line end at all *)
    assert (NT : ~ In newline t) by (intros K; apply N; now apply in_rev in K).
    exists (read_line parser0 t). unfold read_cfg. rewrite (file_lines_more t r NT). cbn [fold_left].
    rewrite read_line_newline. split; [|reflexivity].
    destruct t as [|c t]; [repeat split|]. rewrite file_lines_one by (discriminate || exact NT). repeat split.
  - apply (f_equal (@rev ascii)) in E. rewrite rev_involutive, rev_app_distr in E. cbn [rev] in E.
    set (a := rev t' ++ [newline]) in *. set (b := rev l) in *.
    assert (NB : ~ In newline b) by (intros K; apply N; now apply in_rev in K).
    assert (EA : ended a) by (right; now exists (rev t')).
    subst t. exists (match b with [] => read_line (read_cfg (a ++ b)) [newline] | _ => read_cfg (a ++ b) end).
    rewrite <- app_assoc, (read_app a (b ++ newline :: r) EA), (file_lines_more b r NB). cbn [fold_left].
    rewrite read_line_newline. destruct b as [|c b].
    + split; [exact NL|]. rewrite app_nil_r. rewrite <- (read_line_newline _ []). reflexivity.
    + split; [repeat split|]. rewrite (read_app a (c :: b) EA), (file_lines_one (c :: b)) by (discriminate || exact NB). reflexivity.
Qed.

Lemma read_comment : forall p L, match strip L with c :: _ => ceqb c "#" || ceqb c ";" | [] => false end = true -> read_line p L = p.
Proof. intros p L H. unfold read_line. destruct (strip L) as [|c v]; [discriminate|]. now rewrite H. Qed.

Lemma entry_keys : forall k l m, map fst l = map fst m -> entry k l = None -> entry k m = None.
Proof.
  intros k l. induction l as [|[a v] l IH]; intros [|[b w] m] H E; try discriminate; [reflexivity|].
  cbn in H. inversion H; subst. cbn [entry] in *. destruct (key_eqb k b); [discriminate|]. now apply IH.
Qed.

Lemma read_sample_section : forall p, member sec_versioneer (p_sections p) = false ->
  fold_left read_line (map (fun l => s_ l ++ [newline])
    ["[versioneer]"; "#VCS = git"; "#style = pep440"; "#versionfile_source ="; "#versionfile_build ="; "#tag_prefix ="; "#parentdir_prefix ="; ""]%string) p =
  mkParser (sec_versioneer :: p_sections p) (p_entries p) (Some sec_versioneer) None 0 (p_bad p).
Proof.
  intros p MV. cbn [map fold_left].
  change (s_ "[versioneer]" ++ [newline]) with (s_ "[" ++ sec_versioneer ++ s_ "]" ++ [newline]).
  rewrite read_header; [|discriminate|intros K; cbn in K; repeat (destruct K as [K|K]; [discriminate K|]); destruct K].
  rewrite MV. cbn [andb]. cbn iota.
  repeat (rewrite read_comment by reflexivity). reflexivity.
Qed.

(** Added to a setup.cfg without the section (or to none), the sample section is
    found the next time, without the setting VCS. *)
Theorem c66_sample : forall (cfg : option str),
  get_config_from_root cfg = Some CfgNoFile \/ get_config_from_root cfg = Some CfgNoSection ->
  (forall t, cfg = Some t -> ~ occurs (s_ "[DEFAULT]") t) ->
  get_config_from_root (Some ((match cfg with Some t => t | None => [] end) ++ SAMPLE_CONFIG)) = Some CfgNoOption.
Proof.
  intros cfg H ND.
  assert (X : forall t, p_bad (read_cfg t) = false -> ~ In sec_versioneer (p_sections (read_cfg t)) ->
              ~ In default_section (p_sections (read_cfg t)) -> get_config_from_root (Some (t ++ SAMPLE_CONFIG)) = Some CfgNoOption).
  { intros t HB NV NDS. unfold SAMPLE_CONFIG.
    change ([newline] ++ ?x) with (newline :: x).
    match goal with |- context [t ++ newline :: ?r] => set (rest := r) end.
    destruct (read_more t rest) as (q & (A1 & A2 & A3 & A4 & A5) & E).
    cbn [get_config_from_root]. rewrite E.
    assert (FL : file_lines rest =
      map (fun l => s_ l ++ [newline])
        ["# See the docstring in versioneer.py for instructions. Note that you must";
         "# re-run 'versioneer.py setup' after changing this section, and commit the";
         "# resulting files."; ""; "[versioneer]"; "#VCS = git"; "#style = pep440"; "#versionfile_source =";
         "#versionfile_build ="; "#tag_prefix ="; "#parentdir_prefix ="; ""]%string) by (vm_compute; reflexivity).
    set (q' := read_line q (s_ "" ++ [newline])).
    assert (Q' : p_sections q' = p_sections q /\ map fst (p_entries q') = map fst (p_entries q) /\ p_bad q' = p_bad q).
    { unfold q', read_line. change (strip (s_ "" ++ [newline])) with (@nil ascii). cbn iota.
      destruct (p_section q), (p_option q); repeat split; cbn [p_entries]. apply extend_keys. }
    destruct Q' as (B1 & B2 & B3).
    assert (MV : member sec_versioneer (p_sections q') = false).
    { destruct (member sec_versioneer (p_sections q')) eqn:M; [|reflexivity]. apply member_in in M. rewrite B1, A1 in M. contradiction. }
    assert (FE : fold_left read_line (file_lines rest) q = mkParser (sec_versioneer :: p_sections q') (p_entries q') (Some sec_versioneer) None 0 (p_bad q')).
    { rewrite FL, <- (read_sample_section q' MV). cbn [map fold_left].
      rewrite (read_comment q (s_ "# See the docstring in versioneer.py for instructions. Note that you must" ++ [newline])),
        (read_comment q (s_ "# re-run 'versioneer.py setup' after changing this section, and commit the" ++ [newline])),
        (read_comment q (s_ "# resulting files." ++ [newline])) by reflexivity. reflexivity. }
    rewrite FE. cbn [p_bad p_sections]. replace (p_bad q') with false by congruence.
    replace (member sec_versioneer (sec_versioneer :: p_sections q')) with true by reflexivity. cbn [negb].
    unfold raw_option. cbn [p_entries].
    assert (EN : forall s n, ~ In s (p_sections (read_cfg t)) -> entry (s, n) (p_entries q') = None).
    { intros s n Hs. apply (entry_keys _ (p_entries (read_cfg t))); [congruence|]. now apply no_section_no_entry. }
    rewrite (EN sec_versioneer _ NV), (EN default_section _ NDS). reflexivity. }
  destruct cfg as [t|].
  - destruct H as [H|H].
    + cbn [get_config_from_root] in H. destruct (p_bad _); [discriminate|]. destruct (negb _); [discriminate|].
      repeat match type of H with context [match ?x with _ => _ end] => destruct x; try discriminate end.
    + destruct (no_section t H) as [HB NV]. apply X; [exact HB|exact NV|]. apply not_in_text. exact (ND t eq_refl).
  - apply (X []); [reflexivity|intros []|intros []].
Qed.

(** Without a [versioneer] section the command adds the sample once, however often it
    is run, and changes nothing else. *)
Theorem c66_sample_once : forall (LONG : Config -> str) (fs : Files) (n : nat),
  get_config_from_root (fs f_setup_cfg) = Some CfgNoFile \/ get_config_from_root (fs f_setup_cfg) = Some CfgNoSection ->
  (forall t, fs f_setup_cfg = Some t -> ~ occurs (s_ "[DEFAULT]") t) ->
  commands LONG (S n) fs f_setup_cfg = Some (content fs f_setup_cfg ++ SAMPLE_CONFIG) /\
  forall p, p <> f_setup_cfg -> commands LONG (S n) fs p = fs p.
Proof.
  intros LONG fs n H ND.
  assert (A : after_command LONG fs f_setup_cfg = Some (content fs f_setup_cfg ++ SAMPLE_CONFIG) /\
              forall p, p <> f_setup_cfg -> after_command LONG fs p = fs p).
  { unfold after_command, setup_command.
    assert (E : exists read, get_config_from_root (fs f_setup_cfg) = Some read /\ (read = CfgNoFile \/ read = CfgNoSection))
      by (destruct H as [H|H]; rewrite H; eexists; split; try reflexivity; [now left|now right]).
    destruct E as (read & E & R). rewrite E.
    destruct (proj1 (c65_unconfigured LONG fs) read R) as (_ & _ & X & Y). now split. }
  assert (F : forall m gs, gs f_setup_cfg = Some (content fs f_setup_cfg ++ SAMPLE_CONFIG) -> commands LONG m gs = gs).
  { induction m as [|m IH]; intros gs G; [reflexivity|]. cbn [commands].
    assert (U : after_command LONG gs = gs).
    { unfold after_command, setup_command. rewrite G. unfold content.
      assert (K := c66_sample (fs f_setup_cfg) H ND). destruct (fs f_setup_cfg) as [t|]; cbn iota in K; rewrite K; reflexivity. }
    rewrite U. now apply IH. }
  cbn [commands]. rewrite (F n _ (proj1 A)). exact A.
Qed.

(** A second [versioneer] section is an error: the command changes nothing. *)
Theorem c66_twice : forall (LONG : Config -> str) (fs : Files) (before rest : str),
  ended before ->
  get_config_from_root (Some before) <> Some CfgNoSection ->
  fs f_setup_cfg = Some (before ++ s_ "[versioneer]" ++ [newline] ++ rest) ->
  setup_command LONG fs = None /\ same_files (after_command LONG fs) fs.
Proof.
  intros LONG fs before rest EB H HF.
  assert (R : get_config_from_root (fs f_setup_cfg) = None).
  { rewrite HF. cbn [get_config_from_root].
    replace (p_bad (read_cfg (before ++ s_ "[versioneer]" ++ [newline] ++ rest))) with true; [reflexivity|]. symmetry.
    rewrite read_app by exact EB. change (s_ "[versioneer]" ++ [newline] ++ rest) with (s_ "[versioneer]" ++ newline :: rest).
    rewrite file_lines_more by (intros K; cbn in K; repeat (destruct K as [K|K]; [discriminate K|]); destruct K).
    cbn [fold_left]. apply bad_sticky_all.
    destruct (p_bad (read_cfg before)) eqn:B; [now apply bad_sticky|].
    change (s_ "[versioneer]" ++ [newline]) with (s_ "[" ++ sec_versioneer ++ s_ "]" ++ [newline]).
    rewrite read_header; [|discriminate|intros K; cbn in K; repeat (destruct K as [K|K]; [discriminate K|]); destruct K].
    destruct (member sec_versioneer (p_sections (read_cfg before))) eqn:M; [reflexivity|].
    exfalso. apply H. cbn [get_config_from_root]. now rewrite B, M. }
  unfold after_command, setup_command. rewrite R. split; [reflexivity|]. intros p. reflexivity.
Qed.

(** ** This repository *)
Definition repo_setup_cfg : str := List.concat (map (fun l => s_ l ++ [newline]) setup_cfg_lines).

(** setup.cfg as it is gives the configuration that Version.v and Package.v use. *)
Example c66_repository :
  get_config_from_root (Some repo_setup_cfg) = Some (CfgOk repo_config) /\
  c_style repo_config = cfg_style /\ c_versionfile_source repo_config = Some cfg_versionfile_source /\
  c_tag_prefix repo_config = Some cfg_tag_prefix /\ c_parentdir_prefix repo_config = Some cfg_parentdir_prefix.
Proof. vm_compute. repeat split. Qed.

Definition repo_settings : list (str * str) :=
  [(s_ "VCS", s_ "git"); (s_ "style", s_ "pep440"); (s_ "versionfile_source", s_ "src/openscm_twolayermodel/_version.py");
   (s_ "tag_prefix", s_ "v%"); (s_ "parentdir_prefix", [])].

(** The hypotheses of [c66_read_back] are met: a section between two others. *)
Example c66_read_back_instance :
  let before := s_ "[flake8]" ++ [newline] ++ s_ "ignore = E203," ++ [newline] ++ s_ "    W503" ++ [newline; newline] in
  let after := s_ "[metadata]" ++ [newline] ++ s_ "description-file = README.rst" ++ [newline] in
  get_config_from_root (Some (before ++ after)) = Some CfgNoSection /\
  ~ occurs (s_ "[DEFAULT]") (before ++ after) /\ ended before /\ own_section after /\ proper_settings repo_settings /\
  get_config_from_root (Some (before ++ section_text repo_settings ++ after)) =
    Some (CfgOk (mkConfig (s_ "git") (s_ "pep440") (Some (s_ "src/openscm_twolayermodel/_version.py")) (Some (s_ "v%")) (Some []))).
Proof.
  cbn zeta. split; [vm_compute; reflexivity|]. split.
  { intros K. apply contains_spec in K. vm_compute in K. discriminate K. }
  split; [right; exists (s_ "[flake8]" ++ [newline] ++ s_ "ignore = E203," ++ [newline] ++ s_ "    W503" ++ [newline]); reflexivity|]. split.
  { right. exists (s_ "metadata"), ([newline] ++ s_ "description-file = README.rst" ++ [newline]).
    repeat split; try discriminate; intros K; cbn in K; repeat (destruct K as [K|K]; [discriminate K|]); destruct K. }
  split; [|vm_compute; reflexivity]. split.
  - intros n v K. cbn in K.
    assert (UB : forall w, w <> [] -> forallb (fun c => negb (space_s c)) w = true -> unbroken w).
    { intros w Z F. split; [exact Z|]. intros c I B. rewrite forallb_forall in F. specialize (F c I). unfold blank in B. now rewrite B in F. }
    assert (NM : forall w, w <> [] -> forallb (fun c => negb (space_s c) && negb (ceqb c "=") && negb (ceqb c ":")) w = true ->
              match w with c :: _ => negb (ceqb c "#") && negb (ceqb c ";") && negb (ceqb c "[") | [] => false end = true -> setting_name w).
    { intros w Z F G. rewrite forallb_forall in F. repeat split.
      - exact Z.
      - intros c I B. specialize (F c I). unfold blank in B. now rewrite B in F.
      - intros ->. specialize (F _ H). discriminate F.
      - intros ->. specialize (F _ H). discriminate F.
      - destruct w; [discriminate|]. inversion H; subst. intros ->. discriminate G.
      - destruct w; [discriminate|]. inversion H; subst. intros ->. discriminate G.
      - destruct w; [discriminate|]. inversion H; subst. intros ->. discriminate G. }
    assert (NV : forall w, forallb (fun c => negb (space_s c)) w = true -> setting_value w).
    { intros w F. rewrite forallb_forall in F. split; [intros I; specialize (F _ I); discriminate F|]. split; intros c I B.
      - assert (J : In c w) by (apply no_space_in; now left). specialize (F c J). unfold blank in B. now rewrite B in F.
      - assert (J : In c w) by (apply no_space_in; now right). specialize (F c J). unfold blank in B. now rewrite B in F. }
    repeat (destruct K as [K|K]; [inversion K; subst; split; [apply NM; [discriminate|vm_compute; reflexivity|vm_compute; reflexivity]|apply NV; vm_compute; reflexivity]|]).
    destruct K.
  - cbn [map repo_settings fst]. repeat constructor; intros K; cbn in K; repeat (destruct K as [K|K]; [discriminate K|]); destruct K.
Qed.
