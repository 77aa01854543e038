(** Property C45: the version the package reports. *)
From Coq Require Import List String Ascii Bool Arith NArith ZArith Lia.
From Verif Require Import Arith Version SpecVersion VersionStr.
Import ListNotations.

Lemma run_prints : forall cs line, prints cs line -> no_outer_space line ->
  run_command cs = (Some line, Some 0%Z).
Proof.
  intros cs line (k & others & ->) H. induction k as [|k IH]; cbn; [|exact IH].
  unfold strip_bytes. rewrite strip_line; [reflexivity| |reflexivity].
  intros c K. apply space_b_s. now apply H.
Qed.
Lemma run_prints_rc : forall cs line, prints cs line -> snd (run_command cs) = Some 0%Z.
Proof. intros cs line (k & others & ->). induction k as [|k IH]; cbn; [reflexivity|exact IH]. Qed.
Lemma run_prints_some : forall cs line, prints cs line -> fst (run_command cs) = Some (strip_bytes (line ++ [newline])).
Proof. intros cs line (k & others & ->). induction k as [|k IH]; cbn; [reflexivity|exact IH]. Qed.
Lemma run_fails : forall cs, fails cs <-> fst (run_command cs) = None.
Proof.
  intros cs. split.
  - intros [(k & ->)|[(k & o & ->)|(k & out & rc & o & -> & H)]]; induction k as [|k IH]; cbn; auto.
    destruct (Z.eqb_spec rc 0); [contradiction|reflexivity].
  - intros H. induction cs as [|[| |out rc] cs IH]; cbn in H.
    + left. now exists 0.
    + destruct (IH H) as [(k & ->)|[(k & o & ->)|(k & out & rc & o & -> & N)]].
      * left. now exists (S k).
      * right. left. now exists (S k), o.
      * right. right. now exists (S k), out, rc, o.
    + right. left. now exists 0, cs.
    + right. right. exists 0, out, rc, cs. split; [reflexivity|]. intros ->. discriminate.
Qed.
Lemma run_fails_rc : forall cs, fails cs <-> snd (run_command cs) <> Some 0%Z.
Proof.
  intros cs. rewrite run_fails. induction cs as [|[| |out rc] cs IH]; cbn.
  - split; [discriminate|reflexivity].
  - exact IH.
  - split; [discriminate|reflexivity].
  - destruct (Z.eqb_spec rc 0); cbn; split; try congruence.
Qed.
Lemma no_space_strip : forall s, no_outer_space s -> strip s = s.
Proof. intros s H. apply strip_id. exact H. Qed.
Lemma hex_no_space : forall s, hexadecimal s -> no_outer_space s.
Proof. intros s [_ H] c K. apply no_space_in in K. now apply hex_not_special, H. Qed.
Lemma digits_no_space : forall s, digits_only s -> no_outer_space s.
Proof. intros s [_ H] c K. apply no_space_in in K. now apply digit_not_special, H. Qed.

(** Lines that end in a hexadecimal number or "-dirty". *)
Lemma last_no_space : forall pre c hex dirty, space_s c = false -> hexadecimal hex ->
  no_outer_space (c :: pre ++ hex ++ dirty_mark dirty).
Proof.
  intros pre c hex dirty Hc Hh x [K|K].
  - inversion K; subst. exact Hc.
  - destruct dirty; cbn [dirty_mark] in K.
    + change (c :: pre ++ hex ++ s_ "-dirty") with ((c :: pre) ++ hex ++ (s_ "-dirt" ++ ["y"%char])) in K.
      rewrite !app_assoc, rev_app_distr in K. cbn in K. inversion K; subst. reflexivity.
    + rewrite app_nil_r in K. destruct (in_last _ hex (proj1 Hh)) as (t & z & ->).
      rewrite app_assoc, app_comm_cons, rev_app_distr in K. cbn in K. inversion K; subst.
      apply hex_not_special, Hh. apply in_or_app. right. now left.
Qed.
Lemma dirty_endswith : forall pre hex dirty, hexadecimal hex ->
  endswith (s_ "-dirty") (pre ++ hex ++ dirty_mark dirty) = dirty /\
  (if dirty then drop_suffix (s_ "-dirty") (pre ++ hex ++ dirty_mark dirty) else pre ++ hex ++ dirty_mark dirty) = pre ++ hex.
Proof.
  intros pre hex [|] Hh; cbn [dirty_mark]; rewrite app_assoc.
  - now rewrite endswith_app, drop_suffix_app.
  - rewrite app_nil_r. split; [|reflexivity]. destruct (in_last _ hex (proj1 Hh)) as (t & z & ->).
    rewrite app_assoc. change (s_ "-dirty") with (s_ "-dirt" ++ ["y"%char]). apply endswith_last_neq.
    assert (K : In z (s_ "0123456789abcdef")) by (apply Hh; apply in_or_app; right; now left).
    apply hex_not_special in K. decompose [and] K. intros <-. discriminate.
Qed.

(** The pieces of a tagged and of an untagged checkout. *)
Lemma tagged_pieces : forall g tag n ds hex dirty full date, tagged_checkout g tag n ds hex dirty full date ->
  exists d, git_pieces_from_vcs (s_ "v") g = Ok (mkPieces full hex None dirty (Some (Some tag)) (Some (Z.of_N n)) (Some d)).
Proof.
  intros g tag n ds hex dirty full date (Hnl & Hn & Hh & Hf & (dir & Hdir) & Hdesc & Hhead & Hshow).
  unfold git_pieces_from_vcs. rewrite (run_prints_rc _ _ Hdir).
  set (pre := tag ++ s_ "-" ++ ds ++ s_ "-g").
  assert (E : s_ "v" ++ tag ++ s_ "-" ++ ds ++ s_ "-g" ++ hex ++ dirty_mark dirty = (s_ "v" ++ pre) ++ hex ++ dirty_mark dirty).
  { unfold pre. rewrite <- !app_assoc. reflexivity. }
  rewrite E in Hdesc.
  assert (Hsp : no_outer_space ((s_ "v" ++ pre) ++ hex ++ dirty_mark dirty)) by (apply last_no_space; [reflexivity|exact Hh]).
  rewrite (run_prints _ _ Hdesc Hsp). cbn [fst]. rewrite (no_space_strip _ Hsp).
  rewrite (run_prints _ _ Hhead (hex_no_space _ Hf)). cbn [fst]. rewrite (no_space_strip _ (hex_no_space _ Hf)).
  cbv zeta. destruct (dirty_endswith (s_ "v" ++ pre) hex dirty Hh) as [E1 E2]. rewrite E1, E2.
  replace (cin "-" ((s_ "v" ++ pre) ++ hex)) with true.
  2:{ symmetry. apply cin_in. unfold pre. rewrite !in_app_iff. cbn. tauto. }
  replace (match_describe ((s_ "v" ++ pre) ++ hex)) with (Some (s_ "v" ++ tag, ds, hex)).
  2:{ symmetry. apply match_describe_spec. repeat split; try apply Hh; try apply (numeral_digits _ _ Hn).
      - left. unfold pre. rewrite <- !app_assoc. reflexivity.
      - discriminate.
      - rewrite in_app_iff. intros [K|K]; [|contradiction]. revert K. notin. }
  rewrite startswith_app, py_int_digits by exact (numeral_digits _ _ Hn).
  cbn [bind]. unfold add_date. rewrite (run_prints_some _ _ Hshow). cbn [p_long p_short p_error p_dirty p_tag p_distance].
  rewrite drop_prefix_app, (numeral_val _ _ Hn). eexists. reflexivity.
Qed.
Lemma untagged_pieces : forall g n ds hex dirty full date, untagged_checkout g n ds hex dirty full date ->
  exists d, git_pieces_from_vcs (s_ "v") g = Ok (mkPieces full (firstn 7 full) None dirty (Some None) (Some (Z.of_N n)) (Some d)).
Proof.
  intros g n ds hex dirty full date (Hn & Hh & Hf & ((dir & Hdir) & Hdesc & Hhead & Hshow) & Hcount).
  unfold git_pieces_from_vcs. rewrite (run_prints_rc _ _ Hdir).
  assert (Hsp : no_outer_space (hex ++ dirty_mark dirty)).
  { destruct hex as [|c h]; [destruct Hh; congruence|]. destruct h as [|c' h].
    - destruct dirty; cbn.
      + intros x [K|K]; inversion K; subst; [|reflexivity]. apply hex_not_special, Hh. now left.
      + intros x [K|K]; inversion K; subst; apply hex_not_special, Hh; now left.
    - change (no_outer_space (c :: [] ++ (c' :: h) ++ dirty_mark dirty)). apply last_no_space.
      + apply hex_not_special, Hh. now left.
      + split; [discriminate|]. intros x K. apply Hh. now right. }
  rewrite (run_prints _ _ Hdesc Hsp). cbn [fst]. rewrite (no_space_strip _ Hsp).
  rewrite (run_prints _ _ Hhead (hex_no_space _ Hf)). cbn [fst]. rewrite (no_space_strip _ (hex_no_space _ Hf)).
  cbv zeta. destruct (dirty_endswith [] hex dirty Hh) as [E1 E2]. cbn [app] in E1, E2. rewrite E1, E2.
  replace (cin "-" hex) with false.
  2:{ symmetry. apply cin_notin. apply hex_no; [exact Hh|notin]. }
  rewrite (run_prints _ _ Hcount (digits_no_space _ (numeral_digits _ _ Hn))). cbn [fst].
  rewrite py_int_digits by exact (numeral_digits _ _ Hn).
  cbn [bind]. unfold add_date. rewrite (run_prints_some _ _ Hshow). cbn [p_long p_short p_error p_dirty p_tag p_distance].
  rewrite (numeral_val _ _ Hn). eexists. reflexivity.
Qed.

Lemma checkout_no_keywords : git_versions_from_keywords checkout_keywords (s_ "v") = Err NotThisMethod.
Proof. vm_compute. reflexivity. Qed.
Lemma get_versions_checkout : forall file git,
  get_versions checkout_keywords (Some file) git =
  or_else (do p <- git_pieces_from_vcs (s_ "v") (git (source_root file)); render p (Some (s_ "pep440")))
    (or_else (versions_from_parentdir cfg_parentdir_prefix (source_root file))
       (Ok (mkVI (s_ "0+unknown") None None (Some (s_ "unable to compute version")) None))).
Proof. intros. unfold get_versions, cfg_tag_prefix. rewrite checkout_no_keywords. reflexivity. Qed.
Lemma render_default : forall p, p_error p = None ->
  render p (Some (s_ "pep440")) = (do r <- render_pep440 p; Ok (mkVI r (Some (p_long p)) (Some (p_dirty p)) None (p_date p))).
Proof. intros p H. unfold render. rewrite H. reflexivity. Qed.

(** A tagged checkout: TAG for an unchanged release, TAG+DISTANCE.gHEX[.dirty] otherwise. *)
Theorem c45_tagged : forall file git tag n ds hex dirty full date,
  tag <> [] -> tagged_checkout (git (source_root file)) tag n ds hex dirty full date ->
  exists v, get_versions checkout_keywords (Some file) git = Ok v /\
    version_string tag n ds hex dirty (v_version v) /\
    v_full v = Some full /\ v_dirty v = Some dirty /\ v_error v = None.
Proof.
  intros file git tag n ds hex dirty full date Ht H.
  rewrite get_versions_checkout. destruct (tagged_pieces _ _ _ _ _ _ _ _ H) as (d & ->). cbn [bind].
  rewrite render_default by reflexivity. cbn [p_long p_short p_error p_dirty p_tag p_distance p_date].
  unfold render_pep440. cbn [p_long p_short p_error p_dirty p_tag p_distance p_date key bind truthy text plus_or_dot].
  destruct tag as [|c tag]; [congruence|].
  destruct H as (_ & Hn & _). rewrite (show_Z_of_N _ _ Hn).
  unfold nonzero. destruct (Z.eqb_spec (Z.of_N n) 0) as [E|E]; cbn [negb orb].
  - assert (n = 0%N) by lia. destruct dirty.
    + destruct (cin "+" (c :: tag)) eqn:P; [apply cin_in in P|apply cin_notin in P];
        (eexists; split; [reflexivity|]; cbn [v_version v_full v_dirty v_error]; repeat split); now constructor.
    + eexists; split; [reflexivity|]; cbn [v_version v_full v_dirty v_error]; repeat split. now constructor.
  - assert (n <> 0%N) by lia.
    destruct (cin "+" (c :: tag)) eqn:P; [apply cin_in in P|apply cin_notin in P];
      destruct dirty; (eexists; split; [reflexivity|]; cbn [v_version v_full v_dirty v_error]; repeat split);
      try rewrite app_nil_r; now constructor.
Qed.
(** In particular a release reports exactly its tag, without the "v". *)
Theorem c45_release : forall file git tag hex full date,
  tag <> [] -> tagged_checkout (git (source_root file)) tag 0 (s_ "0") hex false full date ->
  package_version checkout_keywords (Some file) git = Ok tag.
Proof.
  intros file git tag hex full date Ht H.
  destruct (c45_tagged _ _ _ _ _ _ _ _ _ Ht H) as (v & E & V & _). unfold package_version. rewrite E. cbn [bind].
  inversion V; [f_equal; assumption || (symmetry; assumption)|congruence|congruence].
Qed.
(** Without a tag, and for the tag "v" alone, "0+untagged" is reported. *)
Theorem c45_untagged : forall file git n ds hex dirty full date,
  untagged_checkout (git (source_root file)) n ds hex dirty full date ->
  package_version checkout_keywords (Some file) git =
    Ok (s_ "0+untagged." ++ ds ++ s_ ".g" ++ firstn 7 full ++ (if dirty then s_ ".dirty" else [])).
Proof.
  intros file git n ds hex dirty full date H. unfold package_version.
  rewrite get_versions_checkout. destruct (untagged_pieces _ _ _ _ _ _ _ H) as (d & ->). cbn [bind].
  rewrite render_default by reflexivity. unfold render_pep440.
  cbn [p_long p_short p_error p_dirty p_tag p_distance p_date key bind truthy text].
  destruct H as (Hn & _). rewrite (show_Z_of_N _ _ Hn). reflexivity.
Qed.
Theorem c45_tag_v_alone : forall file git n ds hex dirty full date,
  tagged_checkout (git (source_root file)) [] n ds hex dirty full date ->
  package_version checkout_keywords (Some file) git =
    Ok (s_ "0+untagged." ++ ds ++ s_ ".g" ++ hex ++ (if dirty then s_ ".dirty" else [])).
Proof.
  intros file git n ds hex dirty full date H. unfold package_version.
  rewrite get_versions_checkout. destruct (tagged_pieces _ _ _ _ _ _ _ _ H) as (d & ->). cbn [bind].
  rewrite render_default by reflexivity. unfold render_pep440.
  cbn [p_long p_short p_error p_dirty p_tag p_distance p_date key bind truthy text].
  destruct H as (_ & Hn & _). rewrite (show_Z_of_N _ _ Hn). reflexivity.
Qed.

(** ** Different states, different strings *)
Lemma split_at : forall (c : ascii) a b a' b', ~ In c a -> ~ In c a' -> a ++ c :: b = a' ++ c :: b' -> a = a' /\ b = b'.
Proof.
  intros c a b a' b' H H' E.
  assert (K : lpart c (a ++ c :: b) = Some (a, b)) by (apply lpart_spec; now split).
  assert (K2 : lpart c (a' ++ c :: b') = Some (a', b')) by (apply lpart_spec; now split).
  rewrite E in K. rewrite K in K2. inversion K2; subst. auto.
Qed.
Lemma tail_inj : forall ds hex (dirty : bool) ds' hex' (dirty' : bool),
  digits_only ds -> digits_only ds' -> hexadecimal hex -> hexadecimal hex' ->
  ds ++ s_ ".g" ++ hex ++ (if dirty then s_ ".dirty" else []) = ds' ++ s_ ".g" ++ hex' ++ (if dirty' then s_ ".dirty" else []) ->
  ds = ds' /\ hex = hex' /\ dirty = dirty'.
Proof.
  intros ds hex dirty ds' hex' dirty' Hd Hd' Hh Hh' E. cbn in E.
  apply split_at in E; [|apply digits_no; [assumption|notin]..]. destruct E as [-> E]. inversion E as [E']. clear E.
  assert (D : forall h, hexadecimal h -> ~ In "."%char h) by (intros; apply hex_no; [assumption|notin]).
  destruct dirty, dirty'; cbn in E'.
  - apply split_at in E'; [|auto..]. tauto.
  - exfalso. rewrite app_nil_r in E'. apply (D hex' Hh'). rewrite <- E'. apply in_or_app. right. now left.
  - exfalso. rewrite app_nil_r in E'. apply (D hex Hh). rewrite E'. apply in_or_app. right. now left.
  - rewrite !app_nil_r in E'. tauto.
Qed.
Lemma version_string_tail : forall tag n ds hex dirty v, ~ In "+"%char tag -> version_string tag n ds hex dirty v ->
  (v = tag /\ n = 0%N /\ dirty = false) \/
  ((n <> 0%N \/ dirty = true) /\ v = tag ++ "+"%char :: (ds ++ s_ ".g" ++ hex ++ (if dirty then s_ ".dirty" else []))).
Proof.
  intros tag n ds hex dirty v P V. inversion V; subst; try contradiction; auto;
    right; (split; [auto|]); try rewrite app_nil_r; reflexivity.
Qed.
(** Tag, distance and dirtiness can be read off the string, and the commit too,
    except for a release. *)
Theorem c45_injective : forall file git tag n ds hex dirty full date file' git' tag' n' ds' hex' dirty' full' date' v,
  tag <> [] -> tagged_checkout (git (source_root file)) tag n ds hex dirty full date ->
  tag' <> [] -> tagged_checkout (git' (source_root file')) tag' n' ds' hex' dirty' full' date' ->
  ~ In "+"%char tag -> ~ In "+"%char tag' ->
  package_version checkout_keywords (Some file) git = Ok v ->
  package_version checkout_keywords (Some file') git' = Ok v ->
  tag = tag' /\ n = n' /\ dirty = dirty' /\ (n <> 0%N \/ dirty = true -> hex = hex').
Proof.
  intros file git tag n ds hex dirty full date file' git' tag' n' ds' hex' dirty' full' date' v Ht H Ht' H' P P' E E'.
  destruct (c45_tagged _ _ _ _ _ _ _ _ _ Ht H) as (x & Ex & V & _).
  destruct (c45_tagged _ _ _ _ _ _ _ _ _ Ht' H') as (x' & Ex' & V' & _).
  unfold package_version in E, E'. rewrite Ex in E. rewrite Ex' in E'. cbn [bind] in E, E'.
  inversion E; subst v. inversion E' as [K]. clear E E'. rewrite K in V'.
  destruct H as (_ & Hn & Hh & _). destruct H' as (_ & Hn' & Hh' & _).
  destruct (version_string_tail _ _ _ _ _ _ P V) as [(A & A1 & A2)|(A1 & A)];
    destruct (version_string_tail _ _ _ _ _ _ P' V') as [(B & B1 & B2)|(B1 & B)].
  - split; [congruence|]. split; [congruence|]. split; [congruence|]. intros [X|X]; congruence.
  - exfalso. apply P. rewrite <- A, B. apply in_or_app. right. now left.
  - exfalso. apply P'. rewrite <- B, A. apply in_or_app. right. now left.
  - rewrite A in B. apply split_at in B; [|assumption..]. destruct B as [-> B].
    apply tail_inj in B; try assumption; try (eapply numeral_digits; eassumption).
    destruct B as (-> & -> & ->). rewrite (numeral_inj _ _ _ Hn Hn'). tauto.
Qed.
(** Nor can a tagged checkout be taken for an untagged one. *)
Theorem c45_tagged_vs_untagged : forall file git tag n ds hex dirty full date file' git' n' ds' hex' dirty' full' date' v,
  tag <> [] -> tagged_checkout (git (source_root file)) tag n ds hex dirty full date -> ~ In "+"%char tag ->
  untagged_checkout (git' (source_root file')) n' ds' hex' dirty' full' date' ->
  package_version checkout_keywords (Some file) git = Ok v ->
  package_version checkout_keywords (Some file') git' <> Ok v.
Proof.
  intros file git tag n ds hex dirty full date file' git' n' ds' hex' dirty' full' date' v Ht H P H' E E'.
  destruct (c45_tagged _ _ _ _ _ _ _ _ _ Ht H) as (x & Ex & V & _).
  unfold package_version in E. rewrite Ex in E. cbn [bind] in E. inversion E; subst v. clear E.
  rewrite (c45_untagged _ _ _ _ _ _ _ _ H') in E'.
  set (tl := ds' ++ s_ ".g" ++ firstn 7 full' ++ (if dirty' then s_ ".dirty" else [])) in E'.
  change (s_ "0+untagged." ++ tl) with (["0"%char] ++ "+"%char :: "u"%char :: (s_ "ntagged." ++ tl)) in E'.
  assert (K : ["0"%char] ++ "+"%char :: "u"%char :: (s_ "ntagged." ++ tl) = v_version x) by congruence. clear E'.
  destruct H as (_ & Hn & Hh & _).
  destruct (version_string_tail _ _ _ _ _ _ P V) as [(A & A1 & A2)|(A1 & A)].
  - apply P. rewrite <- A, <- K. right. now left.
  - rewrite A in K.
    apply split_at in K; [|intros [X|[]]; discriminate X|exact P]. destruct K as [_ K].
    pose proof (numeral_digits _ _ Hn) as [Hne Hd]. destruct ds as [|d ds]; [congruence|].
    cbn [app] in K. inversion K; subst d. specialize (Hd "u"%char (or_introl eq_refl)). revert Hd. notin.
Qed.
(** Two untagged checkouts. *)
Theorem c45_untagged_injective : forall file git n ds hex dirty full date file' git' n' ds' hex' dirty' full' date' v,
  untagged_checkout (git (source_root file)) n ds hex dirty full date ->
  untagged_checkout (git' (source_root file')) n' ds' hex' dirty' full' date' ->
  package_version checkout_keywords (Some file) git = Ok v ->
  package_version checkout_keywords (Some file') git' = Ok v ->
  n = n' /\ firstn 7 full = firstn 7 full' /\ dirty = dirty'.
Proof.
  intros file git n ds hex dirty full date file' git' n' ds' hex' dirty' full' date' v H H' E E'.
  rewrite (c45_untagged _ _ _ _ _ _ _ _ H) in E. rewrite (c45_untagged _ _ _ _ _ _ _ _ H') in E'.
  assert (F : forall f, hexadecimal f -> hexadecimal (firstn 7 f)).
  { intros f [N K]. split; [now destruct f|]. intros c I. apply K.
    rewrite <- (firstn_skipn 7 f). apply in_or_app. now left. }
  destruct H as (Hn & _ & Hf & _). destruct H' as (Hn' & _ & Hf' & _).
  assert (K : s_ "0+untagged." ++ (ds ++ s_ ".g" ++ firstn 7 full ++ (if dirty then s_ ".dirty" else [])) =
              s_ "0+untagged." ++ (ds' ++ s_ ".g" ++ firstn 7 full' ++ (if dirty' then s_ ".dirty" else []))) by congruence.
  apply app_inv_head in K. apply tail_inj in K; try (eapply numeral_digits; eassumption); try (apply F; assumption).
  destruct K as (-> & -> & ->). rewrite (numeral_inj _ _ _ Hn Hn'). auto.
Qed.

(** ** Parsing *)

(** The parse of git's output is the regular expression, and has at most one
    reading. *)
Theorem c45_parse : forall s tag num hex,
  match_describe s = Some (tag, num, hex) <-> describe_format s tag num hex.
Proof. exact match_describe_spec. Qed.
Theorem c45_parse_unique : forall s tag num hex tag' num' hex',
  describe_format s tag num hex -> describe_format s tag' num' hex' -> tag = tag' /\ num = num' /\ hex = hex'.
Proof.
  intros s tag num hex tag' num' hex' H H'. apply match_describe_spec in H. apply match_describe_spec in H'.
  rewrite H in H'. inversion H'. auto.
Qed.

(** ** No failure while rendering *)

Lemma pieces_shape : forall pre g p, git_pieces_from_vcs pre g = Ok p ->
  truthy (p_error p) = true \/ (p_error p = None /\ exists t n, p_tag p = Some t /\ p_distance p = Some n).
Proof.
  intros pre g p H. unfold git_pieces_from_vcs in H.
  destruct (snd (run_command (git_dir g))) as [[| |]|]; try discriminate.
  destruct (fst (run_command (git_describe g))) as [d|]; [|discriminate].
  destruct (fst (run_command (git_head g))) as [f|]; [|discriminate].
  cbv zeta in H. set (gd := if endswith (s_ "-dirty") (strip d) then _ else _) in H.
  assert (A : forall q r, add_date g q = Ok r -> p_error r = p_error q /\ p_tag r = p_tag q /\ p_distance r = p_distance q).
  { intros q r K. unfold add_date in K. destruct (fst (run_command (git_show g))); [|discriminate]. inversion K. auto. }
  destruct (cin "-" gd).
  - destruct (match_describe gd) as [[[t n] h]|].
    + destruct (startswith pre t).
      * destruct (py_int (Some n)) as [z|]; [|discriminate]. cbn [bind] in H. apply A in H. cbn in H.
        destruct H as (-> & -> & ->). right. split; [reflexivity|]. eauto.
      * inversion H. left. reflexivity.
    + inversion H. left. reflexivity.
  - destruct (py_int (fst (run_command (git_count g)))) as [z|]; [|discriminate]. cbn [bind] in H. apply A in H. cbn in H.
    destruct H as (-> & -> & ->). right. split; [reflexivity|]. eauto.
Qed.
Lemma renderers_ok : forall p t n, p_tag p = Some t -> p_distance p = Some n ->
  (exists r, render_pep440 p = Ok r) /\ (exists r, render_pep440_pre p = Ok r) /\ (exists r, render_pep440_post p = Ok r) /\
  (exists r, render_pep440_old p = Ok r) /\ (exists r, render_git_describe p = Ok r) /\ (exists r, render_git_describe_long p = Ok r).
Proof.
  intros p t n Ht Hn.
  unfold render_pep440, render_pep440_pre, render_pep440_post, render_pep440_old, render_git_describe, render_git_describe_long, plus_or_dot.
  rewrite Ht, Hn. cbn [key bind].
  destruct t as [[|c t]|]; cbn [truthy]; destruct (nonzero n || p_dirty p); cbn [bind]; repeat split; eexists; reflexivity.
Qed.
(** Whatever git printed, if it was read at all then every style renders it; the
    only exception is ValueError for an unknown style. *)
Theorem c45_render_never_fails : forall pre g p style, git_pieces_from_vcs pre g = Ok p -> known_style style ->
  exists v, render p style = Ok v.
Proof.
  intros pre g p style H K. unfold render. destruct (pieces_shape _ _ _ H) as [E|(E & t & n & Ht & Hn)].
  - rewrite E. eexists. reflexivity.
  - rewrite E. cbn [truthy].
    destruct (renderers_ok p t n Ht Hn) as ((r1 & R1) & (r2 & R2) & (r3 & R3) & (r4 & R4) & (r5 & R5) & (r6 & R6)).
    rewrite R1, R2, R3, R4, R5, R6.
    destruct K as [->|(s & -> & K)]; [eexists; reflexivity|]. cbn in K.
    repeat (destruct K as [<-|K]; [eexists; reflexivity|]). destruct K.
Qed.
Theorem c45_unknown_style : forall p style, ~ known_style style ->
  render p style = Err ValueError \/ (exists e, p_error p = Some e /\ e <> [] /\ render p style = Ok (mkVI (s_ "unknown") (Some (p_long p)) None (Some e) None)).
Proof.
  intros p style K. unfold render. destruct (p_error p) as [[|c e]|] eqn:E; cbn [truthy].
  1,3: left; destruct style as [s|]; [|exfalso; apply K; now left];
    assert (N : forall x, In x ["";"default";"pep440";"pep440-pre";"pep440-post";"pep440-old";"git-describe";"git-describe-long"]%string -> str_eqb s (s_ x) = false)
      by (intros x I; destruct (str_eqb s (s_ x)) eqn:B; [|reflexivity]; apply str_eqb_eq in B; subst s; exfalso; apply K; right; eexists; split; [reflexivity|]; now apply in_map);
    destruct s as [|c s]; [exfalso; apply K; right; eexists; split; [reflexivity|]; now left|];
    cbn [truthy negb orb text]; rewrite !N by (cbn; tauto); reflexivity.
  right. exists (c :: e). repeat split. discriminate.
Qed.

(** Output that is not in the format is reported as "unknown", never raised. *)
Theorem c45_unparseable : forall file git out full dir,
  prints (git_dir (git (source_root file))) dir -> prints (git_describe (git (source_root file))) out ->
  prints (git_head (git (source_root file))) full -> no_outer_space out -> hexadecimal full ->
  In "-"%char out -> ~ In newline out -> hd_error out <> Some "v"%char ->
  (forall t, out <> t ++ s_ "-dirty") ->
  exists v, get_versions checkout_keywords (Some file) git = Ok v /\
    v_version v = s_ "unknown" /\ v_full v = Some full /\ v_dirty v = None /\ (exists e, v_error v = Some e).
Proof.
  intros file git out full dir Hdir Hdesc Hhead Hsp Hf Hdash Hnl Hv Hdirty.
  rewrite get_versions_checkout. unfold git_pieces_from_vcs.
  rewrite (run_prints_rc _ _ Hdir), (run_prints _ _ Hdesc Hsp), (run_prints _ _ Hhead (hex_no_space _ Hf)).
  cbn [fst]. rewrite (no_space_strip _ Hsp), (no_space_strip _ (hex_no_space _ Hf)). cbv zeta.
  destruct (endswith (s_ "-dirty") out) eqn:E.
  { apply endswith_spec in E. destruct E as (t & E). now apply Hdirty in E. }
  replace (cin "-" out) with true by (symmetry; now apply cin_in).
  destruct (match_describe out) as [[[t n] h]|] eqn:M.
  - apply match_describe_spec in M. destruct M as ([M|M] & Ht & _).
    2:{ exfalso. apply Hnl. rewrite M. rewrite !in_app_iff. cbn. tauto. }
    destruct (startswith (s_ "v") t) eqn:S.
    + apply startswith_spec in S. destruct S as (t' & S). exfalso. apply Hv. rewrite M, S. reflexivity.
    + eexists. split; [reflexivity|]. cbn. repeat split. eexists. reflexivity.
  - eexists. split; [reflexivity|]. cbn. repeat split. eexists. reflexivity.
Qed.

(** ** When importing the package can fail *)

(** [import] never raises NotThisMethod, and raises something else exactly when
    git answers the first three questions but then either cannot give the date of
    HEAD, or (no tag) cannot give the number of commits. *)
Lemma or_else_ok : forall r v, exists w, or_else r (Ok v) = Ok w \/ (exists e, r = Err e /\ e <> NotThisMethod /\ or_else r (Ok v) = Err e).
Proof.
  intros [a|e] v; cbn.
  - now exists a; left.
  - destruct (match e with NotThisMethod => true | _ => false end) eqn:E.
    + exists v. left. now destruct e.
    + exists v. right. exists e. repeat split; [intros ->; discriminate|now destruct e].
Qed.
Lemma parentdir_total : forall n p r, (exists v, parentdir_loop n p r = Ok v) \/ parentdir_loop n p r = Err NotThisMethod.
Proof.
  induction n as [|n IH]; intros p r; cbn; [now right|].
  destruct (startswith p (basename r)); [left; eexists; reflexivity|apply IH].
Qed.
Lemma last_resort_total : forall p r v, exists w, or_else (versions_from_parentdir p r) (Ok v) = Ok w.
Proof.
  intros p r v. unfold versions_from_parentdir. destruct (parentdir_total 3 p r) as [(w & ->)| ->]; eexists; reflexivity.
Qed.
Theorem c45_import_errors : forall file git e,
  package_version checkout_keywords (Some file) git = Err e ->
  let g := git (source_root file) in
  ~ fails (git_dir g) /\ ~ fails (git_describe g) /\ ~ fails (git_head g) /\
  ((e = AttributeError /\ fails (git_show g)) \/
   (e = TypeError /\ fails (git_count g)) \/
   (e = ValueError /\ ~ fails (git_count g))).
Proof.
  intros file git e H g. unfold package_version in H. rewrite get_versions_checkout in H.
  change (git (source_root file)) with g in H.
  destruct (last_resort_total cfg_parentdir_prefix (source_root file)
    (mkVI (s_ "0+unknown") None None (Some (s_ "unable to compute version")) None)) as (w & Hw). rewrite Hw in H. clear Hw.
  destruct (git_pieces_from_vcs (s_ "v") g) as [p|x] eqn:P.
  { destruct (c45_render_never_fails _ _ _ (Some (s_ "pep440")) P) as (v & R).
    - right. eexists. split; [reflexivity|]. cbn. tauto.
    - cbn [bind] in H. rewrite R in H. discriminate. }
  cbn [bind] in H.
  assert (X : x = e /\ x <> NotThisMethod) by (destruct x; cbn in H; inversion H; split; congruence).
  destruct X as [-> X]. clear H.
  unfold git_pieces_from_vcs in P. rewrite run_fails_rc, !run_fails.
  destruct (snd (run_command (git_dir g))) as [[| |]|]; try congruence.
  destruct (fst (run_command (git_describe g))) as [d|]; [|congruence].
  destruct (fst (run_command (git_head g))) as [f|]; [|congruence].
  split; [congruence|]. split; [congruence|]. split; [congruence|].
  cbv zeta in P. set (gd := if endswith (s_ "-dirty") (strip d) then _ else _) in P.
  assert (A : forall q, add_date g q = Err e -> e = AttributeError /\ fst (run_command (git_show g)) = None).
  { intros q K. unfold add_date in K. destruct (fst (run_command (git_show g))); inversion K; auto. }
  destruct (cin "-" gd).
  - destruct (match_describe gd) as [[[t n] h]|] eqn:M; [|discriminate].
    destruct (startswith (s_ "v") t); [|discriminate].
    apply match_describe_spec in M. destruct M as (_ & _ & _ & M & _).
    rewrite (py_int_digits _ M) in P. cbn [bind] in P. left. eapply A; exact P.
  - destruct (fst (run_command (git_count g))) as [c|] eqn:C; cbn [py_int] in P.
    + destruct (py_int (Some c)) as [z|y] eqn:Y.
      * change (match strip c with [] => Err ValueError | c0 :: s' => if ceqb c0 "-" then do n <- py_int_unsigned s'; Ok (- n)%Z else if ceqb c0 "+" then py_int_unsigned s' else py_int_unsigned (c0 :: s') end) with (py_int (Some c)) in P.
        rewrite Y in P. cbn [bind] in P. left. eapply A; exact P.
      * change (match strip c with [] => Err ValueError | c0 :: s' => if ceqb c0 "-" then do n <- py_int_unsigned s'; Ok (- n)%Z else if ceqb c0 "+" then py_int_unsigned s' else py_int_unsigned (c0 :: s') end) with (py_int (Some c)) in P.
        rewrite Y in P. cbn [bind] in P. inversion P; subst y. right. right. split; [|congruence].
        cbn [py_int] in Y. destruct (strip c) as [|c0 s']; [congruence|]. unfold py_int_unsigned in Y.
        destruct (ceqb c0 "-"); [destruct (forallb _ _); cbn [bind] in Y; congruence|].
        destruct (ceqb c0 "+"); destruct (forallb _ _); congruence.
    + cbn [bind] in P. inversion P. right. left. split; reflexivity.
Qed.
(** The converse, for the two commands that are not guarded. *)
Theorem c45_import_fails : forall file git,
  let g := git (source_root file) in
  (forall tag num hex full dir,
     prints (git_dir g) dir -> prints (git_describe g) (s_ "v" ++ tag ++ s_ "-" ++ num ++ s_ "-g" ++ hex) ->
     prints (git_head g) full -> ~ In newline tag -> digits_only num -> hexadecimal hex ->
     fails (git_show g) -> package_version checkout_keywords (Some file) git = Err AttributeError) /\
  (forall hex full dir,
     prints (git_dir g) dir -> prints (git_describe g) hex -> prints (git_head g) full -> hexadecimal hex ->
     fails (git_count g) -> package_version checkout_keywords (Some file) git = Err TypeError).
Proof.
  intros file git g. split.
  - intros tag num hex full dir Hdir Hdesc Hhead Hnl Hd Hh Hs.
    unfold package_version. rewrite get_versions_checkout. unfold git_pieces_from_vcs. change (git (source_root file)) with g.
    rewrite (run_prints_rc _ _ Hdir), (run_prints_some _ _ Hhead).
    set (pre := tag ++ s_ "-" ++ num ++ s_ "-g").
    assert (E : s_ "v" ++ tag ++ s_ "-" ++ num ++ s_ "-g" ++ hex = (s_ "v" ++ pre) ++ hex ++ dirty_mark false).
    { unfold pre. cbn [dirty_mark]. rewrite app_nil_r, <- !app_assoc. reflexivity. }
    rewrite E in Hdesc.
    assert (Hsp : no_outer_space ((s_ "v" ++ pre) ++ hex ++ dirty_mark false)) by (apply last_no_space; [reflexivity|exact Hh]).
    rewrite (run_prints _ _ Hdesc Hsp). cbn [fst]. rewrite (no_space_strip _ Hsp). cbv zeta.
    destruct (dirty_endswith (s_ "v" ++ pre) hex false Hh) as [E1 E2]. rewrite E1, E2.
    replace (cin "-" ((s_ "v" ++ pre) ++ hex)) with true.
    2:{ symmetry. apply cin_in. unfold pre. rewrite !in_app_iff. cbn. tauto. }
    replace (match_describe ((s_ "v" ++ pre) ++ hex)) with (Some (s_ "v" ++ tag, num, hex)).
    2:{ symmetry. apply match_describe_spec. repeat split; try apply Hh; try apply Hd.
        - left. unfold pre. rewrite <- !app_assoc. reflexivity.
        - discriminate.
        - rewrite in_app_iff. intros [K|K]; [|contradiction]. revert K. notin. }
    rewrite startswith_app, py_int_digits by exact Hd. cbn [bind]. unfold add_date.
    apply run_fails in Hs. rewrite Hs. reflexivity.
  - intros hex full dir Hdir Hdesc Hhead Hh Hs.
    unfold package_version. rewrite get_versions_checkout. unfold git_pieces_from_vcs. change (git (source_root file)) with g.
    rewrite (run_prints_rc _ _ Hdir), (run_prints_some _ _ Hhead), (run_prints _ _ Hdesc (hex_no_space _ Hh)).
    cbn [fst]. rewrite (no_space_strip _ (hex_no_space _ Hh)). cbv zeta.
    destruct (dirty_endswith [] hex false Hh) as [E1 E2]. cbn [app dirty_mark] in E1, E2. rewrite app_nil_r in E1. rewrite E1.
    replace (cin "-" hex) with false by (symmetry; apply cin_notin; apply hex_no; [exact Hh|notin]).
    apply run_fails in Hs. rewrite Hs. reflexivity.
Qed.

(** ** The other styles *)

(** "git-describe-long" gives git's own line back, without the "v". *)
Theorem c45_describe_long_round_trip : forall g tag n ds hex dirty full date,
  tag <> [] -> tagged_checkout g tag n ds hex dirty full date ->
  exists p v, git_pieces_from_vcs (s_ "v") g = Ok p /\ render p (Some (s_ "git-describe-long")) = Ok v /\
    prints (git_describe g) (s_ "v" ++ v_version v).
Proof.
  intros g tag n ds hex dirty full date Ht H. destruct (tagged_pieces _ _ _ _ _ _ _ _ H) as (d & P).
  destruct tag as [|c tag]; [congruence|].
  eexists. eexists. split; [exact P|]. split; [reflexivity|]. cbn [v_version].
  destruct H as (_ & Hn & _ & _ & _ & Hdesc & _).
  cbn [p_tag p_distance p_dirty p_short truthy text]. rewrite (show_Z_of_N _ _ Hn).
  replace (s_ "v" ++ ((c :: tag) ++ s_ "-" ++ ds ++ s_ "-g" ++ hex) ++ (if dirty then s_ "-dirty" else []))
    with (s_ "v" ++ (c :: tag) ++ s_ "-" ++ ds ++ s_ "-g" ++ hex ++ dirty_mark dirty); [exact Hdesc|].
  rewrite <- !app_assoc. reflexivity.
Qed.

(** Every style gives the text its documentation promises. *)
Lemma nonzero_N n : nonzero (Z.of_N n) = (0 <? n)%N.
Proof. unfold nonzero. destruct (Z.eqb_spec (Z.of_N n) 0), (N.ltb_spec 0 n); try reflexivity; lia. Qed.
Theorem c45_other_styles : forall g tag n ds hex dirty full date,
  (tag <> [] -> tagged_checkout g tag n ds hex dirty full date ->
   exists p, git_pieces_from_vcs (s_ "v") g = Ok p /\
     forall style text, style_text n ds hex dirty style (Some tag) text ->
       exists v, render p (Some (s_ style)) = Ok v /\ v_version v = text) /\
  (untagged_checkout g n ds hex dirty full date ->
   exists p, git_pieces_from_vcs (s_ "v") g = Ok p /\
     forall style text, style_text n ds (firstn 7 full) dirty style None text ->
       exists v, render p (Some (s_ style)) = Ok v /\ v_version v = text).
Proof.
  intros g tag n ds hex dirty full date. split.
  - intros Ht H. destruct (tagged_pieces _ _ _ _ _ _ _ _ H) as (d & P). eexists. split; [exact P|]. clear P.
    destruct tag as [|c tag]; [congruence|]. destruct H as (_ & Hn & _).
    intros style text ST. inversion ST as [t E1 E2 E3| |t K E1 E2 E3|t K E1 E2 E3| |t E1 E2 E3| |t E1 E2 E3| |t E1 E2 E3|]; subst; clear ST.
    + eexists. split; [reflexivity|]. cbn [v_version p_tag p_distance p_dirty p_short truthy Version.text].
      rewrite (show_Z_of_N _ _ Hn), nonzero_N. destruct (0 <? n)%N; reflexivity.
    + unfold render. cbn [p_error]. apply cin_notin in K.
      change (exists v, (do r <- render_pep440_post (mkPieces full hex None dirty (Some (Some (c :: tag))) (Some (Z.of_N n)) (Some d));
        Ok (mkVI r (Some full) (Some dirty) None (Some d))) = Ok v /\ v_version v =
          (c :: tag) ++ opt ((0 <? n)%N || dirty) (s_ ".post" ++ ds ++ opt dirty (s_ ".dev0") ++ s_ "+g" ++ hex)).
      unfold render_pep440_post. cbn [p_tag p_distance p_dirty p_short truthy Version.text key bind plus_or_dot].
      rewrite (show_Z_of_N _ _ Hn), nonzero_N, K. destruct ((0 <? n)%N || dirty); (eexists; split; [reflexivity|]); cbn [v_version].
      * cbn [opt]. destruct dirty; reflexivity.
      * cbn [opt]. rewrite app_nil_r. reflexivity.
    + unfold render. cbn [p_error]. apply cin_in in K.
      change (exists v, (do r <- render_pep440_post (mkPieces full hex None dirty (Some (Some (c :: tag))) (Some (Z.of_N n)) (Some d));
        Ok (mkVI r (Some full) (Some dirty) None (Some d))) = Ok v /\ v_version v =
          (c :: tag) ++ opt ((0 <? n)%N || dirty) (s_ ".post" ++ ds ++ opt dirty (s_ ".dev0") ++ s_ ".g" ++ hex)).
      unfold render_pep440_post. cbn [p_tag p_distance p_dirty p_short truthy Version.text key bind plus_or_dot].
      rewrite (show_Z_of_N _ _ Hn), nonzero_N, K. destruct ((0 <? n)%N || dirty); (eexists; split; [reflexivity|]); cbn [v_version].
      * cbn [opt]. destruct dirty; reflexivity.
      * cbn [opt]. rewrite app_nil_r. reflexivity.
    + unfold render. cbn [p_error].
      change (exists v, (do r <- render_pep440_old (mkPieces full hex None dirty (Some (Some (c :: tag))) (Some (Z.of_N n)) (Some d));
        Ok (mkVI r (Some full) (Some dirty) None (Some d))) = Ok v /\ v_version v =
          (c :: tag) ++ opt ((0 <? n)%N || dirty) (s_ ".post" ++ ds ++ opt dirty (s_ ".dev0"))).
      unfold render_pep440_old. cbn [p_tag p_distance p_dirty p_short truthy Version.text key bind].
      rewrite (show_Z_of_N _ _ Hn), nonzero_N. destruct ((0 <? n)%N || dirty); (eexists; split; [reflexivity|]); cbn [v_version].
      * cbn [opt]. destruct dirty; reflexivity.
      * cbn [opt]. rewrite app_nil_r. reflexivity.
    + eexists. split; [reflexivity|]. cbn [v_version p_tag p_distance p_dirty p_short truthy Version.text].
      rewrite (show_Z_of_N _ _ Hn), nonzero_N, <- app_assoc. destruct (0 <? n)%N, dirty; reflexivity.
    + eexists. split; [reflexivity|]. cbn [v_version p_tag p_distance p_dirty p_short truthy Version.text].
      rewrite (show_Z_of_N _ _ Hn), <- !app_assoc. destruct dirty; reflexivity.
  - intros H. destruct (untagged_pieces _ _ _ _ _ _ _ H) as (d & P). eexists. split; [exact P|]. clear P.
    destruct H as (Hn & _).
    intros style text ST. inversion ST; subst; clear ST; (eexists; split; [reflexivity|]);
      cbn [v_version p_tag p_distance p_dirty p_short truthy Version.text];
      rewrite ?(show_Z_of_N _ _ Hn); destruct dirty; reflexivity.
Qed.

(** ** git archive *)

Lemma split_comma_list : forall r l, Forall ref_name (r :: l) ->
  split "," (comma_list (r :: l)) = r :: map (cons " "%char) l.
Proof.
  intros r l. revert r. induction l as [|r' l IH]; intros r H.
  - cbn. apply split_none. inversion H as [|? ? (_ & K & _)]. exact K.
  - inversion H as [|? ? (_ & K & _) Hl]; subst.
    change (comma_list (r :: r' :: l)) with (r ++ ","%char :: (" "%char :: comma_list (r' :: l))).
    rewrite split_app by exact K. f_equal.
    cbn [map]. specialize (IH r' Hl).
    change (split "," (" "%char :: comma_list (r' :: l))) with
      (match split "," (comma_list (r' :: l)) with [] => [[" "%char]] | w :: ws => (" "%char :: w) :: ws end).
    rewrite IH. reflexivity.
Qed.
Lemma comma_list_ends : forall l c, l <> [] -> Forall ref_name l ->
  hd_error (comma_list l) = Some c \/ hd_error (rev (comma_list l)) = Some c ->
  space_s c = false /\ c <> "("%char /\ c <> ")"%char.
Proof.
  assert (L : forall l, l <> [] -> Forall ref_name l -> comma_list l <> [] /\ exists r pre, ref_name r /\ comma_list l = pre ++ r).
  { induction l as [|r [|r' l] IH]; intros Hne H; [congruence| |].
    - inversion H as [|? ? K]; subst. split; [exact (proj1 K)|]. now exists r, [].
    - inversion H as [|? ? K Hl]; subst. destruct IH as (N & x & pre & Hx & E); [discriminate|exact Hl|].
      change (comma_list (r :: r' :: l)) with (r ++ s_ ", " ++ comma_list (r' :: l)). split.
      + destruct r; [destruct K; congruence|discriminate].
      + exists x, (r ++ s_ ", " ++ pre). split; [exact Hx|]. rewrite E, <- !app_assoc. reflexivity. }
  intros l c Hne H [K|K].
  - destruct l as [|r l]; [congruence|]. inversion H as [|? ? (N & _ & F) Hl]; subst. apply F. left.
    destruct l as [|r' l]; [exact K|].
    change (comma_list (r :: r' :: l)) with (r ++ s_ ", " ++ comma_list (r' :: l)) in K.
    rewrite hd_error_app in K by exact N. exact K.
  - destruct (L l Hne H) as (_ & r & pre & (N & _ & F) & E). apply F. right. rewrite E, rev_app_distr, hd_error_app in K; [exact K|].
    intros X. apply N. rewrite <- (rev_involutive r), X. reflexivity.
Qed.
Lemma ref_strip : forall r, ref_name r -> strip r = r.
Proof. intros r (_ & _ & F). apply strip_id. intros c K. now apply F. Qed.
Lemma ref_strip_space : forall r, ref_name r -> strip (" "%char :: r) = r.
Proof.
  intros r (_ & _ & F). change (strip (" "%char :: r)) with (strip_by space_s ([" "%char] ++ r)).
  rewrite <- (app_nil_r r) at 1. apply strip_both.
  - intros c [<-|[]]. reflexivity.
  - intros c [].
  - intros c K. now apply F.
Qed.
Lemma decoration_refs : forall refs, refs <> [] -> Forall ref_name refs ->
  map strip (split "," (strip_chars (s_ "()") (strip (decoration refs)))) = refs.
Proof.
  intros refs Hne H. unfold decoration.
  assert (E : strip (s_ " (" ++ comma_list refs ++ s_ ")") = s_ "(" ++ comma_list refs ++ s_ ")").
  { change (strip ([" "%char] ++ (s_ "(" ++ comma_list refs ++ s_ ")")) = s_ "(" ++ comma_list refs ++ s_ ")").
    unfold strip. rewrite <- (app_nil_r (s_ "(" ++ comma_list refs ++ s_ ")")) at 1. apply strip_both.
    - intros c [<-|[]]. reflexivity.
    - intros c [].
    - intros c [K|K].
      + inversion K; subst. reflexivity.
      + rewrite app_assoc, rev_app_distr in K. inversion K; subst. reflexivity. }
  rewrite E. unfold strip_chars. rewrite strip_both.
  - destruct refs as [|r l]; [congruence|]. rewrite split_comma_list by exact H. cbn [map].
    inversion H as [|? ? K Hl]; subst. rewrite (ref_strip _ K). f_equal. rewrite map_map.
    clear -Hl. induction Hl as [|x l Hx Hl IH]; [reflexivity|]. cbn [map]. rewrite (ref_strip_space _ Hx), IH. reflexivity.
  - intros c K. apply cin_in. cbn in K |- *. tauto.
  - intros c K. apply cin_in. cbn in K |- *. tauto.
  - intros c K. apply (comma_list_ends _ _ Hne H) in K. destruct K as (_ & K1 & K2).
    apply cin_notin. intros [X|[X|[]]]; congruence.
Qed.
Lemma decoration_not_format : forall refs, refs <> [] -> Forall ref_name refs -> startswith (s_ "$Format") (strip (decoration refs)) = false.
Proof.
  intros refs Hne H. unfold decoration.
  assert (E : strip (s_ " (" ++ comma_list refs ++ s_ ")") = s_ "(" ++ comma_list refs ++ s_ ")").
  { change (strip ([" "%char] ++ (s_ "(" ++ comma_list refs ++ s_ ")")) = s_ "(" ++ comma_list refs ++ s_ ")").
    unfold strip. rewrite <- (app_nil_r (s_ "(" ++ comma_list refs ++ s_ ")")) at 1. apply strip_both.
    - intros c [<-|[]]. reflexivity.
    - intros c [].
    - intros c [K|K].
      + inversion K; subst. reflexivity.
      + rewrite app_assoc, rev_app_distr in K. inversion K; subst. reflexivity. }
  rewrite E. reflexivity.
Qed.
Lemma candidates_spec : forall refs, refs <> [] -> Forall ref_name refs ->
  forall t, In t (candidate_tags (strip (decoration refs))) <->
    In (s_ "tag: " ++ t) refs \/
    ((forall x, ~ In (s_ "tag: " ++ x) refs) /\ In t refs /\ exists c, In c t /\ In c (s_ "0123456789")).
Proof.
  intros refs Hne H t. unfold candidate_tags. cbv zeta. rewrite (decoration_refs refs Hne H).
  set (tags := map (drop_prefix (s_ "tag: ")) (filter (startswith (s_ "tag: ")) refs)).
  assert (T : forall x, In x tags <-> In (s_ "tag: " ++ x) refs).
  { intros x. unfold tags. rewrite in_map_iff. split.
    - intros (y & <- & K). apply filter_In in K. destruct K as [K S]. apply startswith_spec in S. destruct S as (z & ->).
      rewrite drop_prefix_app. exact K.
    - intros K. exists (s_ "tag: " ++ x). split; [apply drop_prefix_app|]. apply filter_In. split; [exact K|apply startswith_app]. }
  destruct tags as [|y tags].
  - split.
    + intros K. apply filter_In in K. destruct K as [K D]. right. split; [|split].
      * intros x I. apply (T x) in I. destruct I.
      * exact K.
      * apply existsb_exists in D. destruct D as (c & C1 & C2). exists c. split; [exact C1|]. now apply is_digit_in.
    + intros [K|(_ & K & c & C1 & C2)].
      * exfalso. now apply (T t).
      * apply filter_In. split; [exact K|]. apply existsb_exists. exists c. split; [exact C1|]. now apply is_digit_in.
  - rewrite T. split; [tauto|]. intros [K|(K & _)]; [exact K|]. exfalso. apply (K y). apply (T y). now left.
Qed.

(** A source archive of a tagged commit reports the least version tag in
    dictionary order, independently of the order of the names and of git. *)
Theorem c45_archive : forall refs full date file git tag,
  Forall ref_name refs -> In (s_ "tag: v" ++ tag) refs ->
  (forall tag', In (s_ "tag: v" ++ tag') refs -> lex_le tag tag') ->
  exists v, get_versions (mkKw (Some (decoration refs)) (Some full) (Some date)) file git = Ok v /\
    v_version v = tag /\ v_dirty v = Some false /\ v_error v = None /\ v_full v = Some (strip full).
Proof.
  intros refs full date file git tag H Ht Hl.
  assert (Hne : refs <> []) by (intros ->; destruct Ht).
  unfold get_versions, git_versions_from_keywords. cbn [k_refnames k_full k_date key bind].
  rewrite (decoration_not_format refs Hne H).
  assert (F : first_with_prefix cfg_tag_prefix (sorted_set (candidate_tags (strip (decoration refs)))) = Some tag).
  { apply first_with_prefix_some; [apply sorted_set_sorted|]. split.
    - apply (proj2 (sorted_set_in _ _)), (proj2 (candidates_spec refs Hne H _)). left. exact Ht.
    - intros r' K. apply lex_app. apply Hl. apply (proj1 (sorted_set_in _ _)), (proj1 (candidates_spec refs Hne H _)) in K.
      destruct K as [K|(K & _)]; [exact K|]. exfalso. apply (K (s_ "v" ++ tag)). exact Ht. }
  rewrite F. eexists. split; [reflexivity|]. repeat split.
Qed.
(** The date of the commit is reported in ISO 8601, in checkouts and archives. *)
Lemma replace1_word c by_ s t : ~ In c s -> replace1 c by_ (s ++ [c] ++ t) = s ++ by_ ++ t.
Proof.
  induction s as [|x s IH]; intros H; cbn.
  - rewrite (proj2 (ceqb_eq c c) eq_refl). reflexivity.
  - replace (ceqb x c) with false.
    + f_equal. apply IH. intros K. apply H. now right.
    + symmetry. destruct (ceqb x c) eqn:E; [|reflexivity]. apply ceqb_eq in E. subst. exfalso. apply H. now left.
Qed.
Lemma word_no_blank s : word s -> ~ In " "%char s.
Proof. intros (_ & H) K. apply H in K. discriminate. Qed.
Lemma git_date_outer day time zone : word day -> word time -> word zone -> no_outer_space (git_date day time zone).
Proof.
  intros (D1 & D2) _ (Z1 & Z2) c [K|K]; unfold git_date in K.
  - destruct day as [|x day]; [congruence|]. inversion K; subst. apply D2. now left.
  - destruct (in_last _ zone Z1) as (t & z & ->).
    rewrite !app_assoc, rev_app_distr in K. cbn in K. inversion K; subst. apply Z2. apply in_or_app. right. now left.
Qed.
Lemma iso_date_ok day time zone : word day -> word time -> word zone -> iso_date (git_date day time zone) = iso_8601 day time zone.
Proof.
  intros D T Z. unfold iso_date. rewrite (no_space_strip _ (git_date_outer _ _ _ D T Z)). unfold git_date, iso_8601.
  change (s_ " ") with [" "%char]. rewrite replace1_word by (apply word_no_blank, D).
  replace (day ++ s_ "T" ++ time ++ [" "%char] ++ zone) with ((day ++ s_ "T" ++ time) ++ [" "%char] ++ zone) by (rewrite <- !app_assoc; reflexivity).
  rewrite replace1_word; [cbn [app]; rewrite <- !app_assoc; reflexivity|].
  rewrite !in_app_iff. intros [K|[K|K]]; [now apply word_no_blank in K| |now apply word_no_blank in K]. revert K. notin.
Qed.
Lemma pieces_date : forall pre g p date, git_pieces_from_vcs pre g = Ok p -> p_error p = None ->
  prints (git_show g) date -> no_outer_space date -> p_date p = Some (iso_date date).
Proof.
  intros pre g p date H He Hd Hs.
  assert (A : forall q, add_date g q = Ok p -> p_date p = Some (iso_date date)).
  { intros q K. unfold add_date in K. rewrite (run_prints _ _ Hd Hs) in K. cbn [fst] in K. injection K as <-. cbn [p_date].
    f_equal. f_equal. apply no_space_strip, Hs. }
  unfold git_pieces_from_vcs in H.
  destruct (snd (run_command (git_dir g))) as [[| |]|]; try discriminate.
  destruct (fst (run_command (git_describe g))) as [d|]; [|discriminate].
  destruct (fst (run_command (git_head g))) as [f|]; [|discriminate]. cbv zeta in H.
  destruct (cin "-" _).
  - destruct (match_describe _) as [[[ft num] hex]|]; [|injection H as <-; discriminate].
    destruct (startswith pre ft); [|injection H as <-; discriminate].
    destruct (py_int (Some num)) as [n|]; [|discriminate]. cbn [bind] in H. exact (A _ H).
  - destruct (py_int (fst (run_command (git_count g)))) as [n|]; [|discriminate]. cbn [bind] in H. exact (A _ H).
Qed.
Theorem c45_date : forall file git tag n ds hex dirty full day time zone,
  word day -> word time -> word zone ->
  (tagged_checkout (git (source_root file)) tag n ds hex dirty full (git_date day time zone) \/
   untagged_checkout (git (source_root file)) n ds hex dirty full (git_date day time zone) ->
   exists v, get_versions checkout_keywords (Some file) git = Ok v /\ v_date v = Some (iso_8601 day time zone)) /\
  (forall refs, Forall ref_name refs -> In (s_ "tag: v" ++ tag) refs ->
   exists v, get_versions (mkKw (Some (decoration refs)) (Some full) (Some (git_date day time zone))) (Some file) git = Ok v /\
     v_date v = Some (iso_8601 day time zone)).
Proof.
  intros file git tag n ds hex dirty full day time zone D T Z. split.
  - intros H.
    assert (K : exists p, git_pieces_from_vcs (s_ "v") (git (source_root file)) = Ok p /\ p_error p = None /\
      prints (git_show (git (source_root file))) (git_date day time zone)).
    { destruct H as [H|H].
      - destruct (tagged_pieces _ _ _ _ _ _ _ _ H) as (d & P). eexists. split; [exact P|]. split; [reflexivity|]. apply H.
      - destruct (untagged_pieces _ _ _ _ _ _ _ H) as (d & P). eexists. split; [exact P|]. split; [reflexivity|]. apply H. }
    destruct K as (p & P & E & S). rewrite get_versions_checkout, P. cbn [bind].
    pose proof (pieces_date _ _ _ _ P E S (git_date_outer _ _ _ D T Z)) as PD. rewrite (iso_date_ok _ _ _ D T Z) in PD.
    destruct (c45_render_never_fails _ _ _ (Some (s_ "pep440")) P) as (v & R).
    { right. eexists. split; [reflexivity|]. cbn. tauto. }
    rewrite R. cbn [or_else]. exists v. split; [reflexivity|].
    rewrite render_default in R by exact E. destruct (render_pep440 p) as [r|]; [|discriminate]. injection R as <-. exact PD.
  - intros refs H Ht. assert (Hne : refs <> []) by (intros ->; destruct Ht).
    unfold get_versions, git_versions_from_keywords. cbn [k_refnames k_full k_date key bind].
    rewrite (decoration_not_format refs Hne H).
    destruct (first_with_prefix cfg_tag_prefix (sorted_set (candidate_tags (strip (decoration refs))))) as [r|] eqn:F.
    + eexists. split; [reflexivity|]. cbn [v_date]. rewrite (iso_date_ok _ _ _ D T Z). reflexivity.
    + exfalso. rewrite first_with_prefix_none in F. apply (F tag).
      apply (proj2 (sorted_set_in _ _)), (proj2 (candidates_spec refs Hne H _)). left. exact Ht.
Qed.
(** Without "tag: " entries (git before 1.8.3): names with a digit. *)
Theorem c45_old_archive : forall refs full date file git tag,
  Forall ref_name refs -> (forall x, ~ In (s_ "tag: " ++ x) refs) ->
  In (s_ "v" ++ tag) refs -> (exists c, In c tag /\ In c (s_ "0123456789")) ->
  (forall tag', In (s_ "v" ++ tag') refs -> (exists c, In c tag' /\ In c (s_ "0123456789")) -> lex_le tag tag') ->
  package_version (mkKw (Some (decoration refs)) (Some full) (Some date)) file git = Ok tag.
Proof.
  intros refs full date file git tag H Hno Ht (c & C1 & C2) Hl.
  assert (Hne : refs <> []) by (intros ->; destruct Ht).
  unfold package_version, get_versions, git_versions_from_keywords. cbn [k_refnames k_full k_date key bind].
  rewrite (decoration_not_format refs Hne H).
  assert (F : first_with_prefix cfg_tag_prefix (sorted_set (candidate_tags (strip (decoration refs)))) = Some tag).
  { apply first_with_prefix_some; [apply sorted_set_sorted|]. split.
    - apply (proj2 (sorted_set_in _ _)), (proj2 (candidates_spec refs Hne H _)). right. split; [exact Hno|]. split; [exact Ht|].
      exists c. split; [right; exact C1|exact C2].
    - intros r' K. apply lex_app. apply (proj1 (sorted_set_in _ _)), (proj1 (candidates_spec refs Hne H _)) in K.
      destruct K as [K|(_ & K & d & D1 & D2)]; [now apply Hno in K|]. apply Hl; [exact K|].
      destruct D1 as [<-|D1]; [exfalso; revert D2; notin|]. now exists d. }
  rewrite F. reflexivity.
Qed.
(** No name that could be a version: "0+unknown", with the commit kept. *)
Theorem c45_archive_unknown : forall refs full date file git,
  refs <> [] -> Forall ref_name refs ->
  (forall tag, ~ In (s_ "tag: v" ++ tag) refs) ->
  (forall tag, In (s_ "v" ++ tag) refs -> (forall c, In c tag -> ~ In c (s_ "0123456789")) \/ exists x, In (s_ "tag: " ++ x) refs) ->
  exists v, get_versions (mkKw (Some (decoration refs)) (Some full) (Some date)) file git = Ok v /\
    v_version v = s_ "0+unknown" /\ v_full v = Some (strip full) /\ (exists e, v_error v = Some e).
Proof.
  intros refs full date file git Hne H Ht Hv.
  unfold get_versions, git_versions_from_keywords. cbn [k_refnames k_full k_date key bind].
  rewrite (decoration_not_format refs Hne H).
  assert (F : first_with_prefix cfg_tag_prefix (sorted_set (candidate_tags (strip (decoration refs)))) = None).
  { apply first_with_prefix_none. intros r K. apply (proj1 (sorted_set_in _ _)), (proj1 (candidates_spec refs Hne H _)) in K.
    destruct K as [K|(N & K & c & C1 & C2)].
    - now apply (Ht r).
    - destruct (Hv r K) as [X|(x & X)]; [|now apply N in X].
      destruct C1 as [<-|C1]; [revert C2; notin|]. now apply (X c). }
  rewrite F. eexists. split; [reflexivity|]. cbn. repeat split. eexists. reflexivity.
Qed.
(** Expanded keywords never lead to an exception, whatever their text. *)
Theorem c45_archive_total : forall refnames full date file git,
  startswith (s_ "$Format") (strip refnames) = false ->
  exists v, get_versions (mkKw (Some refnames) (Some full) (Some date)) file git = Ok v.
Proof.
  intros refnames full date file git H. unfold get_versions, git_versions_from_keywords.
  cbn [k_refnames k_full k_date key bind]. rewrite H.
  destruct (first_with_prefix _ _); eexists; reflexivity.
Qed.

(** ** Unpacked source distribution without git *)

Lemma dirname_app : forall d f, d <> [] -> (exists c t, d = t ++ [c] /\ c <> "/"%char) -> ~ In "/"%char f ->
  dirname (d ++ s_ "/" ++ f) = d.
Proof.
  intros d f Hd (c & t & E & Hc) Hf. unfold dirname.
  replace (rpart "/" (d ++ s_ "/" ++ f)) with (Some (d, f)).
  2:{ symmetry. apply rpart_spec. now split. }
  cbv zeta. rewrite rev_app_distr. cbn [rev app s_ list_ascii_of_string lstrip_by].
  replace (ceqb "/" "/") with true by reflexivity.
  rewrite lstrip_id.
  - rewrite rev_involutive. destruct d; [congruence|reflexivity].
  - intros x K. rewrite E, rev_app_distr in K. cbn in K. inversion K; subst. apply ceqb_neq. congruence.
Qed.
Lemma basename_app : forall d f, ~ In "/"%char f -> basename (d ++ s_ "/" ++ f) = f.
Proof.
  intros d f Hf. unfold basename. replace (rpart "/" (d ++ s_ "/" ++ f)) with (Some (d, f)); [reflexivity|].
  symmetry. apply rpart_spec. now split.
Qed.
(** The name of the directory the archive was unpacked into decides, when git
    cannot describe it. *)
Theorem c45_parent_directory : forall dir version git,
  ~ In "/"%char version ->
  let root := dir ++ s_ "/openscm_twolayermodel-" ++ version in
  fails (git_dir (git root)) \/ fails (git_describe (git root)) ->
  package_version checkout_keywords (Some (root ++ s_ "/src/openscm_twolayermodel/_version.py")) git = Ok version.
Proof.
  intros dir version git Hv root Hg.
  assert (R : source_root (root ++ s_ "/src/openscm_twolayermodel/_version.py") = root).
  { unfold source_root.
    replace (split "/" cfg_versionfile_source) with [s_ "src"; s_ "openscm_twolayermodel"; s_ "_version.py"] by reflexivity.
    cbn [fold_left].
    replace (dirname (root ++ s_ "/src/openscm_twolayermodel/_version.py")) with (root ++ s_ "/src/openscm_twolayermodel").
    2:{ change (s_ "/src/openscm_twolayermodel/_version.py") with (s_ "/src/openscm_twolayermodel" ++ s_ "/" ++ s_ "_version.py").
        symmetry. rewrite (app_assoc root). apply dirname_app.
        - now destruct root.
        - exists "l"%char, (root ++ s_ "/src/openscm_twolayermode"). split; [now rewrite <- app_assoc|discriminate].
        - notin. }
    replace (dirname (root ++ s_ "/src/openscm_twolayermodel")) with (root ++ s_ "/src").
    2:{ change (s_ "/src/openscm_twolayermodel") with (s_ "/src" ++ s_ "/" ++ s_ "openscm_twolayermodel").
        symmetry. rewrite (app_assoc root). apply dirname_app.
        - now destruct root.
        - exists "c"%char, (root ++ s_ "/sr"). split; [now rewrite <- app_assoc|discriminate].
        - notin. }
    change (s_ "/src") with (s_ "/" ++ s_ "src"). apply dirname_app.
    - unfold root. now destruct dir.
    - unfold root. destruct version as [|c version].
      + exists "-"%char, (dir ++ s_ "/openscm_twolayermodel"). split; [|discriminate]. rewrite app_nil_r, <- app_assoc. reflexivity.
      + destruct (in_last _ (c :: version)) as (t & z & E); [discriminate|].
        exists z, (dir ++ s_ "/openscm_twolayermodel-" ++ t). rewrite E. split; [now rewrite <- !app_assoc|].
        intros ->. apply Hv. rewrite E. apply in_or_app. right. now left.
    - notin. }
  unfold package_version. rewrite get_versions_checkout, R.
  assert (G : git_pieces_from_vcs (s_ "v") (git root) = Err NotThisMethod).
  { unfold git_pieces_from_vcs. destruct Hg as [Hg|Hg].
    - apply run_fails_rc in Hg. destruct (snd (run_command (git_dir (git root)))) as [[| |]|]; try reflexivity. congruence.
    - apply run_fails in Hg. rewrite Hg. destruct (snd (run_command (git_dir (git root)))) as [[| |]|]; reflexivity. }
  rewrite G. cbn [bind or_else].
  assert (B : basename root = s_ "openscm_twolayermodel-" ++ version).
  { unfold root. change (s_ "/openscm_twolayermodel-" ++ version) with (s_ "/" ++ (s_ "openscm_twolayermodel-" ++ version)).
    apply basename_app. rewrite in_app_iff. intros [K|K]; [revert K; notin|contradiction]. }
  unfold versions_from_parentdir, parentdir_loop. rewrite B. unfold cfg_parentdir_prefix.
  rewrite startswith_app, drop_prefix_app. reflexivity.
Qed.

(** ** Instances *)
Definition ex_git (describe : string) : Git :=
  mkGit [Ran (s_ ".git" ++ [newline]) 0] [Ran (s_ describe ++ [newline]) 0]
        [Ran (s_ "abcdef0123456789" ++ [newline]) 0] [Ran (s_ "42" ++ [newline]) 0]
        [Ran (s_ "2020-10-08 10:00:00 +1100" ++ [newline]) 0].
Definition ex_file : str := s_ "/home/me/repo/src/openscm_twolayermodel/_version.py".
Lemma ex_prints : forall x, prints [Ran (s_ x ++ [newline]) 0] (s_ x).
Proof. intros. now exists 0, []. Qed.
Lemma ex_full : hexadecimal (s_ "abcdef0123456789").
Proof. split; [discriminate|]. intros c H. cbn in H |- *. tauto. Qed.
Lemma ex_hex : hexadecimal (s_ "abcdef0").
Proof. split; [discriminate|]. intros c H. cbn in H |- *. tauto. Qed.
Example c45_ex_tagged : tagged_checkout (ex_git "v0.2-beta-12-gabcdef0-dirty") (s_ "0.2-beta") 12 (s_ "12") (s_ "abcdef0") true
    (s_ "abcdef0123456789") (s_ "2020-10-08 10:00:00 +1100") /\
  package_version checkout_keywords (Some ex_file) (fun _ => ex_git "v0.2-beta-12-gabcdef0-dirty") = Ok (s_ "0.2-beta+12.gabcdef0.dirty").
Proof.
  split; [|vm_compute; reflexivity]. split; [notin|]. split.
  { change 12%N with (10 * 1 + 2)%N. change (s_ "12") with ([ascii_of_N (48 + 1)] ++ [ascii_of_N (48 + 2)]).
    apply Num_more; [reflexivity|reflexivity|]. apply Num_digit. reflexivity. }
  split; [exact ex_hex|]. split; [exact ex_full|].
  split; [exists (s_ ".git"); apply ex_prints|]. repeat split; apply ex_prints.
Qed.
Example c45_ex_untagged : untagged_checkout (ex_git "abcdef0") 42 (s_ "42") (s_ "abcdef0") false
    (s_ "abcdef0123456789") (s_ "2020-10-08 10:00:00 +1100") /\
  package_version checkout_keywords (Some ex_file) (fun _ => ex_git "abcdef0") = Ok (s_ "0+untagged.42.gabcdef0").
Proof.
  split; [|vm_compute; reflexivity]. split.
  { change 42%N with (10 * 4 + 2)%N. change (s_ "42") with ([ascii_of_N (48 + 4)] ++ [ascii_of_N (48 + 2)]).
    apply Num_more; [reflexivity|reflexivity|]. apply Num_digit. reflexivity. }
  split; [exact ex_hex|]. split; [exact ex_full|]. split; [|apply ex_prints].
  split; [exists (s_ ".git"); apply ex_prints|]. repeat split; apply ex_prints.
Qed.
Example c45_ex_date : word (s_ "2020-10-08") /\ word (s_ "10:00:00") /\ word (s_ "+1100") /\
  git_date (s_ "2020-10-08") (s_ "10:00:00") (s_ "+1100") = s_ "2020-10-08 10:00:00 +1100" /\
  iso_8601 (s_ "2020-10-08") (s_ "10:00:00") (s_ "+1100") = s_ "2020-10-08T10:00:00+1100".
Proof.
  repeat split; try discriminate; intros c H; cbn in H; repeat (destruct H as [<-|H]; [reflexivity|]); destruct H.
Qed.
(** Tags that contain a "+" are not covered by [C45_injective]: a clean release
    and a development version with the same string. *)
Example c45_plus_collision :
  package_version checkout_keywords (Some ex_file) (fun _ => ex_git "v1+1.gab-0-gcd") =
  package_version checkout_keywords (Some ex_file) (fun _ => ex_git "v1-1-gab").
Proof. vm_compute. reflexivity. Qed.
(** Dictionary order, not version order: 1.10 comes before 1.9, and 2.0 before 2.0rc1. *)
Example c45_ex_archive :
  Forall ref_name (map s_ ["HEAD -> master"; "tag: v1.9"; "tag: v1.10"]%string) /\
  package_version (mkKw (Some (decoration (map s_ ["HEAD -> master"; "tag: v1.9"; "tag: v1.10"]%string))) (Some (s_ "abc")) (Some (s_ "d")))
    None (fun _ => ex_git "") = Ok (s_ "1.10") /\
  package_version (mkKw (Some (decoration (map s_ ["tag: v2.0rc1"; "tag: v2.0"]%string))) (Some (s_ "abc")) (Some (s_ "d")))
    None (fun _ => ex_git "") = Ok (s_ "2.0").
Proof.
  split; [|split; vm_compute; reflexivity].
  assert (R : forall r, r <> [] -> ~ In ","%char r -> forallb (fun c => negb (space_s c || ceqb c "(" || ceqb c ")")) (firstn 1 r ++ firstn 1 (rev r)) = true -> ref_name r).
  { intros r N C F. split; [exact N|]. split; [exact C|]. intros c K.
    rewrite forallb_forall in F. specialize (F c).
    assert (I : In c (firstn 1 r ++ firstn 1 (rev r))).
    { apply in_or_app. destruct K as [K|K]; [left; destruct r|right; destruct (rev r)]; inversion K; subst; now left. }
    apply F in I. apply negb_true_iff, orb_false_iff in I. destruct I as [I I3]. apply orb_false_iff in I. destruct I as [I1 I2].
    apply ceqb_neq in I2. apply ceqb_neq in I3. auto. }
  cbn [map]. repeat apply Forall_cons; try apply Forall_nil; (apply R; [discriminate|notin|vm_compute; reflexivity]).
Qed.
Example c45_ex_parent_directory :
  package_version checkout_keywords (Some (s_ "/tmp/openscm_twolayermodel-0.2.1/src/openscm_twolayermodel/_version.py"))
    (fun _ => mkGit [NotFound; NotFound] [] [] [] []) = Ok (s_ "0.2.1").
Proof. vm_compute. reflexivity. Qed.
Example c45_ex_import_fails :
  let git := fun _ : str => mkGit [Ran (s_ ".git") 0] [Ran (s_ "v1-0-gab" ++ [newline]) 0] [Ran (s_ "abc") 0] [] [Ran [] 128] in
  package_version checkout_keywords (Some ex_file) git = Err AttributeError.
Proof. vm_compute. reflexivity. Qed.
Example c45_ex_unparseable :
  package_version checkout_keywords (Some ex_file) (fun _ => ex_git "release-1-gabcdef0") = Ok (s_ "unknown").
Proof. vm_compute. reflexivity. Qed.
