(** Property C57: the version setup.py computes, the version file it writes into
    source distributions and wheels, and what importing the installed package reports. *)
From Coq Require Import List String Ascii Bool Arith NArith ZArith Lia Permutation.
From Verif Require Import Arith Version SpecVersion VersionStr VersionFile Package SpecPackage PackageProof FactsVersion.
Import ListNotations.

(** ** The written file *)

(** Reading the written file back in setup.py gives the dictionary it was written
    for, whatever characters its texts contain. *)
Theorem c57_file_round_trip : forall d, NoDup (map fst d) ->
  exists d', versions_from_file (Some (short_version_py d)) = Some (Ok d') /\ same_dict d' d.
Proof.
  intros d H. exists (dsort d). split; [now apply from_file_short|]. apply perm_same; [exact H|apply dsort_perm].
Qed.

(** So does [get_versions] of versioneer.py in a tree with such a file: in whatever
    directory and whatever git says there. *)
Theorem c57_rebuild : forall d, NoDup (map fst d) ->
  exists d', same_dict d' d /\
    forall root git, build_versions (Some (short_version_py d)) root git = Some (Ok d').
Proof.
  intros d H. exists (dsort d). split; [apply perm_same; [exact H|apply dsort_perm]|]. intros. now apply build_short.
Qed.

Lemma short_sort : forall d, short_version_py (dsort d) = short_version_py d.
Proof. intros d. unfold short_version_py, json_dumps, dumps_with. now rewrite dsort_idem. Qed.

(** Building from a tree with such a file writes the same file, byte for byte. *)
Theorem c57_rewrite_identical : forall d f, NoDup (map fst d) -> rebuilt (short_version_py d) f -> f = short_version_py d.
Proof.
  intros d f H R. induction R as [|f1 f2 root git R IH B]; [reflexivity|]. subst f1.
  assert (E : built_version_py (Some (short_version_py d)) root git = Some (Ok (short_version_py (dsort d)))).
  { unfold built_version_py. now rewrite build_short by exact H. }
  rewrite E, short_sort in B. congruence.
Qed.

(** Importing the written file gives the same dictionary when its texts are plain. *)
Theorem c57_import : forall d, NoDup (map fst d) -> plain_dict d ->
  exists d', import_short (short_version_py d) = Some (Ok d') /\ same_dict d' d.
Proof.
  intros d H P. exists (dsort d). split; [now apply import_short_ok|]. apply perm_same; [exact H|apply dsort_perm].
Qed.

(** ** Checkouts and archives *)

Lemma quotable_literal : forall s, quotable s -> literal_value s = Some s.
Proof.
  intros s H. unfold literal_value. replace (forallb _ s) with true; [reflexivity|]. symmetry. apply forallb_forall.
  intros c K. destruct (H c K) as (A & B & C). apply andb_true_intro. split; [apply andb_true_intro; split|].
  - now apply Nat.leb_le.
  - apply negb_true_iff. now apply ceqb_neq.
  - apply negb_true_iff. now apply ceqb_neq.
Qed.
Lemma quotable_one_line : forall s, quotable s -> one_line s.
Proof. intros s H K. destruct (H _ K) as (A & _). cbv in A. lia. Qed.

(** In a tree with the file of a checkout or of an archive, [setup.py] computes
    the dictionary that importing the package from that tree computes, and fails
    with the same exception when that fails. *)
Theorem c57_setup_as_import : forall refnames full date root git,
  quotable refnames -> quotable full -> quotable date -> directory root ->
  build_versions (Some (long_version_py refnames full date)) root (git root) =
  import_long refnames full date (Some (version_path root)) git.
Proof.
  intros r f d root git Hr Hf Hd R. unfold import_long. rewrite !quotable_literal by assumption.
  apply build_long; auto using quotable_one_line.
Qed.

(** setup.py reads exactly the keyword texts that git archive put into the file. *)
Theorem c57_keywords : forall refnames full date,
  ~ In newline refnames -> ~ In newline full -> ~ In newline date ->
  git_get_keywords (Some (long_version_py refnames full date)) = mkKw (Some refnames) (Some full) (Some date).
Proof. intros. now apply long_keywords. Qed.

(** ** From the source tree to the installed package *)

Lemma dict_nodup : forall v, NoDup (map fst (to_dict v)).
Proof.
  intros v. cbn [to_dict map fst].
  repeat (apply NoDup_cons; [intros K; cbn [In] in K; repeat (destruct K as [K|K]; [discriminate K|]); exact K|]).
  apply NoDup_nil.
Qed.
Lemma plain_const : forall s, forallb (fun c => Nat.leb 32 (nat_of_ascii c) && negb (ceqb c """") && negb (ceqb c "\") && negb (ceqb c "'")) s = true -> plain_text s.
Proof.
  intros s H. rewrite forallb_forall in H. split.
  - intros c K. apply H in K. rewrite !andb_true_iff, !negb_true_iff in K. destruct K as [[[A B] C] _].
    apply Nat.leb_le in A. apply ceqb_neq in B. apply ceqb_neq in C. auto.
  - intros a b E. specialize (H "'"%char). rewrite E in H.
    assert (I : In "'"%char (a ++ s_ "'''" ++ b)) by (apply in_or_app; right; now left).
    apply H in I. discriminate I.
Qed.
Lemma plain_to_dict : forall v, plain_info v -> plain_dict (to_dict v).
Proof.
  intros v (P1 & P2 & P3 & P4) k x K. cbn [to_dict In] in K.
  destruct K as [K|[K|[K|[K|[K|[]]]]]]; inversion K; subst; (split; [apply plain_const; reflexivity|]).
  - exact P1.
  - destruct (v_full v) eqn:E; [exact (P2 _ eq_refl)|exact I].
  - destruct (v_dirty v); exact I.
  - destruct (v_error v) eqn:E; [exact (P3 _ eq_refl)|exact I].
  - destruct (v_date v) eqn:E; [exact (P4 _ eq_refl)|exact I].
Qed.
Lemma item_sort : forall v, ditem (s_ "version") (dsort (to_dict v)) = Ok (JStr (v_version v)).
Proof.
  intros v. unfold ditem. rewrite (perm_same _ _ (dict_nodup v) (dsort_perm _) (s_ "version")). reflexivity.
Qed.

(** The whole chain: a release built from the tree, directly or through any number
    of source distributions unpacked anywhere, carries the version the tree has,
    in its metadata and when imported. *)
Theorem c57_chain : forall refnames full date root git v,
  quotable refnames -> quotable full -> quotable date -> directory root ->
  get_versions (mkKw (Some refnames) (Some full) (Some date)) (Some (version_path root)) git = Ok v -> plain_info v ->
  build_version (Some (long_version_py refnames full date)) root (git root) = Some (Ok (JStr (v_version v))) /\
  exists f1, built_version_py (Some (long_version_py refnames full date)) root (git root) = Some (Ok f1) /\
    forall f, rebuilt f1 f ->
      import_version f = Some (Ok (JStr (v_version v))) /\
      forall root' git', build_version (Some f) root' git' = Some (Ok (JStr (v_version v))).
Proof.
  intros r f d root git v Hr Hf Hd R G P.
  assert (B : build_versions (Some (long_version_py r f d)) root (git root) = Some (Ok (to_dict v))).
  { rewrite build_long by auto using quotable_one_line. now rewrite G. }
  split; [unfold build_version; rewrite B; reflexivity|].
  exists (short_version_py (to_dict v)). split; [unfold built_version_py; now rewrite B|].
  intros x X. apply c57_rewrite_identical in X; [|apply dict_nodup]. subst x. split.
  - unfold import_version. rewrite import_short_ok by (apply dict_nodup || now apply plain_to_dict).
    now rewrite item_sort.
  - intros root' git'. unfold build_version. rewrite build_short by apply dict_nodup. now rewrite item_sort.
Qed.

(** ** A release of a tagged checkout *)

Lemma lstrip_in : forall f s c, In c (lstrip_by f s) -> In c s.
Proof. intros f s c H. destruct (lstrip_suffix f s) as (u & E). rewrite E. apply in_or_app. now right. Qed.
Lemma strip_in : forall f s c, In c (strip_by f s) -> In c s.
Proof. intros f s c H. unfold strip_by in H. apply in_rev in H. apply lstrip_in, in_rev, lstrip_in in H. exact H. Qed.
Lemma strip_snoc : forall f s x, f x = true -> strip_by f (s ++ [x]) = strip_by f s.
Proof.
  intros f s x X. unfold strip_by.
  assert (E : lstrip_by f (s ++ [x]) = match lstrip_by f s with [] => [] | t => t ++ [x] end).
  { induction s as [|a s IH]; cbn; [now rewrite X|]. destruct (f a); [exact IH|reflexivity]. }
  rewrite E. destruct (lstrip_by f s) as [|a t]; [reflexivity|]. rewrite rev_app_distr. cbn [rev app lstrip_by]. now rewrite X.
Qed.
Lemma replace1_in : forall x y s c, In c (replace1 x y s) -> In c y \/ In c s.
Proof.
  induction s as [|a s IH]; intros c H; [destruct H|]. cbn in H. destruct (ceqb a x).
  - apply in_app_or in H. destruct H; [now left|right; now right].
  - destruct H as [<-|H]; [right; now left|]. destruct (IH c H); [now left|right; now right].
Qed.
Lemma iso_in : forall s c, In c (iso_date s) -> c = "T"%char \/ In c s.
Proof.
  intros s c H. unfold iso_date in H. apply replace1_in in H. destruct H as [[]|H]. apply replace1_in in H.
  destruct H as [[<-|[]]|H]; [now left|]. right. exact (strip_in _ _ _ H).
Qed.
Lemma ordinary_plain : forall s, ordinary s -> plain_text s.
Proof.
  intros s H. split.
  - intros c K. destruct (H c K) as (A & B & C & _). auto.
  - intros a b E. destruct (H "'"%char) as (_ & _ & _ & N); [|congruence]. rewrite E. apply in_or_app. right. now left.
Qed.
Lemma ordinary_app : forall a b, ordinary a -> ordinary b -> ordinary (a ++ b).
Proof. intros a b A B c K. apply in_app_or in K. destruct K; auto. Qed.
Lemma ordinary_const : forall s, forallb (fun c => Nat.leb 32 (nat_of_ascii c) && negb (ceqb c """") && negb (ceqb c "\") && negb (ceqb c "'")) s = true -> ordinary s.
Proof.
  intros s H c K. rewrite forallb_forall in H. apply H in K. rewrite !andb_true_iff, !negb_true_iff in K.
  destruct K as [[[A B] C] D]. apply Nat.leb_le in A. apply ceqb_neq in B. apply ceqb_neq in C. apply ceqb_neq in D. auto.
Qed.
Lemma ordinary_incl : forall s u, (forall c, In c s -> In c u) -> ordinary u -> ordinary s.
Proof. intros s u H U c K. apply U, H, K. Qed.
Lemma hex_ordinary : forall s, hexadecimal s -> ordinary s.
Proof. intros s [_ H]. apply (ordinary_incl s _ H). apply ordinary_const. reflexivity. Qed.
Lemma digits_ordinary : forall s, digits_only s -> ordinary s.
Proof. intros s [_ H]. apply (ordinary_incl s _ H). apply ordinary_const. reflexivity. Qed.

Lemma version_ordinary : forall tag n ds hex dirty v, ordinary tag -> Numeral n ds -> hexadecimal hex ->
  version_string tag n ds hex dirty v -> ordinary v.
Proof.
  intros tag n ds hex dirty v Ht Hn Hh V. apply numeral_digits, digits_ordinary in Hn. apply hex_ordinary in Hh.
  destruct V; repeat apply ordinary_app; auto; apply ordinary_const; reflexivity.
Qed.

Lemma pieces_date : forall pre g p d, git_pieces_from_vcs pre g = Ok p -> p_date p = Some d ->
  exists out, fst (run_command (git_show g)) = Some out /\ d = iso_date (strip out).
Proof.
  intros pre g p d0 H D. unfold git_pieces_from_vcs in H.
  destruct (snd (run_command (git_dir g))) as [[| |]|]; try discriminate.
  destruct (fst (run_command (git_describe g))) as [d|]; [|discriminate].
  destruct (fst (run_command (git_head g))) as [f|]; [|discriminate].
  cbv zeta in H. set (gd := if endswith (s_ "-dirty") (strip d) then _ else _) in H.
  assert (A : forall q, add_date g q = Ok p -> exists out, fst (run_command (git_show g)) = Some out /\ d0 = iso_date (strip out)).
  { intros q K. unfold add_date in K. destruct (fst (run_command (git_show g))) as [out|]; [|discriminate]. inversion K; subst.
    cbn in D. inversion D. eauto. }
  destruct (cin "-" gd).
  - destruct (match_describe gd) as [[[t n] h]|].
    + destruct (startswith pre t).
      * destruct (py_int (Some n)) as [z|]; [|discriminate]. cbn [bind] in H. now apply A in H.
      * inversion H; subst. discriminate D.
    + inversion H; subst. discriminate D.
  - destruct (py_int (fst (run_command (git_count g)))) as [z|]; [|discriminate]. cbn [bind] in H. now apply A in H.
Qed.

Lemma checkout_texts : quotable (s_ "$Format:%d$") /\ quotable (s_ "$Format:%H$") /\ quotable (s_ "$Format:%ci$").
Proof. split; [|split]; apply plain_const; reflexivity. Qed.

(** A release built from a tagged checkout: TAG, or TAG+DISTANCE.gHEX[.dirty]. *)
Theorem c57_tagged_release : forall root git tag n ds hex dirty full date,
  directory root -> tag <> [] -> tagged_checkout (git root) tag n ds hex dirty full date ->
  ordinary tag -> ordinary date ->
  exists version f1,
    version_string tag n ds hex dirty version /\
    let checkout := long_version_py (s_ "$Format:%d$") (s_ "$Format:%H$") (s_ "$Format:%ci$") in
    build_version (Some checkout) root (git root) = Some (Ok (JStr version)) /\
    built_version_py (Some checkout) root (git root) = Some (Ok f1) /\
    forall f, rebuilt f1 f ->
      import_version f = Some (Ok (JStr version)) /\
      forall root' git', build_version (Some f) root' git' = Some (Ok (JStr version)).
Proof.
  intros root git tag n ds hex dirty full date R Ht H Ot Od.
  assert (H0 : tagged_checkout (git (source_root (version_path root))) tag n ds hex dirty full date) by (rewrite version_path_root; assumption).
  destruct (c45_tagged (version_path root) git tag n ds hex dirty full date Ht H0) as (v & G & V & F & D & E).
  assert (P : plain_info v).
  { pose proof H as (_ & Hn & Hh & Hf & _ & _ & _ & Hshow). split; [|split; [|split]].
    - apply ordinary_plain. exact (version_ordinary _ _ _ _ _ _ Ot Hn Hh V).
    - intros s K. rewrite F in K. inversion K; subst. apply ordinary_plain, hex_ordinary, Hf.
    - intros s K. congruence.
    - intros s K. rewrite get_versions_checkout in G.
      destruct (tagged_pieces _ _ _ _ _ _ _ _ H0) as (d & Gp). rewrite Gp in G. cbn [bind] in G.
      rewrite render_default in G by reflexivity. cbn [p_long p_short p_error p_dirty p_tag p_distance p_date] in G.
      match type of G with context [render_pep440 ?p] =>
        destruct (renderers_ok p (Some tag) (Z.of_N n) eq_refl eq_refl) as ((x & X) & _) end.
      rewrite X in G. cbn [bind or_else] in G. inversion G; subst v. cbn [v_date] in K. inversion K; subst s.
      destruct (pieces_date _ _ _ d Gp eq_refl) as (out & O & ->).
      rewrite version_path_root in O by exact R. rewrite (run_prints_some _ _ Hshow) in O. inversion O; subst out.
      apply ordinary_plain. intros c I. apply iso_in in I. destruct I as [->|I]; [repeat split; try discriminate; cbv; lia|].
      apply strip_in in I. unfold strip_bytes in I. rewrite strip_snoc in I by reflexivity. apply strip_in in I. now apply Od. }
  destruct checkout_texts as (Q1 & Q2 & Q3).
  destruct (c57_chain _ _ _ root git v Q1 Q2 Q3 R G P) as (B & f1 & B1 & B2).
  exists (v_version v), f1. split; [exact V|]. cbv zeta. auto.
Qed.

(** ** Instances *)
Definition ex_root : str := s_ "/home/me/repo".
Example c57_ex_tagged : directory ex_root /\ ordinary (s_ "0.2-beta") /\ ordinary (s_ "2020-10-08 10:00:00 +1100") /\
  tagged_checkout (ex_git "v0.2-beta-12-gabcdef0-dirty") (s_ "0.2-beta") 12 (s_ "12") (s_ "abcdef0") true
    (s_ "abcdef0123456789") (s_ "2020-10-08 10:00:00 +1100").
Proof.
  split; [right; exists (s_ "home/me/rep"), "o"%char; split; [reflexivity|discriminate]|].
  split; [apply ordinary_const; reflexivity|]. split; [apply ordinary_const; reflexivity|]. apply c45_ex_tagged.
Qed.
(** The text of a written file. *)
Example c57_ex_text :
  json_dumps (to_dict (mkVI (s_ "0.2.1") None (Some false) None (Some (s_ "2020-10-08T10:00:00+1100")))) =
  s_ "{" ++ [newline] ++ s_ " ""date"": ""2020-10-08T10:00:00+1100""," ++ [newline] ++ s_ " ""dirty"": false," ++ [newline] ++
  s_ " ""error"": null," ++ [newline] ++ s_ " ""full-revisionid"": null," ++ [newline] ++ s_ " ""version"": ""0.2.1""" ++ [newline] ++ s_ "}".
Proof. reflexivity. Qed.
Definition ex_info (v : str) : Dict := to_dict (mkVI v None (Some false) None None).
Example c57_ex_import : import_version (short_version_py (ex_info (s_ "0.2.1"))) = Some (Ok (JStr (s_ "0.2.1"))).
Proof. exact_no_check (eq_refl (Some (Ok (JStr (s_ "0.2.1"))))). Qed.
(** Plain texts are needed: a version with a quotation mark (a tag or directory name may
    contain one) is written and read back by setup.py, but the installed package
    cannot be imported ... *)
Example c57_quote : forall root git,
  build_version (Some (short_version_py (ex_info (s_ "1""")))) root git = Some (Ok (JStr (s_ "1"""))) /\
  import_version (short_version_py (ex_info (s_ "1"""))) = Some (Err ValueError).
Proof.
  intros root git. split.
  - unfold build_version. rewrite build_short by apply dict_nodup. unfold ex_info. now rewrite item_sort.
  - exact_no_check (eq_refl (@Some (Res JVal) (Err ValueError))).
Qed.
(** ... or, with more of them, reports another version than its metadata. *)
Example c57_injection : forall root git,
  build_version (Some (short_version_py (ex_info (s_ "1"",""version"":""2")))) root git = Some (Ok (JStr (s_ "1"",""version"":""2"))) /\
  import_version (short_version_py (ex_info (s_ "1"",""version"":""2"))) = Some (Ok (JStr (s_ "2"))).
Proof.
  intros root git. split.
  - unfold build_version. rewrite build_short by apply dict_nodup. unfold ex_info. now rewrite item_sort.
  - exact_no_check (eq_refl (Some (Ok (JStr (s_ "2"))))).
Qed.
(** Such a version from the name of the directory of an unpacked archive without keywords. *)
Example c57_quote_directory :
  let root := s_ "/tmp/openscm_twolayermodel-1""" in
  let git := fun _ : str => mkGit [NotFound; NotFound] [] [] [] [] in
  directory root /\
  build_version (Some (long_version_py (s_ "$Format:%d$") (s_ "$Format:%H$") (s_ "$Format:%ci$"))) root (git root) = Some (Ok (JStr (s_ "1"""))).
Proof.
  intros root git.
  assert (R : directory root).
  { right. exists (s_ "tmp/openscm_twolayermodel-1"), """"%char. split; [reflexivity|discriminate]. }
  split; [exact R|]. destruct checkout_texts as (Q1 & Q2 & Q3). unfold build_version.
  pose proof (build_long _ _ _ root git (quotable_one_line _ Q1) (quotable_one_line _ Q2) (quotable_one_line _ Q3) R) as E.
  rewrite E. clear E. vm_compute. reflexivity.
Qed.
(** Three apostrophes end the literal: the file no longer has the written form. *)
Example c57_apostrophes : import_version (short_version_py (ex_info (s_ "1'''"))) = None.
Proof. exact_no_check (eq_refl (@None (Res JVal))). Qed.
(** An archive of a tagged commit. *)
Example c57_ex_archive : quotable (s_ " (HEAD -> master, tag: v0.2.1)") /\
  get_versions (mkKw (Some (s_ " (HEAD -> master, tag: v0.2.1)")) (Some (s_ "abc")) (Some (s_ "2020-10-08 10:00:00 +1100")))
    (Some (version_path ex_root)) (fun _ => ex_git "") =
  Ok (mkVI (s_ "0.2.1") (Some (s_ "abc")) (Some false) None (Some (s_ "2020-10-08T10:00:00+1100"))).
Proof. split; [apply plain_const; reflexivity|vm_compute; reflexivity]. Qed.
