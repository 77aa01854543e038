(** Generated by tools/gen_props.py from FactsVersion.v: the property theorems. *)
From Coq Require Import List String Ascii Bool Arith NArith ZArith Lia.
From Verif Require Import Arith Version SpecVersion VersionStr FactsVersion.
Import ListNotations.

(** A tagged checkout: TAG for an unchanged release, TAG+DISTANCE.gHEX[.dirty] otherwise. *)
Theorem C45_tagged : forall file git tag n ds hex dirty full date,
  tag <> [] -> tagged_checkout (git (source_root file)) tag n ds hex dirty full date ->
  exists v, get_versions checkout_keywords (Some file) git = Ok v /\
    version_string tag n ds hex dirty (v_version v) /\
    v_full v = Some full /\ v_dirty v = Some dirty /\ v_error v = None.
Proof. exact c45_tagged. Qed.
Print Assumptions C45_tagged.

(** In particular a release reports exactly its tag, without the "v". *)
Theorem C45_release : forall file git tag hex full date,
  tag <> [] -> tagged_checkout (git (source_root file)) tag 0 (s_ "0") hex false full date ->
  package_version checkout_keywords (Some file) git = Ok tag.
Proof. exact c45_release. Qed.
Print Assumptions C45_release.

(** Without a tag, and for the tag "v" alone, "0+untagged" is reported. *)
Theorem C45_untagged : forall file git n ds hex dirty full date,
  untagged_checkout (git (source_root file)) n ds hex dirty full date ->
  package_version checkout_keywords (Some file) git =
    Ok (s_ "0+untagged." ++ ds ++ s_ ".g" ++ firstn 7 full ++ (if dirty then s_ ".dirty" else [])).
Proof. exact c45_untagged. Qed.
Print Assumptions C45_untagged.

Theorem C45_tag_v_alone : forall file git n ds hex dirty full date,
  tagged_checkout (git (source_root file)) [] n ds hex dirty full date ->
  package_version checkout_keywords (Some file) git =
    Ok (s_ "0+untagged." ++ ds ++ s_ ".g" ++ hex ++ (if dirty then s_ ".dirty" else [])).
Proof. exact c45_tag_v_alone. Qed.
Print Assumptions C45_tag_v_alone.

(** Tag, distance and dirtiness can be read off the string, and the commit too,
    except for a release. *)
Theorem C45_injective : forall file git tag n ds hex dirty full date file' git' tag' n' ds' hex' dirty' full' date' v,
  tag <> [] -> tagged_checkout (git (source_root file)) tag n ds hex dirty full date ->
  tag' <> [] -> tagged_checkout (git' (source_root file')) tag' n' ds' hex' dirty' full' date' ->
  ~ In "+"%char tag -> ~ In "+"%char tag' ->
  package_version checkout_keywords (Some file) git = Ok v ->
  package_version checkout_keywords (Some file') git' = Ok v ->
  tag = tag' /\ n = n' /\ dirty = dirty' /\ (n <> 0%N \/ dirty = true -> hex = hex').
Proof. exact c45_injective. Qed.
Print Assumptions C45_injective.

(** Nor can a tagged checkout be taken for an untagged one. *)
Theorem C45_tagged_vs_untagged : forall file git tag n ds hex dirty full date file' git' n' ds' hex' dirty' full' date' v,
  tag <> [] -> tagged_checkout (git (source_root file)) tag n ds hex dirty full date -> ~ In "+"%char tag ->
  untagged_checkout (git' (source_root file')) n' ds' hex' dirty' full' date' ->
  package_version checkout_keywords (Some file) git = Ok v ->
  package_version checkout_keywords (Some file') git' <> Ok v.
Proof. exact c45_tagged_vs_untagged. Qed.
Print Assumptions C45_tagged_vs_untagged.

(** Two untagged checkouts. *)
Theorem C45_untagged_injective : forall file git n ds hex dirty full date file' git' n' ds' hex' dirty' full' date' v,
  untagged_checkout (git (source_root file)) n ds hex dirty full date ->
  untagged_checkout (git' (source_root file')) n' ds' hex' dirty' full' date' ->
  package_version checkout_keywords (Some file) git = Ok v ->
  package_version checkout_keywords (Some file') git' = Ok v ->
  n = n' /\ firstn 7 full = firstn 7 full' /\ dirty = dirty'.
Proof. exact c45_untagged_injective. Qed.
Print Assumptions C45_untagged_injective.

(** The parse of git's output is the regular expression, and has at most one
    reading. *)
Theorem C45_parse : forall s tag num hex,
  match_describe s = Some (tag, num, hex) <-> describe_format s tag num hex.
Proof. exact c45_parse. Qed.
Print Assumptions C45_parse.

Theorem C45_parse_unique : forall s tag num hex tag' num' hex',
  describe_format s tag num hex -> describe_format s tag' num' hex' -> tag = tag' /\ num = num' /\ hex = hex'.
Proof. exact c45_parse_unique. Qed.
Print Assumptions C45_parse_unique.

(** Whatever git printed, if it was read at all then every style renders it; the
    only exception is ValueError for an unknown style. *)
Theorem C45_render_never_fails : forall pre g p style, git_pieces_from_vcs pre g = Ok p -> known_style style ->
  exists v, render p style = Ok v.
Proof. exact c45_render_never_fails. Qed.
Print Assumptions C45_render_never_fails.

Theorem C45_unknown_style : forall p style, ~ known_style style ->
  render p style = Err ValueError \/ (exists e, p_error p = Some e /\ e <> [] /\ render p style = Ok (mkVI (s_ "unknown") (Some (p_long p)) None (Some e) None)).
Proof. exact c45_unknown_style. Qed.
Print Assumptions C45_unknown_style.

(** Output that is not in the format is reported as "unknown", never raised. *)
Theorem C45_unparseable : forall file git out full dir,
  prints (git_dir (git (source_root file))) dir -> prints (git_describe (git (source_root file))) out ->
  prints (git_head (git (source_root file))) full -> no_outer_space out -> hexadecimal full ->
  In "-"%char out -> ~ In newline out -> hd_error out <> Some "v"%char ->
  (forall t, out <> t ++ s_ "-dirty") ->
  exists v, get_versions checkout_keywords (Some file) git = Ok v /\
    v_version v = s_ "unknown" /\ v_full v = Some full /\ v_dirty v = None /\ (exists e, v_error v = Some e).
Proof. exact c45_unparseable. Qed.
Print Assumptions C45_unparseable.

Theorem C45_import_errors : forall file git e,
  package_version checkout_keywords (Some file) git = Err e ->
  let g := git (source_root file) in
  ~ fails (git_dir g) /\ ~ fails (git_describe g) /\ ~ fails (git_head g) /\
  ((e = AttributeError /\ fails (git_show g)) \/
   (e = TypeError /\ fails (git_count g)) \/
   (e = ValueError /\ ~ fails (git_count g))).
Proof. exact c45_import_errors. Qed.
Print Assumptions C45_import_errors.

(** The converse, for the two commands that are not guarded. *)
Theorem C45_import_fails : forall file git,
  let g := git (source_root file) in
  (forall tag num hex full dir,
     prints (git_dir g) dir -> prints (git_describe g) (s_ "v" ++ tag ++ s_ "-" ++ num ++ s_ "-g" ++ hex) ->
     prints (git_head g) full -> ~ In newline tag -> digits_only num -> hexadecimal hex ->
     fails (git_show g) -> package_version checkout_keywords (Some file) git = Err AttributeError) /\
  (forall hex full dir,
     prints (git_dir g) dir -> prints (git_describe g) hex -> prints (git_head g) full -> hexadecimal hex ->
     fails (git_count g) -> package_version checkout_keywords (Some file) git = Err TypeError).
Proof. exact c45_import_fails. Qed.
Print Assumptions C45_import_fails.

(** "git-describe-long" gives git's own line back, without the "v". *)
Theorem C45_describe_long_round_trip : forall g tag n ds hex dirty full date,
  tag <> [] -> tagged_checkout g tag n ds hex dirty full date ->
  exists p v, git_pieces_from_vcs (s_ "v") g = Ok p /\ render p (Some (s_ "git-describe-long")) = Ok v /\
    prints (git_describe g) (s_ "v" ++ v_version v).
Proof. exact c45_describe_long_round_trip. Qed.
Print Assumptions C45_describe_long_round_trip.

Theorem C45_other_styles : forall g tag n ds hex dirty full date,
  (tag <> [] -> tagged_checkout g tag n ds hex dirty full date ->
   exists p, git_pieces_from_vcs (s_ "v") g = Ok p /\
     forall style text, style_text n ds hex dirty style (Some tag) text ->
       exists v, render p (Some (s_ style)) = Ok v /\ v_version v = text) /\
  (untagged_checkout g n ds hex dirty full date ->
   exists p, git_pieces_from_vcs (s_ "v") g = Ok p /\
     forall style text, style_text n ds (firstn 7 full) dirty style None text ->
       exists v, render p (Some (s_ style)) = Ok v /\ v_version v = text).
Proof. exact c45_other_styles. Qed.
Print Assumptions C45_other_styles.

(** A source archive of a tagged commit reports the least version tag in
    dictionary order, independently of the order of the names and of git. *)
Theorem C45_archive : forall refs full date file git tag,
  Forall ref_name refs -> In (s_ "tag: v" ++ tag) refs ->
  (forall tag', In (s_ "tag: v" ++ tag') refs -> lex_le tag tag') ->
  exists v, get_versions (mkKw (Some (decoration refs)) (Some full) (Some date)) file git = Ok v /\
    v_version v = tag /\ v_dirty v = Some false /\ v_error v = None /\ v_full v = Some (strip full).
Proof. exact c45_archive. Qed.
Print Assumptions C45_archive.

Theorem C45_date : forall file git tag n ds hex dirty full day time zone,
  word day -> word time -> word zone ->
  (tagged_checkout (git (source_root file)) tag n ds hex dirty full (git_date day time zone) \/
   untagged_checkout (git (source_root file)) n ds hex dirty full (git_date day time zone) ->
   exists v, get_versions checkout_keywords (Some file) git = Ok v /\ v_date v = Some (iso_8601 day time zone)) /\
  (forall refs, Forall ref_name refs -> In (s_ "tag: v" ++ tag) refs ->
   exists v, get_versions (mkKw (Some (decoration refs)) (Some full) (Some (git_date day time zone))) (Some file) git = Ok v /\
     v_date v = Some (iso_8601 day time zone)).
Proof. exact c45_date. Qed.
Print Assumptions C45_date.

(** Without "tag: " entries (git before 1.8.3): names with a digit. *)
Theorem C45_old_archive : forall refs full date file git tag,
  Forall ref_name refs -> (forall x, ~ In (s_ "tag: " ++ x) refs) ->
  In (s_ "v" ++ tag) refs -> (exists c, In c tag /\ In c (s_ "0123456789")) ->
  (forall tag', In (s_ "v" ++ tag') refs -> (exists c, In c tag' /\ In c (s_ "0123456789")) -> lex_le tag tag') ->
  package_version (mkKw (Some (decoration refs)) (Some full) (Some date)) file git = Ok tag.
Proof. exact c45_old_archive. Qed.
Print Assumptions C45_old_archive.

(** No name that could be a version: "0+unknown", with the commit kept. *)
Theorem C45_archive_unknown : forall refs full date file git,
  refs <> [] -> Forall ref_name refs ->
  (forall tag, ~ In (s_ "tag: v" ++ tag) refs) ->
  (forall tag, In (s_ "v" ++ tag) refs -> (forall c, In c tag -> ~ In c (s_ "0123456789")) \/ exists x, In (s_ "tag: " ++ x) refs) ->
  exists v, get_versions (mkKw (Some (decoration refs)) (Some full) (Some date)) file git = Ok v /\
    v_version v = s_ "0+unknown" /\ v_full v = Some (strip full) /\ (exists e, v_error v = Some e).
Proof. exact c45_archive_unknown. Qed.
Print Assumptions C45_archive_unknown.

(** Expanded keywords never lead to an exception, whatever their text. *)
Theorem C45_archive_total : forall refnames full date file git,
  startswith (s_ "$Format") (strip refnames) = false ->
  exists v, get_versions (mkKw (Some refnames) (Some full) (Some date)) file git = Ok v.
Proof. exact c45_archive_total. Qed.
Print Assumptions C45_archive_total.

(** The name of the directory the archive was unpacked into decides, when git
    cannot describe it. *)
Theorem C45_parent_directory : forall dir version git,
  ~ In "/"%char version ->
  let root := dir ++ s_ "/openscm_twolayermodel-" ++ version in
  fails (git_dir (git root)) \/ fails (git_describe (git root)) ->
  package_version checkout_keywords (Some (root ++ s_ "/src/openscm_twolayermodel/_version.py")) git = Ok version.
Proof. exact c45_parent_directory. Qed.
Print Assumptions C45_parent_directory.

Example C45_ex_tagged : tagged_checkout (ex_git "v0.2-beta-12-gabcdef0-dirty") (s_ "0.2-beta") 12 (s_ "12") (s_ "abcdef0") true
    (s_ "abcdef0123456789") (s_ "2020-10-08 10:00:00 +1100") /\
  package_version checkout_keywords (Some ex_file) (fun _ => ex_git "v0.2-beta-12-gabcdef0-dirty") = Ok (s_ "0.2-beta+12.gabcdef0.dirty").
Proof. exact c45_ex_tagged. Qed.

Example C45_ex_untagged : untagged_checkout (ex_git "abcdef0") 42 (s_ "42") (s_ "abcdef0") false
    (s_ "abcdef0123456789") (s_ "2020-10-08 10:00:00 +1100") /\
  package_version checkout_keywords (Some ex_file) (fun _ => ex_git "abcdef0") = Ok (s_ "0+untagged.42.gabcdef0").
Proof. exact c45_ex_untagged. Qed.

Example C45_ex_date : word (s_ "2020-10-08") /\ word (s_ "10:00:00") /\ word (s_ "+1100") /\
  git_date (s_ "2020-10-08") (s_ "10:00:00") (s_ "+1100") = s_ "2020-10-08 10:00:00 +1100" /\
  iso_8601 (s_ "2020-10-08") (s_ "10:00:00") (s_ "+1100") = s_ "2020-10-08T10:00:00+1100".
Proof. exact c45_ex_date. Qed.

(** Tags that contain a "+" are not covered by [C45_injective]: a clean release
    and a development version with the same string. *)
Example C45_plus_collision :
  package_version checkout_keywords (Some ex_file) (fun _ => ex_git "v1+1.gab-0-gcd") =
  package_version checkout_keywords (Some ex_file) (fun _ => ex_git "v1-1-gab").
Proof. exact c45_plus_collision. Qed.

(** Dictionary order, not version order: 1.10 comes before 1.9, and 2.0 before 2.0rc1. *)
Example C45_ex_archive :
  Forall ref_name (map s_ ["HEAD -> master"; "tag: v1.9"; "tag: v1.10"]%string) /\
  package_version (mkKw (Some (decoration (map s_ ["HEAD -> master"; "tag: v1.9"; "tag: v1.10"]%string))) (Some (s_ "abc")) (Some (s_ "d")))
    None (fun _ => ex_git "") = Ok (s_ "1.10") /\
  package_version (mkKw (Some (decoration (map s_ ["tag: v2.0rc1"; "tag: v2.0"]%string))) (Some (s_ "abc")) (Some (s_ "d")))
    None (fun _ => ex_git "") = Ok (s_ "2.0").
Proof. exact c45_ex_archive. Qed.

Example C45_ex_parent_directory :
  package_version checkout_keywords (Some (s_ "/tmp/openscm_twolayermodel-0.2.1/src/openscm_twolayermodel/_version.py"))
    (fun _ => mkGit [NotFound; NotFound] [] [] [] []) = Ok (s_ "0.2.1").
Proof. exact c45_ex_parent_directory. Qed.

Example C45_ex_import_fails :
  let git := fun _ : str => mkGit [Ran (s_ ".git") 0] [Ran (s_ "v1-0-gab" ++ [newline]) 0] [Ran (s_ "abc") 0] [] [Ran [] 128] in
  package_version checkout_keywords (Some ex_file) git = Err AttributeError.
Proof. exact c45_ex_import_fails. Qed.

Example C45_ex_unparseable :
  package_version checkout_keywords (Some ex_file) (fun _ => ex_git "release-1-gabcdef0") = Ok (s_ "unknown").
Proof. exact c45_ex_unparseable. Qed.
