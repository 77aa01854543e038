(** Generated by tools/gen_props.py from FactsPackage.v: the property theorems. *)
From Coq Require Import List String Ascii Bool Arith NArith ZArith Lia Permutation.
From Verif Require Import Arith Version SpecVersion VersionStr VersionFile Package SpecPackage PackageProof FactsVersion FactsPackage.
Import ListNotations.

(** Reading the written file back in setup.py gives the dictionary it was written
    for, whatever characters its texts contain. *)
Theorem C57_file_round_trip : forall d, NoDup (map fst d) ->
  exists d', versions_from_file (Some (short_version_py d)) = Some (Ok d') /\ same_dict d' d.
Proof. exact c57_file_round_trip. Qed.
Print Assumptions C57_file_round_trip.

(** So does [get_versions] of versioneer.py in a tree with such a file: in whatever
    directory and whatever git says there. *)
Theorem C57_rebuild : forall d, NoDup (map fst d) ->
  exists d', same_dict d' d /\
    forall root git, build_versions (Some (short_version_py d)) root git = Some (Ok d').
Proof. exact c57_rebuild. Qed.
Print Assumptions C57_rebuild.

(** Building from a tree with such a file writes the same file, byte for byte. *)
Theorem C57_rewrite_identical : forall d f, NoDup (map fst d) -> rebuilt (short_version_py d) f -> f = short_version_py d.
Proof. exact c57_rewrite_identical. Qed.
Print Assumptions C57_rewrite_identical.

(** Importing the written file gives the same dictionary when its texts are plain. *)
Theorem C57_import : forall d, NoDup (map fst d) -> plain_dict d ->
  exists d', import_short (short_version_py d) = Some (Ok d') /\ same_dict d' d.
Proof. exact c57_import. Qed.
Print Assumptions C57_import.

(** In a tree with the file of a checkout or of an archive, [setup.py] computes
    the dictionary that importing the package from that tree computes, and fails
    with the same exception when that fails. *)
Theorem C57_setup_as_import : forall refnames full date root git,
  quotable refnames -> quotable full -> quotable date -> directory root ->
  build_versions (Some (long_version_py refnames full date)) root (git root) =
  import_long refnames full date (Some (version_path root)) git.
Proof. exact c57_setup_as_import. Qed.
Print Assumptions C57_setup_as_import.

(** setup.py reads exactly the keyword texts that git archive put into the file. *)
Theorem C57_keywords : forall refnames full date,
  ~ In newline refnames -> ~ In newline full -> ~ In newline date ->
  git_get_keywords (Some (long_version_py refnames full date)) = mkKw (Some refnames) (Some full) (Some date).
Proof. exact c57_keywords. Qed.
Print Assumptions C57_keywords.

(** The whole chain: a release built from the tree, directly or through any number
    of source distributions unpacked anywhere, carries the version the tree has,
    in its metadata and when imported. *)
Theorem C57_chain : forall refnames full date root git v,
  quotable refnames -> quotable full -> quotable date -> directory root ->
  get_versions (mkKw (Some refnames) (Some full) (Some date)) (Some (version_path root)) git = Ok v -> plain_info v ->
  build_version (Some (long_version_py refnames full date)) root (git root) = Some (Ok (JStr (v_version v))) /\
  exists f1, built_version_py (Some (long_version_py refnames full date)) root (git root) = Some (Ok f1) /\
    forall f, rebuilt f1 f ->
      import_version f = Some (Ok (JStr (v_version v))) /\
      forall root' git', build_version (Some f) root' git' = Some (Ok (JStr (v_version v))).
Proof. exact c57_chain. Qed.
Print Assumptions C57_chain.

(** A release built from a tagged checkout: TAG, or TAG+DISTANCE.gHEX[.dirty]. *)
Theorem C57_tagged_release : forall root git tag n ds hex dirty full date,
  directory root -> tag <> [] -> tagged_checkout (git root) tag n ds hex dirty full date ->
  ordinary tag -> ordinary date ->
  exists version f1,
    version_string tag n ds hex dirty version /\
    let checkout := long_version_py (s_ "$Format:%d$") (s_ "$Format:%H$") (s_ "$Format:%ci$") in
    build_version (Some checkout) root (git root) = Some (Ok (JStr version)) /\
    built_version_py (Some checkout) root (git root) = Some (Ok f1) /\
    forall f, rebuilt f1 f ->
      import_version f = Some (Ok (JStr version)) /\
      forall root' git', build_version (Some f) root' git' = Some (Ok (JStr version)).
Proof. exact c57_tagged_release. Qed.
Print Assumptions C57_tagged_release.

Example C57_ex_tagged : directory ex_root /\ ordinary (s_ "0.2-beta") /\ ordinary (s_ "2020-10-08 10:00:00 +1100") /\
  tagged_checkout (ex_git "v0.2-beta-12-gabcdef0-dirty") (s_ "0.2-beta") 12 (s_ "12") (s_ "abcdef0") true
    (s_ "abcdef0123456789") (s_ "2020-10-08 10:00:00 +1100").
Proof. exact c57_ex_tagged. Qed.

(** The text of a written file. *)
Example C57_ex_text :
  json_dumps (to_dict (mkVI (s_ "0.2.1") None (Some false) None (Some (s_ "2020-10-08T10:00:00+1100")))) =
  s_ "{" ++ [newline] ++ s_ " ""date"": ""2020-10-08T10:00:00+1100""," ++ [newline] ++ s_ " ""dirty"": false," ++ [newline] ++
  s_ " ""error"": null," ++ [newline] ++ s_ " ""full-revisionid"": null," ++ [newline] ++ s_ " ""version"": ""0.2.1""" ++ [newline] ++ s_ "}".
Proof. exact c57_ex_text. Qed.

Example C57_ex_import : import_version (short_version_py (ex_info (s_ "0.2.1"))) = Some (Ok (JStr (s_ "0.2.1"))).
Proof. exact c57_ex_import. Qed.

(** Plain texts are needed: a version with a quotation mark (a tag or directory name may
    contain one) is written and read back by setup.py, but the installed package
    cannot be imported ... *)
Example C57_quote : forall root git,
  build_version (Some (short_version_py (ex_info (s_ "1""")))) root git = Some (Ok (JStr (s_ "1"""))) /\
  import_version (short_version_py (ex_info (s_ "1"""))) = Some (Err ValueError).
Proof. exact c57_quote. Qed.

(** ... or, with more of them, reports another version than its metadata. *)
Example C57_injection : forall root git,
  build_version (Some (short_version_py (ex_info (s_ "1"",""version"":""2")))) root git = Some (Ok (JStr (s_ "1"",""version"":""2"))) /\
  import_version (short_version_py (ex_info (s_ "1"",""version"":""2"))) = Some (Ok (JStr (s_ "2"))).
Proof. exact c57_injection. Qed.

(** Such a version from the name of the directory of an unpacked archive without keywords. *)
Example C57_quote_directory :
  let root := s_ "/tmp/openscm_twolayermodel-1""" in
  let git := fun _ : str => mkGit [NotFound; NotFound] [] [] [] [] in
  directory root /\
  build_version (Some (long_version_py (s_ "$Format:%d$") (s_ "$Format:%H$") (s_ "$Format:%ci$"))) root (git root) = Some (Ok (JStr (s_ "1"""))).
Proof. exact c57_quote_directory. Qed.

(** Three apostrophes end the literal: the file no longer has the written form. *)
Example C57_apostrophes : import_version (short_version_py (ex_info (s_ "1'''"))) = None.
Proof. exact c57_apostrophes. Qed.

(** An archive of a tagged commit. *)
Example C57_ex_archive : quotable (s_ " (HEAD -> master, tag: v0.2.1)") /\
  get_versions (mkKw (Some (s_ " (HEAD -> master, tag: v0.2.1)")) (Some (s_ "abc")) (Some (s_ "2020-10-08 10:00:00 +1100")))
    (Some (version_path ex_root)) (fun _ => ex_git "") =
  Ok (mkVI (s_ "0.2.1") (Some (s_ "abc")) (Some false) None (Some (s_ "2020-10-08T10:00:00+1100"))).
Proof. exact c57_ex_archive. Qed.
