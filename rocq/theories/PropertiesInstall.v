(** Generated by tools/gen_props.py from FactsInstall.v: the property theorems. *)
From Coq Require Import List String Ascii Bool Arith Lia.
From Verif Require Import Arith Version VersionStr Package PackageProof Install SpecInstall InstallProof GenInstall FactsInstall.
Import ListNotations.
Local Open Scope list_scope.

(** After a run: the version file has the generated text, __init__.py (if there is
    one) the snippet, MANIFEST.in includes both files and .gitattributes marks the
    version file. *)
Theorem C65_installed : forall (LONG : Config -> str) (c : Config) (vs : str) (fs : Files),
  configured c vs -> version_path vs ->
  ended (content fs f_manifest) -> ended (content fs f_gitattributes) ->
  let fs' := after_setup LONG (CfgOk c) fs in
  o_result (do_setup LONG (CfgOk c) fs) = Ok 0 /\
  (init_py vs <> vs -> fs' vs = Some (LONG c)) /\
  (forall t, fs' (init_py vs) = Some t -> occurs INIT_PY_SNIPPET t) /\
  includes (content fs' f_manifest) (s_ "versioneer.py") /\
  includes (content fs' f_manifest) vs /\
  (~ longer_pattern (content fs f_gitattributes) vs -> exports (content fs' f_gitattributes) vs).
Proof. exact c65_installed. Qed.
Print Assumptions C65_installed.

(** Whatever the configuration: apart from the version file, a file either stays as
    it is or keeps its text and gets something added at the end. *)
Theorem C65_kept : forall (LONG : Config -> str) (read : CfgRead) (fs : Files) (p : str),
  (forall c, read = CfgOk c -> c_versionfile_source c <> Some p) ->
  after_setup LONG read fs p = fs p \/
  exists more, after_setup LONG read fs p = Some (content fs p ++ more).
Proof. exact c65_kept. Qed.
Print Assumptions C65_kept.

(** Every file a run changes is handed to "git add"; the only files it creates are
    the version file, MANIFEST.in and .gitattributes. *)
Theorem C65_staged : forall (LONG : Config -> str) (c : Config) (vs : str) (fs : Files) (p : str),
  configured c vs -> after_setup LONG (CfgOk c) fs p <> fs p ->
  exists staged, o_staged (do_setup LONG (CfgOk c) fs) = Some staged /\ In p staged /\
    (fs p = None -> p = vs \/ p = f_manifest \/ p = f_gitattributes).
Proof. exact c65_staged. Qed.
Print Assumptions C65_staged.

(** However often a run is interrupted, and wherever, a complete run afterwards
    leaves the files a single complete run would have left. *)
Theorem C65_interrupted : forall (LONG : Config -> str) (c : Config) (vs : str) (fs fs' : Files),
  configured c vs -> version_path vs ->
  ended (content fs f_manifest) -> ended (content fs f_gitattributes) ->
  attempts LONG c fs fs' ->
  same_files (after_setup LONG (CfgOk c) fs') (after_setup LONG (CfgOk c) fs).
Proof. exact c65_interrupted. Qed.
Print Assumptions C65_interrupted.

(** Running it again changes nothing. *)
Theorem C65_again : forall (LONG : Config -> str) (c : Config) (vs : str) (fs : Files) (n : nat),
  configured c vs -> version_path vs ->
  ended (content fs f_manifest) -> ended (content fs f_gitattributes) ->
  same_files (runs LONG c (S n) fs) (after_setup LONG (CfgOk c) fs).
Proof. exact c65_again. Qed.
Print Assumptions C65_again.

(** ... and the second run writes nothing but the version file. *)
Theorem C65_again_writes : forall (LONG : Config -> str) (c : Config) (vs : str) (fs : Files),
  configured c vs -> version_path vs -> init_py vs <> vs ->
  ended (content fs f_manifest) -> ended (content fs f_gitattributes) ->
  o_effects (do_setup LONG (CfgOk c) (after_setup LONG (CfgOk c) fs)) = [Truncate vs; Append vs (LONG c)].
Proof. exact c65_again_writes. Qed.
Print Assumptions C65_again_writes.

(** Without a usable configuration: nothing is installed. *)
Theorem C65_unconfigured : forall (LONG : Config -> str) (fs : Files),
  (forall read, read = CfgNoFile \/ read = CfgNoSection ->
     o_result (do_setup LONG read fs) = Ok 1 /\ o_staged (do_setup LONG read fs) = None /\
     after_setup LONG read fs f_setup_cfg = Some (content fs f_setup_cfg ++ SAMPLE_CONFIG) /\
     forall p, p <> f_setup_cfg -> after_setup LONG read fs p = fs p) /\
  (o_result (do_setup LONG CfgNoOption fs) = Ok 1 /\ same_files (after_setup LONG CfgNoOption fs) fs) /\
  (forall c, c_versionfile_source c = None ->
     o_result (do_setup LONG (CfgOk c) fs) = Err TypeError /\ same_files (after_setup LONG (CfgOk c) fs) fs) /\
  (forall c vs, c_versionfile_source c = Some vs -> c_VCS c <> s_ "git" ->
     o_result (do_setup LONG (CfgOk c) fs) = Err KeyError /\
     after_setup LONG (CfgOk c) fs vs = Some [] /\
     forall p, p <> vs -> after_setup LONG (CfgOk c) fs p = fs p).
Proof. exact c65_unconfigured. Qed.
Print Assumptions C65_unconfigured.

(** One error if one of the three phrases is missing from setup.py, one if an old
    setting is left in it. *)
Theorem C65_scan : forall (setup_py : str),
  exists missing stale : bool,
    scan_setup_py setup_py = (if missing then 1 else 0) + (if stale then 1 else 0) /\
    (missing = false <->
       occurs (s_ "import versioneer") setup_py /\ occurs (s_ "versioneer.get_cmdclass()") setup_py /\
       occurs (s_ "versioneer.get_version()") setup_py) /\
    (stale = true <->
       occurs (s_ "versioneer.VCS") setup_py \/ occurs (s_ "versioneer.versionfile_source") setup_py).
Proof. exact c65_scan. Qed.
Print Assumptions C65_scan.

(** The exit status: 0 exactly when the installation was done and setup.py passes. *)
Theorem C65_exit : forall (LONG : Config -> str) (read : CfgRead) (fs : Files),
  setup_main LONG read fs = Some (Ok 0) <->
  exists c vs t,
    read = CfgOk c /\ configured c vs /\ after_setup LONG read fs (s_ "setup.py") = Some t /\
    occurs (s_ "import versioneer") t /\ occurs (s_ "versioneer.get_cmdclass()") t /\
    occurs (s_ "versioneer.get_version()") t /\
    ~ occurs (s_ "versioneer.VCS") t /\ ~ occurs (s_ "versioneer.versionfile_source") t.
Proof. exact c65_exit. Qed.
Print Assumptions C65_exit.

(** A version file path with white space in it: every run adds a line to MANIFEST.in again. *)
Theorem C65_blank_in_path : forall (LONG : Config -> str) (c : Config) (vs : str) (fs : Files),
  configured c vs -> (exists x, In x vs /\ blank x) ->
  vs <> f_manifest -> vs <> f_gitattributes ->
  exists front, content (after_setup LONG (CfgOk c) fs) f_manifest =
    content fs f_manifest ++ front ++ s_ "include " ++ vs ++ [newline].
Proof. exact c65_blank_in_path. Qed.
Print Assumptions C65_blank_in_path.

(** A line for a longer name passes for the version file's own: .gitattributes stays
    as it is, without the mark. *)
Theorem C65_longer_name : forall (LONG : Config -> str) (c : Config) (vs : str) (fs : Files),
  configured c vs -> version_path vs ->
  fs f_gitattributes = Some (vs ++ s_ ".bak export-subst" ++ [newline]) ->
  after_setup LONG (CfgOk c) fs f_gitattributes = fs f_gitattributes /\
  ~ exports (content fs f_gitattributes) vs.
Proof. exact c65_longer_name. Qed.
Print Assumptions C65_longer_name.

(** A last line without its line end: the added line is glued to it, so that
    versioneer.py is not included after the run, and the next run adds a line again. *)
Theorem C65_needs_line_end : exists (LONG : Config -> str) (c : Config) (vs : str) (fs : Files),
  configured c vs /\ version_path vs /\
  ~ includes (content (after_setup LONG (CfgOk c) fs) f_manifest) (s_ "versioneer.py") /\
  ~ same_files (runs LONG c 2 fs) (after_setup LONG (CfgOk c) fs).
Proof. exact c65_needs_line_end. Qed.
Print Assumptions C65_needs_line_end.

(** The hypotheses hold for this repository; setup leaves MANIFEST.in and
    .gitattributes alone, adds the snippet to __init__.py and succeeds. *)
Example C65_repository :
  configured repo_config (s_ "src/openscm_twolayermodel/_version.py") /\
  version_path (s_ "src/openscm_twolayermodel/_version.py") /\
  init_py (s_ "src/openscm_twolayermodel/_version.py") = s_ "src/openscm_twolayermodel/__init__.py" /\
  ended (content repo_files f_manifest) /\ ended (content repo_files f_gitattributes) /\
  ~ longer_pattern (content repo_files f_gitattributes) (s_ "src/openscm_twolayermodel/_version.py") /\
  (forall (LONG : Config -> str),
    after_setup LONG (CfgOk repo_config) repo_files f_manifest = repo_files f_manifest /\
    after_setup LONG (CfgOk repo_config) repo_files f_gitattributes = repo_files f_gitattributes /\
    after_setup LONG (CfgOk repo_config) repo_files (s_ "src/openscm_twolayermodel/__init__.py") =
      Some (content repo_files (s_ "src/openscm_twolayermodel/__init__.py") ++ INIT_PY_SNIPPET) /\
    setup_main LONG (CfgOk repo_config) repo_files = Some (Ok 0)).
Proof. exact c65_repository. Qed.

(** An interrupted run: the hypothesis of [c65_interrupted] is met after the first
    half of the version file has been written. *)
Example C65_torn : exists fs', attempts (fun _ => s_ "half and half") repo_config repo_files fs' /\
  fs' (s_ "src/openscm_twolayermodel/_version.py") = Some (s_ "half").
Proof. exact c65_torn. Qed.
