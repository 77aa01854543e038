(** Generated by tools/gen_props.py from FactsConfig.v: the property theorems. *)
From Coq Require Import List String Ascii Bool Arith Lia.
From Verif Require Import Arith Version VersionStr Package PackageProof Install SpecInstall InstallProof GenInstall FactsInstall Config SpecConfig ConfigProof SetupCfg FactsConfig.
Import ListNotations.
Local Open Scope list_scope.

(** A [versioneer] section written into a setup.cfg without one, before, between or
    after its other sections, is read back: each setting with the value it was given. *)
Theorem C66_read_back : forall (before after : str) (settings : list (str * str)),
  get_config_from_root (Some (before ++ after)) = Some CfgNoSection ->
  ~ occurs (s_ "[DEFAULT]") (before ++ after) ->
  ended before -> own_section after -> proper_settings settings ->
  get_config_from_root (Some (before ++ section_text settings ++ after)) =
  Some (match setting_of settings (s_ "VCS") with
        | None => CfgNoOption
        | Some vcs =>
            CfgOk (mkConfig vcs
              (match setting_of settings (s_ "style") with Some x => x | None => [] end)
              (setting_of settings (s_ "versionfile_source"))
              (unquoted (setting_of settings (s_ "tag_prefix")))
              (setting_of settings (s_ "parentdir_prefix")))
        end).
Proof. exact c66_read_back. Qed.
Print Assumptions C66_read_back.

(** ... so that the command installs. *)
Theorem C66_then_installs : forall (LONG : Config -> str) (fs : Files) (before after vs : str) (settings : list (str * str)),
  get_config_from_root (Some (before ++ after)) = Some CfgNoSection ->
  ~ occurs (s_ "[DEFAULT]") (before ++ after) ->
  ended before -> own_section after -> proper_settings settings ->
  setting_of settings (s_ "VCS") = Some (s_ "git") -> setting_of settings (s_ "versionfile_source") = Some vs ->
  fs f_setup_cfg = Some (before ++ section_text settings ++ after) ->
  exists c, configured c vs /\ setup_command LONG fs = Some (do_setup LONG (CfgOk c) fs).
Proof. exact c66_then_installs. Qed.
Print Assumptions C66_then_installs.

(** Added to a setup.cfg without the section (or to none), the sample section is
    found the next time, without the setting VCS. *)
Theorem C66_sample : forall (cfg : option str),
  get_config_from_root cfg = Some CfgNoFile \/ get_config_from_root cfg = Some CfgNoSection ->
  (forall t, cfg = Some t -> ~ occurs (s_ "[DEFAULT]") t) ->
  get_config_from_root (Some ((match cfg with Some t => t | None => [] end) ++ SAMPLE_CONFIG)) = Some CfgNoOption.
Proof. exact c66_sample. Qed.
Print Assumptions C66_sample.

(** Without a [versioneer] section the command adds the sample once, however often it
    is run, and changes nothing else. *)
Theorem C66_sample_once : forall (LONG : Config -> str) (fs : Files) (n : nat),
  get_config_from_root (fs f_setup_cfg) = Some CfgNoFile \/ get_config_from_root (fs f_setup_cfg) = Some CfgNoSection ->
  (forall t, fs f_setup_cfg = Some t -> ~ occurs (s_ "[DEFAULT]") t) ->
  commands LONG (S n) fs f_setup_cfg = Some (content fs f_setup_cfg ++ SAMPLE_CONFIG) /\
  forall p, p <> f_setup_cfg -> commands LONG (S n) fs p = fs p.
Proof. exact c66_sample_once. Qed.
Print Assumptions C66_sample_once.

(** A second [versioneer] section is an error: the command changes nothing. *)
Theorem C66_twice : forall (LONG : Config -> str) (fs : Files) (before rest : str),
  ended before ->
  get_config_from_root (Some before) <> Some CfgNoSection ->
  fs f_setup_cfg = Some (before ++ s_ "[versioneer]" ++ [newline] ++ rest) ->
  setup_command LONG fs = None /\ same_files (after_command LONG fs) fs.
Proof. exact c66_twice. Qed.
Print Assumptions C66_twice.

(** setup.cfg as it is gives the configuration that Version.v and Package.v use. *)
Example C66_repository :
  get_config_from_root (Some repo_setup_cfg) = Some (CfgOk repo_config) /\
  c_style repo_config = cfg_style /\ c_versionfile_source repo_config = Some cfg_versionfile_source /\
  c_tag_prefix repo_config = Some cfg_tag_prefix /\ c_parentdir_prefix repo_config = Some cfg_parentdir_prefix.
Proof. exact c66_repository. Qed.

(** The hypotheses of [c66_read_back] are met: a section between two others. *)
Example C66_read_back_instance :
  let before := s_ "[flake8]" ++ [newline] ++ s_ "ignore = E203," ++ [newline] ++ s_ "    W503" ++ [newline; newline] in
  let after := s_ "[metadata]" ++ [newline] ++ s_ "description-file = README.rst" ++ [newline] in
  get_config_from_root (Some (before ++ after)) = Some CfgNoSection /\
  ~ occurs (s_ "[DEFAULT]") (before ++ after) /\ ended before /\ own_section after /\ proper_settings repo_settings /\
  get_config_from_root (Some (before ++ section_text repo_settings ++ after)) =
    Some (CfgOk (mkConfig (s_ "git") (s_ "pep440") (Some (s_ "src/openscm_twolayermodel/_version.py")) (Some (s_ "v%")) (Some []))).
Proof. exact c66_read_back_instance. Qed.
