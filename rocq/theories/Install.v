(** versioneer.py: [python versioneer.py setup].
    Files are texts as Python reads them (line ends translated to \n; ASCII); the
    current directory is the project root, so [os.path.join(root, x)] names the
    same file as [x], and a path names one file (no links).  Standard output is
    dropped.  Every [open] and every write is a separate effect, so that a run
    can be interrupted between any two of them. *)
From Coq Require Import List String Ascii Bool Arith.
From Verif Require Import Arith Version Package.
Import ListNotations.
Local Open Scope list_scope.

(** ** Python text operations *)

(** Iterating over a text file (versioneer.py:1143, 1748, 1785): the lines, each
    with its line end. *)
Fixpoint file_lines (t : str) : list str :=
  match t with
  | [] => []
  | c :: t' =>
      if ceqb c newline then [c] :: file_lines t'
      else match file_lines t' with
           | [] => [[c]]
           | l :: ls => (c :: l) :: ls
           end
  end.

(** Python [str.split()] without arguments: [cur] is the word being read, backwards. *)
Definition flush (cur : str) : list str := match cur with [] => [] | _ => [rev cur] end.
(** Python [str.split()]. *)
Fixpoint words_from (cur : str) (t : str) : list str :=
  match t with
  | [] => flush cur
  | c :: t' => if space_s c then flush cur ++ words_from [] t' else words_from (c :: cur) t'
  end.
(** Python [str.split()]. *)
Definition words (t : str) : list str := words_from [] t.

(** Python [p in t] for strings. *)
Definition contains (p t : str) : bool := match find_first p t with Some _ => true | None => false end.

(** Python [x in collection] for strings. *)
Definition member (x : str) (l : list str) : bool := existsb (str_eqb x) l.

(** ** The file system *)

(** A path (relative to the project root) and the text of the file, if there is one. *)
Definition Files := str -> option str.

(** The effects on files. *)
Inductive Effect : Type :=
| Truncate (p : str)            (* open(p, "w") *)
| Touch (p : str)               (* open(p, "a"), open(p, "a+"): created if missing *)
| Append (p : str) (t : str).   (* f.write(t) and close *)

(** Assigning one file. *)
Definition put (fs : Files) (p : str) (t : str) : Files :=
  fun q => if str_eqb q p then Some t else fs q.
(** The text of a file ("" if missing). *)
Definition content (fs : Files) (p : str) : str := match fs p with Some t => t | None => [] end.
(** One effect. *)
Definition effect (fs : Files) (e : Effect) : Files :=
  match e with
  | Truncate p => put fs p []
  | Touch p => put fs p (content fs p)
  | Append p t => put fs p (content fs p ++ t)
  end.
(** Several. *)
Definition effects (fs : Files) (es : list Effect) : Files := fold_left effect es fs.

(** ** The configuration *)

(** versioneer.py:335-361 [VersioneerConfig] as [do_setup] uses it; [None] is Python's. *)
Record Config : Type := mkConfig {
  c_VCS : str; c_style : str; c_versionfile_source : option str;
  c_tag_prefix : option str; c_parentdir_prefix : option str }.

(** versioneer.py:1700-1703: what [get_config_from_root] gives or raises. *)
Inductive CfgRead : Type := CfgOk (c : Config) | CfgNoFile | CfgNoSection | CfgNoOption.

(** Names of files (versioneer.py:341, 1707, 1744). *)
Definition f_setup_cfg : str := s_ "setup.cfg".
(** versioneer.py:1744. *)
Definition f_manifest : str := s_ "MANIFEST.in".
(** versioneer.py:1142, 1151. *)
Definition f_gitattributes : str := s_ ".gitattributes".
(** versioneer.py:1132-1139: run as a script from the root, the file is "versioneer.py". *)
Definition f_versioneer : str := s_ "versioneer.py".

(** versioneer.py:1675-1688. *)
Definition SAMPLE_CONFIG : str :=
  [newline] ++ s_ "# See the docstring in versioneer.py for instructions. Note that you must" ++
  [newline] ++ s_ "# re-run 'versioneer.py setup' after changing this section, and commit the" ++
  [newline] ++ s_ "# resulting files." ++ [newline] ++
  [newline] ++ s_ "[versioneer]" ++
  [newline] ++ s_ "#VCS = git" ++
  [newline] ++ s_ "#style = pep440" ++
  [newline] ++ s_ "#versionfile_source =" ++
  [newline] ++ s_ "#versionfile_build =" ++
  [newline] ++ s_ "#tag_prefix =" ++
  [newline] ++ s_ "#parentdir_prefix =" ++ [newline] ++ [newline].

(** versioneer.py:1690-1694. *)
Definition INIT_PY_SNIPPET : str :=
  [newline] ++ s_ "from ._version import get_versions" ++
  [newline] ++ s_ "__version__ = get_versions()['version']" ++
  [newline] ++ s_ "del get_versions" ++ [newline].

(** Python [os.path.join] with a relative second part (versioneer.py:1722). *)
Definition path_join (a b : str) : str :=
  match a with
  | [] => b
  | _ => if endswith (s_ "/") a then a ++ b else a ++ s_ "/" ++ b
  end.
(** versioneer.py:1722-1723. *)
Definition init_py (vs : str) : str := path_join (dirname vs) (s_ "__init__.py").

(** ** do_setup *)

(** versioneer.py:1724-1738: the [__init__.py] part. *)
Definition init_effects (fs : Files) (ipy : str) : list Effect :=
  match fs ipy with
  | Some old => if contains INIT_PY_SNIPPET old then [] else [Touch ipy; Append ipy INIT_PY_SNIPPET]
  | None => []
  end.

(** versioneer.py:1745-1751: the set of included names. *)
Definition simple_includes (manifest : str) : list str :=
  flat_map (fun line => if startswith (s_ "include ") line then tl (words line) else [])
           (file_lines manifest).

(** versioneer.py:1761, 1768: the lines appended to MANIFEST.in. *)
Definition include_line (x : str) : str := s_ "include " ++ x ++ [newline].
(** versioneer.py:1758-1770: the set is read once, before both writes. *)
Definition manifest_effects (fs : Files) (vs : str) : list Effect :=
  let inc := simple_includes (content fs f_manifest) in
  (if member f_versioneer inc then [] else [Touch f_manifest; Append f_manifest (include_line f_versioneer)]) ++
  (if member vs inc then [] else [Touch f_manifest; Append f_manifest (include_line vs)]).

(** versioneer.py:1140-1149: is the version file marked already? *)
Definition attr_line (vs line : str) : bool :=
  startswith vs (strip line) && member (s_ "export-subst") (tl (words (strip line))).
(** versioneer.py:1140-1149. *)
Definition attr_present (vs : str) (attributes : str) : bool :=
  existsb (attr_line vs) (file_lines attributes).
(** versioneer.py:1152. *)
Definition export_line (vs : str) : str := vs ++ s_ " export-subst" ++ [newline].
(** versioneer.py:1150-1154. *)
Definition attr_effects (fs : Files) (vs : str) : list Effect :=
  if attr_present vs (content fs f_gitattributes) then []
  else [Touch f_gitattributes; Append f_gitattributes (export_line vs)].

(** What a run does: its effects in order, its result, and the files handed to
    "git add --" (versioneer.py:1129-1155), [None] if git is not called. *)
Record Outcome : Type := mkOutcome {
  o_effects : list Effect; o_result : Res nat; o_staged : option (list str) }.

(** versioneer.py:1697-1776 [do_setup] and 1120-1155 [do_vcs_install].  [LONG] is
    the text made from LONG_VERSION_PY["git"] by formatting; the dictionary has no
    other key, and is looked up after the file has been opened for writing. *)
Definition do_setup (LONG : Config -> str) (read : CfgRead) (fs : Files) : Outcome :=
  match read with
  | CfgNoFile | CfgNoSection =>
      mkOutcome [Touch f_setup_cfg; Append f_setup_cfg SAMPLE_CONFIG] (Ok 1) None
  | CfgNoOption => mkOutcome [] (Ok 1) None
  | CfgOk c =>
      match c_versionfile_source c with
      | None => mkOutcome [] (Err TypeError) None
      | Some vs =>
          if negb (str_eqb (c_VCS c) (s_ "git")) then mkOutcome [Truncate vs] (Err KeyError) None
          else
            let e1 := [Truncate vs; Append vs (LONG c)] in
            let fs1 := effects fs e1 in
            let ipy := init_py vs in
            let e2 := init_effects fs1 ipy in
            let fs2 := effects fs1 e2 in
            let e3 := manifest_effects fs2 vs in
            let fs3 := effects fs2 e3 in
            let e4 := attr_effects fs3 vs in
            mkOutcome (e1 ++ e2 ++ e3 ++ e4) (Ok 0)
              (Some ([f_manifest; vs] ++
                     (match fs1 ipy with Some _ => [ipy] | None => [] end) ++
                     [f_versioneer] ++
                     (match e4 with [] => [] | _ => [f_gitattributes] end)))
      end
  end.

(** The files after a complete run. *)
Definition after_setup (LONG : Config -> str) (read : CfgRead) (fs : Files) : Files :=
  effects fs (o_effects (do_setup LONG read fs)).

(** ** scan_setup_py and the script *)

(** versioneer.py:1785-1795: [found] (as three flags) and [setters], line by line. *)
Definition scan_line (acc : bool * bool * bool * bool) (line : str) : bool * bool * bool * bool :=
  let '(i, k, g, st) := acc in
  (i || contains (s_ "import versioneer") line,
   k || contains (s_ "versioneer.get_cmdclass()") line,
   g || contains (s_ "versioneer.get_version()") line,
   st || contains (s_ "versioneer.VCS") line || contains (s_ "versioneer.versionfile_source") line).

(** versioneer.py:1779-1813 [scan_setup_py]: the number of errors. *)
Definition scan_setup_py (setup_py : str) : nat :=
  let '(i, k, g, st) := fold_left scan_line (file_lines setup_py) (false, false, false, false) in
  (if i && k && g then 0 else 1) + (if st then 1 else 0).

(** versioneer.py:1816-1822: the exit status of "python versioneer.py setup";
    setup.py is read after [do_setup]; [None] when it cannot be opened. *)
Definition setup_main (LONG : Config -> str) (read : CfgRead) (fs : Files) : option (Res nat) :=
  match o_result (do_setup LONG read fs) with
  | Err e => Some (Err e)
  | Ok errors =>
      match after_setup LONG read fs (s_ "setup.py") with
      | None => None
      | Some t => Some (Ok (if Nat.eqb (errors + scan_setup_py t) 0 then 0 else 1))
      end
  end.
