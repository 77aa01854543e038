(** Vocabulary for installing versioneer's files (C65). *)
From Coq Require Import List String Ascii.
From Verif Require Import Arith Version Install.
Import ListNotations.
Local Open Scope list_scope.

(** [p] stands somewhere in [t]. *)
Definition occurs (p t : str) : Prop := exists a b, t = a ++ p ++ b.

(** White space, and texts without any. *)
Definition blank (c : ascii) : Prop := space_s c = true.
Definition unbroken (w : str) : Prop := w <> [] /\ forall c, In c w -> ~ blank c.

(** [l] is one of the lines of the text [t] (without its line end). *)
Definition line_of (l t : str) : Prop :=
  ~ In newline l /\
  exists a b, t = a ++ l ++ b /\
    (a = [] \/ exists a', a = a' ++ [newline]) /\ (b = [] \/ exists b', b = newline :: b').

(** [w] is one of the words of [l]. *)
Definition word_of (w l : str) : Prop :=
  unbroken w /\
  exists a b, l = a ++ w ++ b /\
    (a = [] \/ exists a' c, a = a' ++ [c] /\ blank c) /\ (b = [] \/ exists c b', b = c :: b' /\ blank c).

(** MANIFEST.in names [x] in an "include" line. *)
Definition includes (manifest x : str) : Prop :=
  exists rest, line_of (s_ "include " ++ rest) manifest /\ word_of x rest.

(** .gitattributes has a line with pattern [vs] and attribute export-subst. *)
Definition exports (attributes vs : str) : Prop :=
  exists indent rest,
    (forall c, In c indent -> blank c) /\
    line_of (indent ++ vs ++ rest) attributes /\
    (exists c rest', rest = c :: rest' /\ blank c) /\ word_of (s_ "export-subst") rest.

(** Some line of .gitattributes starts with [vs] and goes on: it is about another file. *)
Definition longer_pattern (attributes vs : str) : Prop :=
  exists indent c rest,
    (forall x, In x indent -> blank x) /\ ~ blank c /\ line_of (indent ++ vs ++ c :: rest) attributes.

(** Every line is ended. *)
Definition ended (t : str) : Prop := t = [] \/ exists a, t = a ++ [newline].

(** A usable [versionfile_source]: without white space, and none of the other
    files the installation writes or is run from. *)
Definition version_path (vs : str) : Prop :=
  unbroken vs /\ vs <> f_manifest /\ vs <> f_gitattributes /\ vs <> f_versioneer.

(** A configuration that names the version file [vs]. *)
Definition configured (c : Config) (vs : str) : Prop :=
  c_VCS c = s_ "git" /\ c_versionfile_source c = Some vs.

(** The same files with the same texts. *)
Definition same_files (fs fs' : Files) : Prop := forall p, fs p = fs' p.

(** What an interrupted run leaves: it stops before one of its effects, or while
    the version file is being written (any first part of the text). *)
Inductive interrupted (LONG : Config -> str) (c : Config) (fs : Files) : Files -> Prop :=
| stopped : forall k,
    interrupted LONG c fs (effects fs (firstn k (o_effects (do_setup LONG (CfgOk c) fs))))
| torn : forall vs t t',
    c_versionfile_source c = Some vs -> LONG c = t ++ t' ->
    interrupted LONG c fs (effects fs [Truncate vs; Append vs t]).

(** Any number of attempts, each interrupted somewhere. *)
Inductive attempts (LONG : Config -> str) (c : Config) (fs : Files) : Files -> Prop :=
| no_attempt : attempts LONG c fs fs
| one_more : forall fs1 fs2,
    attempts LONG c fs fs1 -> interrupted LONG c fs1 fs2 -> attempts LONG c fs fs2.

(** Complete runs in a row. *)
Fixpoint runs (LONG : Config -> str) (c : Config) (n : nat) (fs : Files) : Files :=
  match n with O => fs | S n => runs LONG c n (after_setup LONG (CfgOk c) fs) end.
