(** Vocabulary for the packaging properties (C57). *)
From Coq Require Import List String Ascii.
From Verif Require Import Arith Version Package.
Import ListNotations.

(** The same Python dictionary: equal under every lookup. *)
Definition same_dict (d d' : Dict) : Prop := forall k, dget k d = dget k d'.

(** A text that can stand between quotes in a Python source line and in JSON
    without an escape: no control character, quotation mark or backslash. *)
Definition quotable (s : str) : Prop :=
  forall c, In c s -> 32 <= nat_of_ascii c /\ c <> """"%char /\ c <> "\"%char.

(** ... and does not end a triple-quoted literal. *)
Definition plain_text (s : str) : Prop :=
  quotable s /\ forall a b, s <> a ++ s_ "'''" ++ b.

Definition plain_value (v : JVal) : Prop := match v with JStr s => plain_text s | _ => True end.

Definition plain_dict (d : Dict) : Prop :=
  forall k v, In (k, v) d -> plain_text k /\ plain_value v.

(** The texts of a version record. *)
Definition plain_info (v : VersionInfo) : Prop :=
  plain_text (v_version v) /\
  (forall s, v_full v = Some s -> plain_text s) /\
  (forall s, v_error v = Some s -> plain_text s) /\
  (forall s, v_date v = Some s -> plain_text s).

(** The real path of a directory: absolute, no slash at the end (or the root itself). *)
Definition directory (root : str) : Prop :=
  root = s_ "/" \/ exists a c, root = s_ "/" ++ a ++ [c] /\ c <> "/"%char.

(** [rebuilt f f']: the version file [f'] comes out of any number of successive
    sdist or build_py runs, starting from a tree with version file [f], each in
    any directory and whatever git reports there. *)
Inductive rebuilt (f : str) : str -> Prop :=
| rebuilt_none : rebuilt f f
| rebuilt_step : forall f1 f2 root git,
    rebuilt f f1 -> built_version_py (Some f1) root git = Some (Ok f2) -> rebuilt f f2.

(** No control character, quotation mark, apostrophe or backslash. *)
Definition ordinary (s : str) : Prop :=
  forall c, In c s -> 32 <= nat_of_ascii c /\ c <> """"%char /\ c <> "\"%char /\ c <> "'"%char.
