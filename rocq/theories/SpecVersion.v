(** Vocabulary for the theorems about the reported version: what git prints, and
    what the version should look like.  Independent of the functions in
    Version.v (only the types of the inputs are shared). *)
From Coq Require Import List String Ascii Bool Arith NArith ZArith.
From Verif Require Import Arith Version.
Import ListNotations.

(** [ds] is the decimal numeral of [n], without leading zeros. *)
Inductive Numeral : N -> str -> Prop :=
| Num_digit : forall d, (d < 10)%N -> Numeral d [ascii_of_N (48 + d)]
| Num_more : forall n s d, (0 < n)%N -> (d < 10)%N -> Numeral n s ->
    Numeral (10 * n + d) (s ++ [ascii_of_N (48 + d)]).

Definition digits_only (s : str) : Prop := s <> [] /\ forall c, In c s -> In c (s_ "0123456789").
Definition hexadecimal (s : str) : Prop := s <> [] /\ forall c, In c s -> In c (s_ "0123456789abcdef").

(** A command that prints one line and succeeds (git found as one of the names
    tried); a command that cannot be found, started, or that fails. *)
Definition prints (cs : list Spawn) (line : str) : Prop :=
  exists k others, cs = repeat NotFound k ++ Ran (line ++ [newline]) 0 :: others.
Definition fails (cs : list Spawn) : Prop :=
  (exists k, cs = repeat NotFound k) \/
  (exists k others, cs = repeat NotFound k ++ CannotRun :: others) \/
  (exists k out rc others, cs = repeat NotFound k ++ Ran out rc :: others /\ rc <> 0%Z).

Definition dirty_mark (dirty : bool) : str := if dirty then s_ "-dirty" else [].

(** Text without spaces or control characters at its ends. *)
Definition no_outer_space (s : str) : Prop :=
  forall c, hd_error s = Some c \/ hd_error (rev s) = Some c -> space_s c = false.

(** A checkout in which git works: [git describe] prints [describe], HEAD is
    [full] and its date is [date]. *)
Definition git_checkout (g : Git) (describe full date : str) : Prop :=
  (exists dir, prints (git_dir g) dir) /\ prints (git_describe g) describe /\
  prints (git_head g) full /\ prints (git_show g) date.

(** The nearest tag is "v"+[tag], [n] commits ago ([ds] in decimal), HEAD is
    abbreviated to [hex], and the tree has changes or not. *)
Definition tagged_checkout (g : Git) (tag : str) (n : N) (ds hex : str) (dirty : bool) (full date : str) : Prop :=
  ~ In newline tag /\ Numeral n ds /\ hexadecimal hex /\ hexadecimal full /\
  git_checkout g (s_ "v" ++ tag ++ s_ "-" ++ ds ++ s_ "-g" ++ hex ++ dirty_mark dirty) full date.

(** No tag: git prints the abbreviated commit, and [n] commits are counted. *)
Definition untagged_checkout (g : Git) (n : N) (ds hex : str) (dirty : bool) (full date : str) : Prop :=
  Numeral n ds /\ hexadecimal hex /\ hexadecimal full /\
  git_checkout g (hex ++ dirty_mark dirty) full date /\ prints (git_count g) ds.

(** The version string of docs ("TAG[+DISTANCE.gHEX[.dirty]]"). *)
Inductive version_string (tag : str) (n : N) (ds hex : str) : bool -> str -> Prop :=
| VS_release : n = 0%N -> version_string tag n ds hex false tag
| VS_ahead : n <> 0%N -> ~ In "+"%char tag ->
    version_string tag n ds hex false (tag ++ s_ "+" ++ ds ++ s_ ".g" ++ hex)
| VS_ahead_plus : n <> 0%N -> In "+"%char tag ->
    version_string tag n ds hex false (tag ++ s_ "." ++ ds ++ s_ ".g" ++ hex)
| VS_dirty : ~ In "+"%char tag ->
    version_string tag n ds hex true (tag ++ s_ "+" ++ ds ++ s_ ".g" ++ hex ++ s_ ".dirty")
| VS_dirty_plus : In "+"%char tag ->
    version_string tag n ds hex true (tag ++ s_ "." ++ ds ++ s_ ".g" ++ hex ++ s_ ".dirty").

(** The format git describe promises, as a relation (the regular expression
    [^(.+)-(\d+)-g([0-9a-f]+)$]). *)
Definition describe_format (s tag num hex : str) : Prop :=
  (s = tag ++ s_ "-" ++ num ++ s_ "-g" ++ hex \/ s = tag ++ s_ "-" ++ num ++ s_ "-g" ++ hex ++ [newline]) /\
  tag <> [] /\ ~ In newline tag /\ digits_only num /\ hexadecimal hex.

(** Dictionary order of strings. *)
Inductive lex_le : str -> str -> Prop :=
| Lex_nil : forall s, lex_le [] s
| Lex_lt : forall a b s t, nat_of_ascii a < nat_of_ascii b -> lex_le (a :: s) (b :: t)
| Lex_eq : forall a s t, lex_le s t -> lex_le (a :: s) (a :: t).

(** [" (x, y, z)"] as git archive writes the names of a commit. *)
Fixpoint comma_list (l : list str) : str :=
  match l with
  | [] => []
  | [x] => x
  | x :: l' => x ++ s_ ", " ++ comma_list l'
  end.
Definition decoration (refs : list str) : str := s_ " (" ++ comma_list refs ++ s_ ")".
(** A reference name: not empty, no comma, no space or parenthesis at its ends. *)
Definition ref_name (r : str) : Prop :=
  r <> [] /\ ~ In ","%char r /\
  forall c, hd_error r = Some c \/ hd_error (rev r) = Some c ->
    space_s c = false /\ c <> "("%char /\ c <> ")"%char.

(** The six styles and the two names of the default. *)
Definition known_style (style : option str) : Prop :=
  style = None \/ exists s, style = Some s /\
  In s (map s_ [""; "default"; "pep440"; "pep440-pre"; "pep440-post"; "pep440-old"; "git-describe"; "git-describe-long"]%string).

(** The other styles, from the docstrings of _version.py (an optional part is
    written [opt condition text]); [tag] is None without tags. *)
Definition opt (b : bool) (s : str) : str := if b then s else [].
Inductive style_text (n : N) (ds hex : str) (dirty : bool) : string -> option str -> str -> Prop :=
| ST_pre : forall tag, style_text n ds hex dirty "pep440-pre" (Some tag) (tag ++ opt (0 <? n)%N (s_ ".post.dev" ++ ds))
| ST_pre_untagged : style_text n ds hex dirty "pep440-pre" None (s_ "0.post.dev" ++ ds)
| ST_post : forall tag, ~ In "+"%char tag -> style_text n ds hex dirty "pep440-post" (Some tag)
    (tag ++ opt ((0 <? n)%N || dirty) (s_ ".post" ++ ds ++ opt dirty (s_ ".dev0") ++ s_ "+g" ++ hex))
| ST_post_plus : forall tag, In "+"%char tag -> style_text n ds hex dirty "pep440-post" (Some tag)
    (tag ++ opt ((0 <? n)%N || dirty) (s_ ".post" ++ ds ++ opt dirty (s_ ".dev0") ++ s_ ".g" ++ hex))
| ST_post_untagged : style_text n ds hex dirty "pep440-post" None
    (s_ "0.post" ++ ds ++ opt dirty (s_ ".dev0") ++ s_ "+g" ++ hex)
| ST_old : forall tag, style_text n ds hex dirty "pep440-old" (Some tag)
    (tag ++ opt ((0 <? n)%N || dirty) (s_ ".post" ++ ds ++ opt dirty (s_ ".dev0")))
| ST_old_untagged : style_text n ds hex dirty "pep440-old" None (s_ "0.post" ++ ds ++ opt dirty (s_ ".dev0"))
| ST_describe : forall tag, style_text n ds hex dirty "git-describe" (Some tag)
    (tag ++ opt (0 <? n)%N (s_ "-" ++ ds ++ s_ "-g" ++ hex) ++ opt dirty (s_ "-dirty"))
| ST_describe_untagged : style_text n ds hex dirty "git-describe" None (hex ++ opt dirty (s_ "-dirty"))
| ST_long : forall tag, style_text n ds hex dirty "git-describe-long" (Some tag)
    (tag ++ s_ "-" ++ ds ++ s_ "-g" ++ hex ++ opt dirty (s_ "-dirty"))
| ST_long_untagged : style_text n ds hex dirty "git-describe-long" None (hex ++ opt dirty (s_ "-dirty")).

(** A word: not empty and without white space.  The date of a commit as git
    prints it (%ci, "day time zone") and in ISO 8601 ("dayTtimezone"). *)
Definition word (s : str) : Prop := s <> [] /\ forall c, In c s -> space_s c = false.
Definition git_date (day time zone : str) : str := day ++ s_ " " ++ time ++ s_ " " ++ zone.
Definition iso_8601 (day time zone : str) : str := day ++ s_ "T" ++ time ++ zone.
