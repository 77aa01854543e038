(** Vocabulary for reading setup.cfg (C66). *)
From Coq Require Import List String Ascii.
From Verif Require Import Arith Version Install SpecInstall Config.
Import ListNotations.
Local Open Scope list_scope.

(** A name that can stand before an equals sign. *)
Definition setting_name (n : str) : Prop :=
  unbroken n /\ (forall c, In c n -> c <> "="%char /\ c <> ":"%char) /\
  (forall c, hd_error n = Some c -> c <> "#"%char /\ c <> ";"%char /\ c <> "["%char).

(** A value on one line, without white space around it. *)
Definition setting_value (v : str) : Prop :=
  ~ In newline v /\ (forall c, hd_error v = Some c -> ~ blank c) /\ (forall c, hd_error (rev v) = Some c -> ~ blank c).

(** How a value is written: percent signs doubled. *)
Definition written (v : str) : str :=
  flat_map (fun c => if Ascii.ascii_dec c "%"%char then [c; c] else [c]) v.

Definition setting_line (s : str * str) : str := fst s ++ s_ " = " ++ written (snd s) ++ [newline].

(** A [versioneer] section with the given settings. *)
Definition section_text (settings : list (str * str)) : str :=
  s_ "[versioneer]" ++ [newline] ++ flat_map setting_line settings.

(** A text with its capital letters made small. *)
Definition small_letter (c : ascii) : ascii :=
  match find (fun p => if Ascii.ascii_dec (fst p) c then true else false)
             (combine (s_ "ABCDEFGHIJKLMNOPQRSTUVWXYZ") (s_ "abcdefghijklmnopqrstuvwxyz")) with
  | Some p => snd p
  | None => c
  end.
Definition small (s : str) : str := map small_letter s.

(** The value a setting has, if it is there (names ignoring case). *)
Fixpoint setting_of (settings : list (str * str)) (n : str) : option str :=
  match settings with
  | [] => None
  | (m, v) :: r => if list_eq_dec Ascii.ascii_dec (small m) (small n) then Some v else setting_of r n
  end.

(** Settings as they can be written, no name twice. *)
Definition proper_settings (settings : list (str * str)) : Prop :=
  (forall n v, In (n, v) settings -> setting_name n /\ setting_value v) /\
  NoDup (map (fun s => small (fst s)) settings).

(** A text that is empty or starts with a section of its own. *)
Definition own_section (t : str) : Prop :=
  t = [] \/ exists name r, name <> [] /\ ~ In "]"%char name /\ ~ In newline name /\ t = s_ "[" ++ name ++ s_ "]" ++ r.

(** Two quotation marks or two apostrophes stand for no prefix. *)
Definition unquoted (v : option str) : option str :=
  match v with
  | None => None
  | Some x => if list_eq_dec Ascii.ascii_dec x (s_ "''") then Some []
              else if list_eq_dec Ascii.ascii_dec x (s_ """""") then Some [] else Some x
  end.

(** "python versioneer.py setup" (without the check of setup.py), several times. *)
Fixpoint commands (LONG : Config -> str) (n : nat) (fs : Files) : Files :=
  match n with O => fs | S n => commands LONG n (after_command LONG fs) end.
