(** versioneer.py [get_config_from_root]: reading the [versioneer] section of
    setup.cfg with Python's configparser (strict, "=" and ":" as delimiters, "#" and
    ";" as comment characters, values over several lines, basic interpolation).
    Texts as in Install.v.  All errors other than a missing file, section or option
    (duplicates, lines that cannot be parsed, bad interpolation) are one outcome:
    they are not caught.  The section pattern is that of Python up to 3.10: the
    name ends at the first closing bracket. *)
From Coq Require Import List String Ascii Bool Arith.
From Verif Require Import Arith Version Package Install.
Import ListNotations.
Local Open Scope list_scope.

(** Python [str.lower] (ASCII) (versioneer.py:342-349). *)
Definition lower_chr (c : ascii) : ascii :=
  let n := nat_of_ascii c in if Nat.leb 65 n && Nat.leb n 90 then ascii_of_nat (n + 32) else c.
(** configparser [optionxform] (versioneer.py:342-349). *)
Definition lower (s : str) : str := map lower_chr s.
(** Python [str.rstrip] (versioneer.py:342-349). *)
Definition rstrip (s : str) : str := rev (lstrip_by space_s (rev s)).

(** The state of configparser's [_read] between two lines: the sections seen, the
    options with the lines of their values (the latest first), the current section
    and option, the indentation of the latest section or option line, and whether
    an error has been met (versioneer.py:342-349). *)
Record Parser : Type := mkParser {
  p_sections : list str; p_entries : list ((str * str) * list str);
  p_section : option str; p_option : option str; p_indent : nat; p_bad : bool }.

(** At the start of the file (versioneer.py:342-349). *)
Definition parser0 : Parser := mkParser [] [] None None 0 false.

(** configparser.DEFAULTSECT (versioneer.py:342-349). *)
Definition default_section : str := s_ "DEFAULT".

(** Same section and option (versioneer.py:342-349). *)
Definition key_eqb (a b : str * str) : bool := str_eqb (fst a) (fst b) && str_eqb (snd a) (snd b).
(** The lines of an option, if it is there (versioneer.py:342-349). *)
Fixpoint entry (k : str * str) (l : list ((str * str) * list str)) : option (list str) :=
  match l with
  | [] => None
  | (k', v) :: l' => if key_eqb k k' then Some v else entry k l'
  end.
(** A line added to the latest option (the current one) (versioneer.py:342-349). *)
Definition extend (l : list ((str * str) * list str)) (x : str) : list ((str * str) * list str) :=
  match l with
  | (k, v) :: l' => (k, v ++ [x]) :: l'
  | [] => []
  end.

(** configparser SECTCRE, at the start of the stripped line (versioneer.py:342-349). *)
Definition header (value : str) : option str :=
  match value with
  | c :: r => if ceqb c "[" then match lpart "]" r with
                                | Some ([], _) | None => None
                                | Some (name, _) => Some name
                                end
              else None
  | [] => None
  end.

(** configparser OPTCRE on the stripped line: the text up to the first delimiter
    and the text after it (versioneer.py:342-349). *)
Fixpoint delimited (value : str) : option (str * str) :=
  match value with
  | [] => None
  | c :: r => if ceqb c "=" || ceqb c ":" then Some ([], r)
              else match delimited r with Some (a, b) => Some (c :: a, b) | None => None end
  end.

(** The number of white-space characters at the start of a line (versioneer.py:342-349). *)
Fixpoint indentation (line : str) : nat :=
  match line with
  | c :: r => if space_s c then S (indentation r) else 0
  | [] => 0
  end.

(** After an error nothing matters any more (versioneer.py:342-349). *)
Definition broken (p : Parser) : Parser :=
  mkParser (p_sections p) (p_entries p) (p_section p) (p_option p) (p_indent p) true.

(** configparser [_read], one line (versioneer.py:342-349). *)
Definition read_line (p : Parser) (line : str) : Parser :=
  let value := strip line in
  match value with
  | [] =>
      match p_section p, p_option p with
      | Some _, Some _ => mkParser (p_sections p) (extend (p_entries p) []) (p_section p) (p_option p) (p_indent p) (p_bad p)
      | _, _ => p
      end
  | c :: _ =>
      if ceqb c "#" || ceqb c ";" then p
      else
        let ind := indentation line in
        match p_section p, p_option p, Nat.ltb (p_indent p) ind with
        | Some _, Some _, true =>
            mkParser (p_sections p) (extend (p_entries p) value) (p_section p) (p_option p) (p_indent p) (p_bad p)
        | _, _, _ =>
            match header value with
            | Some name =>
                if member name (p_sections p) && negb (str_eqb name default_section) then broken p
                else mkParser (name :: p_sections p) (p_entries p) (Some name) None ind (p_bad p)
            | None =>
                match p_section p with
                | None => broken p
                | Some sec =>
                    match delimited value with
                    | None => broken p
                    | Some (o, v) =>
                        let name := lower (rstrip o) in
                        match rstrip o, entry (sec, name) (p_entries p) with
                        | _ :: _, None =>
                            mkParser (p_sections p) (((sec, name), [strip v]) :: p_entries p) (Some sec) (Some name) ind (p_bad p)
                        | _, _ => broken p
                        end
                    end
                end
            end
        end
  end.

(** configparser [read_file] ([readfp], versioneer.py:344). *)
Definition read_cfg (text : str) : Parser := fold_left read_line (file_lines text) parser0.

(** configparser [_join_multiline_values] (versioneer.py:342-349). *)
Fixpoint join_lines (l : list str) : str :=
  match l with
  | [] => []
  | [x] => x
  | x :: l' => x ++ newline :: join_lines l'
  end.

(** The text of an option: of the section, or else of DEFAULT (versioneer.py:342-349). *)
Definition raw_option (p : Parser) (sec name : str) : option str :=
  match entry (sec, name) (p_entries p) with
  | Some v => Some (rstrip (join_lines v))
  | None => match entry (default_section, name) (p_entries p) with
            | Some v => Some (rstrip (join_lines v))
            | None => None
            end
  end.

(** configparser BasicInterpolation: [%%] and [%(name)s]; [sub] gives the value of a
    name; [None] is an error.  [fuel]: the length of the text is enough (versioneer.py:342-349). *)
Fixpoint substitute (sub : str -> option str) (fuel : nat) (t : str) : option str :=
  match fuel with
  | O => None
  | S f =>
      match t with
      | [] => Some []
      | c :: r =>
          if negb (ceqb c "%") then option_map (cons c) (substitute sub f r)
          else match r with
               | [] => None
               | d :: r' =>
                   if ceqb d "%" then option_map (cons "%"%char) (substitute sub f r')
                   else if ceqb d "(" then
                     match lpart ")" r' with
                     | Some (x :: name, e :: rest) =>
                         if ceqb e "s" then
                           match sub (x :: name) with
                           | Some v => option_map (app v) (substitute sub f rest)
                           | None => None
                           end
                         else None
                     | _ => None
                     end
                   else None
               end
      end
  end.
(** configparser [_interpolate_some]; at most ten levels (versioneer.py:342-349). *)
Fixpoint interpolate (depth : nat) (get : str -> option str) (t : str) : option str :=
  match depth with
  | O => None
  | S d =>
      substitute (fun name => match get (lower name) with
                              | None => None
                              | Some v => if cin "%" v then interpolate d get v else Some v
                              end) (S (List.length t)) t
  end.

(** [parser.get("versioneer", name)] for an option that exists: [None] is an error (versioneer.py:342-349). *)
Definition get_option (p : Parser) (sec : str) (raw : str) : option str :=
  interpolate 10 (raw_option p sec) raw.
(** versioneer.py:347-350 [get(parser, name)]: the outer [None] is an error. *)
Definition get_or_none (p : Parser) (sec name : str) : option (option str) :=
  match raw_option p sec (lower name) with
  | None => Some None
  | Some raw => match get_option p sec raw with Some v => Some (Some v) | None => None end
  end.

(** versioneer.py:345. *)
Definition sec_versioneer : str := s_ "versioneer".

(** versioneer.py:335-361 [get_config_from_root]: [None] is an exception [do_setup]
    does not catch.  versionfile_build and verbose are read too (they can only fail). *)
Definition get_config_from_root (setup_cfg : option str) : option CfgRead :=
  match setup_cfg with
  | None => Some CfgNoFile
  | Some text =>
      let p := read_cfg text in
      if p_bad p then None
      else if negb (member sec_versioneer (p_sections p)) then Some CfgNoSection
      else match raw_option p sec_versioneer (lower (s_ "VCS")) with
           | None => Some CfgNoOption
           | Some raw =>
               match get_option p sec_versioneer raw,
                     get_or_none p sec_versioneer (s_ "style"),
                     get_or_none p sec_versioneer (s_ "versionfile_source"),
                     get_or_none p sec_versioneer (s_ "versionfile_build"),
                     get_or_none p sec_versioneer (s_ "tag_prefix"),
                     get_or_none p sec_versioneer (s_ "parentdir_prefix"),
                     get_or_none p sec_versioneer (s_ "verbose") with
               | Some vcs, Some style, Some vs, Some _, Some tag, Some parent, Some _ =>
                   Some (CfgOk (mkConfig vcs (match style with Some x => x | None => [] end) vs
                                  (match tag with
                                   | Some x => Some (if str_eqb x (s_ "''") || str_eqb x [ascii_of_nat 34; ascii_of_nat 34] then [] else x)
                                   | None => None
                                   end) parent))
               | _, _, _, _, _, _, _ => None
               end
           end
  end.

(** [do_setup] with the configuration read from setup.cfg: the effects and the
    result; the outer [None] is an uncaught error of configparser, before any effect (versioneer.py:1697-1722). *)
Definition setup_command (LONG : Config -> str) (fs : Files) : option Outcome :=
  match get_config_from_root (fs f_setup_cfg) with
  | None => None
  | Some read => Some (do_setup LONG read fs)
  end.

(** The files after the command (versioneer.py:1697-1777). *)
Definition after_command (LONG : Config -> str) (fs : Files) : Files :=
  match setup_command LONG fs with
  | None => fs
  | Some o => effects fs (o_effects o)
  end.
