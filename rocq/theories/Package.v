(** versioneer.py: how [setup.py] computes the version, which [_version.py] it
    puts into source distributions and wheels, and what such a file reports
    when the installed package is imported.

    The functions versioneer.py shares with _version.py ([run_command],
    [versions_from_parentdir], [git_versions_from_keywords],
    [git_pieces_from_vcs], [render...]) have the same text there and are the
    ones of Version.v.  File contents are strings after Python's translation of
    line ends; characters are code points below 256. *)
From Coq Require Import List String Ascii Bool Arith NArith ZArith.
From Verif Require Import Arith Version VersionFile.
Import ListNotations.

(** ** Dictionaries *)

(** The values stored in the version dictionary (versioneer.py:1393-1395, 1174-1176). *)
Inductive JVal : Type := JNull | JBool (b : bool) | JStr (s : str).

(** Python dictionary with string keys; at most one entry per key. *)
Definition Dict := list (str * JVal).

(** Python [d.get(k)]. *)
Fixpoint dget (k : str) (d : Dict) : option JVal :=
  match d with
  | [] => None
  | (k', v) :: d' => if str_eqb k k' then Some v else dget k d'
  end.

(** Python [d[k] = v]. *)
Fixpoint dset (k : str) (v : JVal) (d : Dict) : Dict :=
  match d with
  | [] => [(k, v)]
  | (k', v') :: d' => if str_eqb k k' then (k, v) :: d' else (k', v') :: dset k v d'
  end.

(** A value that is None or a text, as in the dictionaries of versioneer.py:1393-1395. *)
Definition jopt (x : option str) : JVal := match x with Some s => JStr s | None => JNull end.

(** The dictionary display of versioneer.py:1393-1395, 1473-1475, 1170-1172, 1019-1025:
    the record of Version.v with its five keys. *)
Definition to_dict (v : VersionInfo) : Dict :=
  [ (s_ "version", JStr (v_version v)); (s_ "full-revisionid", jopt (v_full v));
    (s_ "dirty", match v_dirty v with Some b => JBool b | None => JNull end);
    (s_ "error", jopt (v_error v)); (s_ "date", jopt (v_date v)) ].

(** ** json *)

(** Python's hexadecimal digits, as [%04x] prints them. *)
Definition hex_chr (n : nat) : ascii := nth n (s_ "0123456789abcdef") "0"%char.

(** json.encoder, [ensure_ascii]: the escape of one character. (Python standard library.) *)
Definition json_esc (c : ascii) : str :=
  let n := nat_of_ascii c in
  if ceqb c """" then s_ "\"""
  else if ceqb c "\" then s_ "\\"
  else if Nat.eqb n 10 then s_ "\n"
  else if Nat.eqb n 13 then s_ "\r"
  else if Nat.eqb n 9 then s_ "\t"
  else if Nat.eqb n 12 then s_ "\f"
  else if Nat.eqb n 8 then s_ "\b"
  else if Nat.leb 32 n && Nat.leb n 126 then [c]
  else s_ "\u00" ++ [hex_chr (n / 16); hex_chr (n mod 16)].

(** A JSON string; [esc] is the escape of a character. (Python standard library.) *)
Definition json_str (esc : ascii -> str) (s : str) : str :=
  s_ """" ++ flat_map esc s ++ s_ """".

(** JSON values (Python standard library). *)
Definition json_val (esc : ascii -> str) (v : JVal) : str :=
  match v with
  | JNull => s_ "null"
  | JBool true => s_ "true"
  | JBool false => s_ "false"
  | JStr s => json_str esc s
  end.

(** Items of a dictionary with [indent=1, separators=(",", ": ")] (versioneer.py:1221-1222). *)
Fixpoint json_items (esc : ascii -> str) (d : Dict) : str :=
  match d with
  | [] => []
  | (k, v) :: d' =>
      [newline] ++ s_ " " ++ json_str esc k ++ s_ ": " ++ json_val esc v ++
      (match d' with [] => [newline] | _ => s_ "," ++ json_items esc d' end)
  end.

(** Python [sorted(dct.items())]: keys are distinct, so only keys are compared.
    (json.encoder with [sort_keys=True].) *)
Fixpoint dinsert (k : str) (v : JVal) (d : Dict) : Dict :=
  match d with
  | [] => [(k, v)]
  | (k', v') :: d' => if str_leb k k' then (k, v) :: d else (k', v') :: dinsert k v d'
  end.
(** Python [sorted], as above. *)
Definition dsort (d : Dict) : Dict := fold_right (fun kv => dinsert (fst kv) (snd kv)) [] d.

(** [json.dumps(versions, sort_keys=True, indent=1, separators=(",", ": "))]
    (versioneer.py:1221-1222), for an escape function. *)
Definition dumps_with (esc : ascii -> str) (d : Dict) : str :=
  s_ "{" ++ json_items esc (dsort d) ++ s_ "}".
(** versioneer.py:1221-1222. *)
Definition json_dumps (d : Dict) : str := dumps_with json_esc d.

(** Outcome of reading JSON text: a value with the text that follows, a
    JSONDecodeError, or a text outside the modelled part of JSON (numbers,
    arrays, nested objects, characters above 255). *)
Inductive Parse (A : Type) : Type := PVal (a : A) (rest : str) | PBad | POut.
Arguments PVal {A} a rest.
Arguments PBad {A}.
Arguments POut {A}.

(** Value of a hexadecimal digit, upper or lower case. (Python standard library.) *)
Definition hex_val (c : ascii) : option nat :=
  let n := nat_of_ascii c in
  if Nat.leb 48 n && Nat.leb n 57 then Some (n - 48)
  else if Nat.leb 97 n && Nat.leb n 102 then Some (n - 87)
  else if Nat.leb 65 n && Nat.leb n 70 then Some (n - 55)
  else None.

(** Put a character in front of a parsed string. *)
Definition pcons (c : ascii) (p : Parse str) : Parse str :=
  match p with PVal s rest => PVal (c :: s) rest | PBad => PBad | POut => POut end.

(** json.decoder [scanstring], strict mode, after the opening quote. *)
Fixpoint json_scan (t : str) : Parse str :=
  match t with
  | [] => PBad
  | c :: t' =>
      if ceqb c """" then PVal [] t'
      else if ceqb c "\" then
        match t' with
        | [] => PBad
        | e :: t'' =>
            if ceqb e """" || ceqb e "\" || ceqb e "/" then pcons e (json_scan t'')
            else if ceqb e "n" then pcons newline (json_scan t'')
            else if ceqb e "r" then pcons (ascii_of_nat 13) (json_scan t'')
            else if ceqb e "t" then pcons (ascii_of_nat 9) (json_scan t'')
            else if ceqb e "f" then pcons (ascii_of_nat 12) (json_scan t'')
            else if ceqb e "b" then pcons (ascii_of_nat 8) (json_scan t'')
            else if ceqb e "u" then
              match t'' with
              | h1 :: h2 :: h3 :: h4 :: t5 =>
                  match hex_val h1, hex_val h2, hex_val h3, hex_val h4 with
                  | Some 0, Some 0, Some a, Some b => pcons (ascii_of_nat (16 * a + b)) (json_scan t5)
                  | Some _, Some _, Some _, Some _ => POut
                  | _, _, _, _ => PBad
                  end
              | _ => PBad
              end
            else PBad
        end
      else if Nat.ltb (nat_of_ascii c) 32 then PBad
      else pcons c (json_scan t')
  end.

(** JSON whitespace (json.decoder). *)
Definition json_ws (c : ascii) : bool :=
  let n := nat_of_ascii c in Nat.eqb n 32 || Nat.eqb n 9 || Nat.eqb n 10 || Nat.eqb n 13.
(** Skip whitespace (json.decoder). *)
Definition jskip (t : str) : str := lstrip_by json_ws t.

(** json.scanner: one value. *)
Definition json_value (t : str) : Parse JVal :=
  match t with
  | [] => PBad
  | c :: t' =>
      if ceqb c """" then
        match json_scan t' with
        | PVal s rest => PVal (JStr s) rest
        | PBad => PBad
        | POut => POut
        end
      else if startswith (s_ "null") t then PVal JNull (drop_prefix (s_ "null") t)
      else if startswith (s_ "true") t then PVal (JBool true) (drop_prefix (s_ "true") t)
      else if startswith (s_ "false") t then PVal (JBool false) (drop_prefix (s_ "false") t)
      else if is_digit c || cin c (s_ "-[{NI") then POut
      else PBad
  end.

(** json.decoder [JSONObject]: items after an opening brace or a comma, the
    text starting at the quote of a key; [fuel] bounds the number of items. *)
Fixpoint json_members (fuel : nat) (d : Dict) (t : str) : Parse Dict :=
  match fuel with
  | O => PBad
  | S n =>
      match t with
      | c :: t1 =>
          if ceqb c """" then
            match json_scan t1 with
            | PVal k t2 =>
                match jskip t2 with
                | c2 :: t3 =>
                    if ceqb c2 ":" then
                      match json_value (jskip t3) with
                      | PVal v t4 =>
                          match jskip t4 with
                          | c5 :: t5 =>
                              if ceqb c5 "}" then PVal (dset k v d) t5
                              else if ceqb c5 "," then json_members n (dset k v d) (jskip t5)
                              else PBad
                          | [] => PBad
                          end
                      | PBad => PBad
                      | POut => POut
                      end
                    else PBad
                | [] => PBad
                end
            | PBad => PBad
            | POut => POut
            end
          else PBad
      | [] => PBad
      end
  end.

(** [json.loads] of an object (versioneer.py:1215, _version.py as written by
    versioneer.py:1183-1198).  A text that does not start with a brace is
    outside the model, unless it is empty. *)
Definition json_loads (t : str) : option (Res Dict) :=
  match jskip t with
  | [] => Some (Err ValueError)
  | c :: t1 =>
      if ceqb c "{" then
        match (match jskip t1 with
               | c2 :: t2 => if ceqb c2 "}" then PVal [] t2
                             else json_members (S (List.length t)) [] (jskip t1)
               | [] => PBad
               end) with
        | PVal d rest => Some (match jskip rest with [] => Ok d | _ => Err ValueError end)
        | PBad => Some (Err ValueError)
        | POut => None
        end
      else if ceqb c """" || is_digit c || cin c (s_ "-[NItfn") then None
      else Some (Err ValueError)
  end.

(** ** The written file *)

(** versioneer.py:1183-1190: the text before the JSON. *)
Definition short_head : str :=
  [newline] ++ s_ "# This file was generated by 'versioneer.py' (0.18) from" ++ [newline] ++
  s_ "# revision-control system data, or from the parent directory name of an" ++ [newline] ++
  s_ "# unpacked source archive. Distribution tarballs contain a pre-generated copy" ++ [newline] ++
  s_ "# of this file." ++ [newline] ++ [newline] ++
  s_ "import json" ++ [newline] ++ [newline].
(** versioneer.py:1190: the opening of the literal. *)
Definition json_open : str := s_ "version_json = '''" ++ [newline].
(** versioneer.py:1192: the end of the literal. *)
Definition json_close : str := s_ "'''  # END VERSION_JSON".
(** versioneer.py:1193-1197: the text after the JSON. *)
Definition short_tail : str :=
  [newline] ++ [newline] ++ [newline] ++
  s_ "def get_versions():" ++ [newline] ++
  s_ "    return json.loads(version_json)" ++ [newline].

(** versioneer.py:1218-1226 [write_to_version_file]: the new contents
    [SHORT_VERSION_PY % contents]. *)
Definition short_version_py (d : Dict) : str :=
  short_head ++ json_open ++ json_dumps d ++ [newline] ++ json_close ++ short_tail.

(** ** Reading the file in setup.py *)

(** Python [str.find]: the text before and after the first occurrence. *)
Fixpoint find_first (p s : str) : option (str * str) :=
  if startswith p s then Some ([], drop_prefix p s)
  else match s with
       | [] => None
       | c :: s' => match find_first p s' with Some (a, b) => Some (c :: a, b) | None => None end
       end.
(** The text before and after the last occurrence (a greedy [.*] of a regular expression). *)
Fixpoint find_last (p s : str) : option (str * str) :=
  match s with
  | [] => if startswith p s then Some ([], []) else None
  | c :: s' =>
      match find_last p s' with
      | Some (a, b) => Some (c :: a, b)
      | None => if startswith p s then Some ([], drop_prefix p s) else None
      end
  end.

(** versioneer.py:1201-1215 [versions_from_file]; [None] when the file cannot be
    read.  The search is for the first opening and, [.*] being greedy, the last
    end; the second search, for \r\n, cannot succeed after line-end translation. *)
Definition versions_from_file (file : option str) : option (Res Dict) :=
  match file with
  | None => Some (Err NotThisMethod)
  | Some contents =>
      match find_first json_open contents with
      | None => Some (Err NotThisMethod)
      | Some (_, after) =>
          match find_last json_close after with
          | None => Some (Err NotThisMethod)
          | Some (json, _) => json_loads json
          end
      end
  end.

(** Python [f.readlines()]: lines without their line ends (and a last, empty
    line after the final line end, which matches nothing below). *)
Definition readlines (contents : str) : list str := split newline contents.

(** versioneer.py:956, 960, 964: the regular expression searched in a keyword line
    (an equals sign, whitespace, a quoted text up to the last quote): group 1. *)
Fixpoint match_quoted (line : str) : option str :=
  match line with
  | [] => None
  | c :: line' =>
      match (if ceqb c "="
             then match lstrip_by space_s line' with
                  | q :: r => if ceqb q """" then rpart """" r else None
                  | [] => None
                  end
             else None) with
      | Some (g, _) => Some g
      | None => match_quoted line'
      end
  end.

(** versioneer.py:954-966: one assignment; later lines win, a line without a match
    changes nothing. *)
Definition keyword_line (name : str) (lines : list str) : option str :=
  fold_left (fun acc line =>
               if startswith (name ++ s_ " =") (strip line)
               then match match_quoted line with Some g => Some g | None => acc end
               else acc) lines None.

(** versioneer.py:945-970 [git_get_keywords]; [None] when the file cannot be opened. *)
Definition git_get_keywords (file : option str) : Keywords :=
  match file with
  | None => mkKw None None None
  | Some contents =>
      let lines := readlines contents in
      mkKw (keyword_line (s_ "git_refnames") lines) (keyword_line (s_ "git_full") lines)
           (keyword_line (s_ "git_date") lines)
  end.

(** [try: return r  except NotThisMethod: pass]; then [k]. (versioneer.py:1432-1468.) *)
Definition else_try (r : option (Res Dict)) (k : option (Res Dict)) : option (Res Dict) :=
  match r with Some (Err NotThisMethod) => k | _ => r end.
(** Results of the functions shared with _version.py, as dictionaries. *)
Definition as_dict (r : Res VersionInfo) : option (Res Dict) :=
  Some (match r with Ok v => Ok (to_dict v) | Err e => Err e end).

(** versioneer.py:1402-1475 [get_versions], with the configuration of
    setup.cfg:45-51 (the same values as [cfg_...] of Version.v).  [root] is the
    directory of setup.py, [file] the contents of the version file there,
    [git] the outcomes of the git commands run in [root].  [None]: the version
    file holds JSON outside the model. *)
Definition build_versions (file : option str) (root : str) (git : Git) : option (Res Dict) :=
  else_try (as_dict (git_versions_from_keywords (git_get_keywords file) cfg_tag_prefix))
    (else_try (versions_from_file file)
       (else_try (as_dict (do p <- git_pieces_from_vcs cfg_tag_prefix git; render p (Some cfg_style)))
          (else_try (as_dict (versions_from_parentdir cfg_parentdir_prefix root))
             (as_dict (Ok (mkVI (s_ "0+unknown") None None (Some (s_ "unable to compute version")) None)))))).

(** Python [d[k]]. *)
Definition ditem (k : str) (d : Dict) : Res JVal :=
  match dget k d with Some v => Ok v | None => Err KeyError end.

(** versioneer.py:1478-1480 [get_version], what setup.py:123 passes to [setup]. *)
Definition build_version (file : option str) (root : str) (git : Git) : option (Res JVal) :=
  match build_versions file root git with
  | Some (Ok d) => Some (ditem (s_ "version") d)
  | Some (Err e) => Some (Err e)
  | None => None
  end.

(** versioneer.py:1547-1559 [cmd_build_py.run] and 1628-1647 [cmd_sdist]: the
    contents of the version file in the build directory or release tree. *)
Definition built_version_py (file : option str) (root : str) (git : Git) : option (Res str) :=
  match build_versions file root git with
  | Some (Ok d) => Some (Ok (short_version_py d))
  | Some (Err e) => Some (Err e)
  | None => None
  end.

(** ** The file of a checkout or archive *)

(** _version.py:26-28: the text of the three keyword lines. *)
Definition keyword_lines (refnames full date : str) : list str :=
  [ s_ "    git_refnames = """ ++ refnames ++ s_ """";
    s_ "    git_full = """ ++ full ++ s_ """";
    s_ "    git_date = """ ++ date ++ s_ """" ].

(** The whole file: in a checkout the texts are the [$Format:...$] ones; git
    archive replaces them (.gitattributes:1, export-subst).  (_version.py:1-520.) *)
Definition long_version_py (refnames full date : str) : str :=
  flat_map (fun l => l ++ [newline])
    (map s_ version_py_before ++ keyword_lines refnames full date ++ map s_ version_py_after).

(** ** Importing the file *)

(** Python source: the rest of a triple-quoted literal, with the text after it.
    Only the escapes that JSON text can contain are modelled; [None] for others
    and for a literal that does not end. *)
Fixpoint py_triple (t : str) : option (str * str) :=
  let next c r := match r with Some (a, b) => Some (c :: a, b) | None => None end in
  match t with
  | [] => None
  | c :: t' =>
      if ceqb c "'" && startswith (s_ "''") t' then Some ([], drop_prefix (s_ "''") t')
      else if ceqb c "\" then
        match t' with
        | [] => None
        | e :: t'' =>
            if ceqb e """" || ceqb e "\" then next e (py_triple t'')
            else if ceqb e "n" then next newline (py_triple t'')
            else if ceqb e "r" then next (ascii_of_nat 13) (py_triple t'')
            else if ceqb e "t" then next (ascii_of_nat 9) (py_triple t'')
            else if ceqb e "f" then next (ascii_of_nat 12) (py_triple t'')
            else if ceqb e "b" then next (ascii_of_nat 8) (py_triple t'')
            else if ceqb e "u" then
              match t'' with
              | h1 :: h2 :: h3 :: h4 :: t5 =>
                  match hex_val h1, hex_val h2, hex_val h3, hex_val h4 with
                  | Some 0, Some 0, Some a, Some b => next (ascii_of_nat (16 * a + b)) (py_triple t5)
                  | _, _, _, _ => None
                  end
              | _ => None
              end
            else None
        end
      else next c (py_triple t')
  end.

(** Importing a [_version.py] of the form of versioneer.py:1183-1197 and calling
    its [get_versions()].  [None]: the file is not of that form, in particular
    when the triple-quoted literal ends elsewhere. *)
Definition import_short (contents : str) : option (Res Dict) :=
  let head := short_head ++ s_ "version_json = '''" in
  if startswith head contents then
    match py_triple (drop_prefix head contents) with
    | Some (version_json, rest) =>
        if str_eqb rest (s_ "  # END VERSION_JSON" ++ short_tail) then json_loads version_json else None
    | None => None
    end
  else None.

(** __init__.py:11 with such a file. *)
Definition import_version (contents : str) : option (Res JVal) :=
  match import_short contents with
  | Some (Ok d) => Some (ditem (s_ "version") d)
  | Some (Err e) => Some (Err e)
  | None => None
  end.

(** The value of the Python literal made of a text between quotation marks, for
    texts without escapes; [None] for others. (_version.py:26-28.) *)
Definition literal_value (s : str) : option str :=
  if forallb (fun c => Nat.leb 32 (nat_of_ascii c) && negb (ceqb c """") && negb (ceqb c "\")) s
  then Some s else None.

(** Importing the file of a checkout or archive, found at path [file], and calling
    its [get_versions()]: _version.py:20-30, 477-520. *)
Definition import_long (refnames full date : str) (file : option str) (git : str -> Git) : option (Res Dict) :=
  match literal_value refnames, literal_value full, literal_value date with
  | Some r, Some f, Some d => as_dict (get_versions (mkKw (Some r) (Some f) (Some d)) file git)
  | _, _, _ => None
  end.

(** [os.path.join(root, cfg.versionfile_source)] (versioneer.py:1422), POSIX. *)
Definition version_path (root : str) : str :=
  match root with
  | [] => cfg_versionfile_source
  | _ => if endswith (s_ "/") root then root ++ cfg_versionfile_source
         else root ++ s_ "/" ++ cfg_versionfile_source
  end.
