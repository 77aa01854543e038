(** _version.py: how [openscm_twolayermodel.__version__] is computed.
    Strings are lists of (8-bit) characters; non-ASCII digits and whitespace,
    undecodable output of git and Python's limit on the length of integer
    literals are not modelled.  Printing under [verbose] is dropped. *)
From Coq Require Import List String Ascii Bool Arith NArith ZArith.
From Verif Require Import Arith.
Import ListNotations.

(** Python [str] (ASCII). *)
Definition str := list ascii.
(** Python string literal. *)
Definition s_ (x : string) : str := list_ascii_of_string x.

(** ** Python string methods *)

(** Order of characters; digits; lower-case hexadecimal digits. (Python.) *)
Definition ceqb (a b : ascii) : bool := Ascii.eqb a b.
(** Python [c in text]. *)
Definition cin (c : ascii) (l : str) : bool := existsb (ceqb c) l.
(** Regular expressions [0-9] (_version.py:195, 271). *)
Definition is_digit (c : ascii) : bool := cin c (s_ "0123456789").
(** Regular expression [0-9a-f] (_version.py:271). *)
Definition is_hex (c : ascii) : bool := cin c (s_ "0123456789abcdef").
(** Python newline character. *)
Definition newline : ascii := ascii_of_nat 10.
(** Python [==] on strings. *)
Fixpoint str_eqb (a b : str) : bool :=
  match a, b with
  | [], [] => true
  | x :: a', y :: b' => ceqb x y && str_eqb a' b'
  | _, _ => false
  end.

(** [bytes.strip] (space, \t \n \v \f \r) and [str.strip] (also 28..31). (Python.) *)
Definition space_b (c : ascii) : bool :=
  let n := nat_of_ascii c in Nat.eqb n 32 || (Nat.leb 9 n && Nat.leb n 13).
(** Python. *)
Definition space_s (c : ascii) : bool :=
  space_b c || (let n := nat_of_ascii c in Nat.leb 28 n && Nat.leb n 31).
(** Python [str.lstrip]. *)
Fixpoint lstrip_by (f : ascii -> bool) (s : str) : str :=
  match s with
  | c :: s' => if f c then lstrip_by f s' else s
  | [] => []
  end.
(** Python [str.strip]. *)
Definition strip_by (f : ascii -> bool) (s : str) : str :=
  rev (lstrip_by f (rev (lstrip_by f s))).
(** Python [bytes.strip] (_version.py:98). *)
Definition strip_bytes := strip_by space_b.
(** Python [str.strip]. *)
Definition strip := strip_by space_s.
(** Python [str.strip(chars)] (_version.py:182). *)
Definition strip_chars (cs : str) := strip_by (fun c => cin c cs).

(** Python [str.startswith]. *)
Fixpoint startswith (p s : str) : bool :=
  match p, s with
  | [], _ => true
  | a :: p', b :: s' => ceqb a b && startswith p' s'
  | _ :: _, [] => false
  end.
(** Python [str.endswith]. *)
Definition endswith (p s : str) : bool := startswith (rev p) (rev s).
(** [s[len(p):]] and, when [s] ends with [p], [s[:s.rindex(p)]]. (Python slices.) *)
Definition drop_prefix (p s : str) : str := skipn (List.length p) s.
(** Python slice, as above. *)
Definition drop_suffix (p s : str) : str := firstn (List.length s - List.length p) s.

(** [s.split(c)] for a single character. (Python.) *)
Fixpoint split (c : ascii) (s : str) : list str :=
  match s with
  | [] => [[]]
  | x :: s' => if ceqb x c then [] :: split c s'
               else match split c s' with
                    | [] => [[x]]
                    | w :: ws => (x :: w) :: ws
                    end
  end.

(** [s.replace(c, by, 1)] for a single character. (Python.) *)
Fixpoint replace1 (c : ascii) (by_ : str) (s : str) : str :=
  match s with
  | [] => []
  | x :: s' => if ceqb x c then by_ ++ s' else x :: replace1 c by_ s'
  end.

(** [s.rpartition(c)]: the parts before and after the last occurrence. (Python.) *)
Fixpoint lpart (c : ascii) (s : str) : option (str * str) :=
  match s with
  | [] => None
  | x :: s' => if ceqb x c then Some ([], s')
               else match lpart c s' with
                    | Some (a, b) => Some (x :: a, b)
                    | None => None
                    end
  end.
(** Python [str.rfind] and slices (_version.py:265). *)
Definition rpart (c : ascii) (s : str) : option (str * str) :=
  match lpart c (rev s) with
  | Some (a, b) => Some (rev b, rev a)
  | None => None
  end.

(** Lexicographic order of Python strings and [sorted] of a set. *)
Fixpoint str_leb (a b : str) : bool :=
  match a, b with
  | [], _ => true
  | _ :: _, [] => false
  | x :: a', y :: b' =>
      let m := nat_of_ascii x in let n := nat_of_ascii y in
      Nat.ltb m n || (Nat.eqb m n && str_leb a' b')
  end.
(** Python [sorted(set)] (_version.py:196-199). *)
Fixpoint insert (x : str) (l : list str) : list str :=
  match l with
  | [] => [x]
  | y :: l' => if str_eqb x y then l
               else if str_leb x y then x :: l else y :: insert x l'
  end.
(** Python [sorted(set)], as above. *)
Definition sorted_set (l : list str) : list str := fold_right insert [] l.

(** [int(s)] of a string: surrounding whitespace, a sign, single underscores
    between digits; anything else is a ValueError.  [int(None)] is a TypeError. (Python.) *)
Definition digit_val (c : ascii) : Z := Z.of_nat (nat_of_ascii c) - 48.
(** Python [int] on digits. *)
Definition dec_val (s : str) : Z := fold_left (fun a c => 10 * a + digit_val c)%Z s 0%Z.
(** Python [int] on digits. *)
Definition nonempty_digits (s : str) : bool :=
  negb (match s with [] => true | _ => false end) && forallb is_digit s.
(** Python [int], without a sign. *)
Definition py_int_unsigned (s : str) : Res Z :=
  if forallb nonempty_digits (split "_" s)
  then Ok (dec_val (List.concat (split "_" s))) else Err ValueError.
(** Python [int(...)] (_version.py:291, 300). *)
Definition py_int (s : option str) : Res Z :=
  match s with
  | None => Err TypeError
  | Some s =>
      match strip s with
      | [] => Err ValueError
      | c :: s' =>
          if ceqb c "-" then (do n <- py_int_unsigned s'; Ok (- n)%Z)
          else if ceqb c "+" then py_int_unsigned s'
          else py_int_unsigned (c :: s')
      end
  end.

(** ["%d" % n]. (Python.) *)
Definition digit_chr (n : N) : ascii := ascii_of_N (48 + n).
(** Python [%d], digits. *)
Fixpoint show_fuel (fuel : nat) (n : N) : str :=
  match fuel with
  | O => []
  | S k => if (n <? 10)%N then [digit_chr n]
           else show_fuel k (n / 10) ++ [digit_chr (n mod 10)]
  end.
(** Python [%d]. *)
Definition show_N (n : N) : str := show_fuel (S (N.size_nat n)) n.
(** Python [%d] (_version.py:315-440). *)
Definition show_Z (z : Z) : str :=
  if (z <? 0)%Z then "-"%char :: show_N (Z.to_N (- z)) else show_N (Z.to_N z).

(** ** Configuration *)

(** _version.py:37-48 [get_config] *)
Definition cfg_style : str := s_ "pep440".
(** _version.py:37-48. *)
Definition cfg_tag_prefix : str := s_ "v".
(** _version.py:37-48. *)
Definition cfg_parentdir_prefix : str := s_ "openscm_twolayermodel-".
(** _version.py:37-48. *)
Definition cfg_versionfile_source : str := s_ "src/openscm_twolayermodel/_version.py".

(** _version.py:20-30 [get_keywords]: a dictionary; [None] is a missing key.
    [git archive] replaces the three texts, so they are inputs of the model;
    [checkout_keywords] are those of a checked-out tree. *)
Record Keywords : Type := mkKw {
  k_refnames : option str; k_full : option str; k_date : option str }.
(** _version.py:20-30. *)
Definition checkout_keywords : Keywords :=
  mkKw (Some (s_ "$Format:%d$")) (Some (s_ "$Format:%H$")) (Some (s_ "$Format:%ci$")).

(** The dictionary returned by [get_versions]; every value may be None. (_version.py.) *)
Record VersionInfo : Type := mkVI {
  v_version : str; v_full : option str; v_dirty : option bool;
  v_error : option str; v_date : option str }.

(** ** git *)

(** What [subprocess.Popen] can do with one command: not found (ENOENT), fail to
    start otherwise, or run with some output and exit status. (_version.py:70-104.) *)
Inductive Spawn : Type := NotFound | CannotRun | Ran (stdout : str) (rc : Z).

(** _version.py:70-104 [run_command]; the argument lists the outcome for each of
    the [commands] (one, or two on Windows). *)
Fixpoint run_command (cs : list Spawn) : option str * option Z :=
  match cs with
  | [] => (None, None)
  | NotFound :: cs' => run_command cs'
  | CannotRun :: _ => (None, None)
  | Ran out rc :: _ =>
      if Z.eqb rc 0 then (Some (strip_bytes out), Some rc) else (None, Some rc)
  end.

(** Outcomes of the five git commands of [git_pieces_from_vcs]. (_version.py:217-305.) *)
Record Git : Type := mkGit {
  git_dir : list Spawn;       (* rev-parse --git-dir *)
  git_describe : list Spawn;  (* describe --tags --dirty --always --long --match v* *)
  git_head : list Spawn;      (* rev-parse HEAD *)
  git_count : list Spawn;     (* rev-list HEAD --count *)
  git_show : list Spawn }.    (* show -s --format=%ci HEAD *)

(** The [pieces] dictionary; [None] = key absent.  ["long"], ["short"],
    ["error"] and ["dirty"] are always set. (_version.py:217-305.) *)
Record Pieces : Type := mkPieces {
  p_long : str; p_short : str; p_error : option str; p_dirty : bool;
  p_tag : option (option str);  (* "closest-tag" *)
  p_distance : option Z;        (* "distance" *)
  p_date : option str }.        (* "date" *)

(** _version.py:269 [re.search(r'^(.+)-(\d+)-g([0-9a-f]+)$', s)]: [$] also matches
    before a final newline and [.] is any character but a newline.  The groups. *)
Definition chomp (s : str) : str :=
  if endswith [newline] s then drop_suffix [newline] s else s.
(** _version.py:271, the regular expression applied to [git describe]. *)
Definition match_describe (s : str) : option (str * str * str) :=
  match rpart "-" (chomp s) with
  | Some (l, g) =>
      match g, rpart "-" l with
      | c :: hex, Some (tag, num) =>
          if ceqb c "g" && negb (match hex with [] => true | _ => false end) && forallb is_hex hex
             && nonempty_digits num
             && negb (match tag with [] => true | _ => false end) && negb (cin newline tag)
          then Some (tag, num, hex) else None
      | _, _ => None
      end
  | None => None
  end.

(** _version.py:174, 303 [date.strip().replace(" ", "T", 1).replace(" ", "", 1)] *)
Definition iso_date (d : str) : str := replace1 " " [] (replace1 " " (s_ "T") (strip d)).

(** _version.py:301-305: the date is added last. *)
Definition add_date (g : Git) (p : Pieces) : Res Pieces :=
  match fst (run_command (git_show g)) with
  | None => Err AttributeError
  | Some d => Ok (mkPieces (p_long p) (p_short p) (p_error p) (p_dirty p) (p_tag p) (p_distance p)
                           (Some (iso_date (strip d))))
  end.

(** _version.py:216-305 [git_pieces_from_vcs].  [tag_prefix] is the configured
    prefix; the [--match] option given to git is part of [git_describe]. *)
Definition git_pieces_from_vcs (tag_prefix : str) (g : Git) : Res Pieces :=
  match snd (run_command (git_dir g)) with
  | Some 0%Z =>
      match fst (run_command (git_describe g)) with
      | None => Err NotThisMethod
      | Some d =>
          let describe_out := strip d in
          match fst (run_command (git_head g)) with
          | None => Err NotThisMethod
          | Some f =>
              let full_out := strip f in
              let short := firstn 7 full_out in
              let dirty := endswith (s_ "-dirty") describe_out in
              let gd := if dirty then drop_suffix (s_ "-dirty") describe_out else describe_out in
              if cin "-" gd then
                match match_describe gd with
                | None =>
                    Ok (mkPieces full_out short
                          (Some (s_ "unable to parse git-describe output: '" ++ describe_out ++ s_ "'"))
                          dirty None None None)
                | Some (full_tag, num, hex) =>
                    if startswith tag_prefix full_tag then
                      do n <- py_int (Some num);
                      add_date g (mkPieces full_out hex None dirty
                                    (Some (Some (drop_prefix tag_prefix full_tag))) (Some n) None)
                    else
                      Ok (mkPieces full_out short
                            (Some (s_ "tag '" ++ full_tag ++ s_ "' doesn't start with prefix '" ++ tag_prefix ++ s_ "'"))
                            dirty None None None)
                end
              else
                do n <- py_int (fst (run_command (git_count g)));
                add_date g (mkPieces full_out short None dirty (Some None) (Some n) None)
          end
      end
  | _ => Err NotThisMethod
  end.

(** ** Rendering *)

(** [pieces["closest-tag"]], [pieces["distance"]]: KeyError when absent. (Python.) *)
Definition key {A} (x : option A) : Res A := match x with Some v => Ok v | None => Err KeyError end.
(** Truth value of a string or None. (Python.) *)
Definition truthy (x : option str) : bool := match x with Some (_ :: _) => true | _ => false end.
(** Python [%s] of a string. *)
Definition text (x : option str) : str := match x with Some s => s | None => [] end.
(** Python truth value of an integer. *)
Definition nonzero (z : Z) : bool := negb (Z.eqb z 0).

(** _version.py:308-312 [plus_or_dot]; [pieces.get("closest-tag", "")], which is
    None when the key is there with value None: a TypeError. *)
Definition plus_or_dot (p : Pieces) : Res str :=
  match p_tag p with
  | Some None => Err TypeError
  | Some (Some t) => Ok (if cin "+" t then s_ "." else s_ "+")
  | None => Ok (s_ "+")
  end.

(** _version.py:315-337 [render_pep440] *)
Definition render_pep440 (p : Pieces) : Res str :=
  do tag <- key (p_tag p);
  if truthy tag then
    do dist <- key (p_distance p);
    if nonzero dist || p_dirty p then
      do pd <- plus_or_dot p;
      Ok (text tag ++ pd ++ show_Z dist ++ s_ ".g" ++ p_short p ++ (if p_dirty p then s_ ".dirty" else []))
    else Ok (text tag)
  else
    do dist <- key (p_distance p);
    Ok (s_ "0+untagged." ++ show_Z dist ++ s_ ".g" ++ p_short p ++ (if p_dirty p then s_ ".dirty" else [])).

(** _version.py:340-353 [render_pep440_pre] *)
Definition render_pep440_pre (p : Pieces) : Res str :=
  do tag <- key (p_tag p);
  do dist <- key (p_distance p);
  if truthy tag then
    Ok (text tag ++ (if nonzero dist then s_ ".post.dev" ++ show_Z dist else []))
  else Ok (s_ "0.post.dev" ++ show_Z dist).

(** _version.py:356-380 [render_pep440_post] *)
Definition render_pep440_post (p : Pieces) : Res str :=
  do tag <- key (p_tag p);
  do dist <- key (p_distance p);
  if truthy tag then
    if nonzero dist || p_dirty p then
      do pd <- plus_or_dot p;
      Ok (text tag ++ s_ ".post" ++ show_Z dist ++ (if p_dirty p then s_ ".dev0" else [])
            ++ pd ++ s_ "g" ++ p_short p)
    else Ok (text tag)
  else Ok (s_ "0.post" ++ show_Z dist ++ (if p_dirty p then s_ ".dev0" else []) ++ s_ "+g" ++ p_short p).

(** _version.py:383-402 [render_pep440_old] *)
Definition render_pep440_old (p : Pieces) : Res str :=
  do tag <- key (p_tag p);
  do dist <- key (p_distance p);
  if truthy tag then
    if nonzero dist || p_dirty p then
      Ok (text tag ++ s_ ".post" ++ show_Z dist ++ (if p_dirty p then s_ ".dev0" else []))
    else Ok (text tag)
  else Ok (s_ "0.post" ++ show_Z dist ++ (if p_dirty p then s_ ".dev0" else [])).

(** _version.py:405-422 [render_git_describe] *)
Definition render_git_describe (p : Pieces) : Res str :=
  do tag <- key (p_tag p);
  do r <- (if truthy tag then
             do dist <- key (p_distance p);
             Ok (text tag ++ (if nonzero dist then s_ "-" ++ show_Z dist ++ s_ "-g" ++ p_short p else []))
           else Ok (p_short p));
  Ok (r ++ (if p_dirty p then s_ "-dirty" else [])).

(** _version.py:425-442 [render_git_describe_long] *)
Definition render_git_describe_long (p : Pieces) : Res str :=
  do tag <- key (p_tag p);
  do r <- (if truthy tag then
             do dist <- key (p_distance p);
             Ok (text tag ++ s_ "-" ++ show_Z dist ++ s_ "-g" ++ p_short p)
           else Ok (p_short p));
  Ok (r ++ (if p_dirty p then s_ "-dirty" else [])).

(** _version.py:445-474 [render]; [style] may be None. *)
Definition render (p : Pieces) (style : option str) : Res VersionInfo :=
  if truthy (p_error p) then
    Ok (mkVI (s_ "unknown") (Some (p_long p)) None (p_error p) None)
  else
    let style := if negb (truthy style) || str_eqb (text style) (s_ "default") then s_ "pep440" else text style in
    do rendered <- (if str_eqb style (s_ "pep440") then render_pep440 p
                    else if str_eqb style (s_ "pep440-pre") then render_pep440_pre p
                    else if str_eqb style (s_ "pep440-post") then render_pep440_post p
                    else if str_eqb style (s_ "pep440-old") then render_pep440_old p
                    else if str_eqb style (s_ "git-describe") then render_git_describe p
                    else if str_eqb style (s_ "git-describe-long") then render_git_describe_long p
                    else Err ValueError);
    Ok (mkVI rendered (Some (p_long p)) (Some (p_dirty p)) None (p_date p)).

(** ** Keywords of a git archive *)

(** _version.py:198-207: the first of the sorted tags that has the prefix. *)
Fixpoint first_with_prefix (tag_prefix : str) (tags : list str) : option str :=
  match tags with
  | [] => None
  | r :: tags' => if startswith tag_prefix r then Some (drop_prefix tag_prefix r)
                  else first_with_prefix tag_prefix tags'
  end.

(** _version.py:180-193: the candidate tags.  The source builds sets; they are
    only iterated after [sorted], so the list stands for its set of elements. *)
Definition candidate_tags (refnames : str) : list str :=
  let refs := map strip (split "," (strip_chars (s_ "()") refnames)) in
  let tags := map (drop_prefix (s_ "tag: ")) (filter (startswith (s_ "tag: ")) refs) in
  match tags with
  | [] => filter (existsb is_digit) refs
  | _ => tags
  end.

(** _version.py:161-213 [git_versions_from_keywords] *)
Definition git_versions_from_keywords (k : Keywords) (tag_prefix : str) : Res VersionInfo :=
  match k_refnames k, k_full k, k_date k with
  | None, None, None => Err NotThisMethod
  | _, _, _ =>
      let date := match k_date k with Some d => Some (iso_date d) | None => None end in
      do refnames <- key (k_refnames k);
      let refnames := strip refnames in
      if startswith (s_ "$Format") refnames then Err NotThisMethod
      else
        match first_with_prefix tag_prefix (sorted_set (candidate_tags refnames)) with
        | Some r =>
            do full <- key (k_full k);
            Ok (mkVI r (Some (strip full)) (Some false) None date)
        | None =>
            do full <- key (k_full k);
            Ok (mkVI (s_ "0+unknown") (Some (strip full)) (Some false) (Some (s_ "no suitable tags")) None)
        end
  end.

(** ** Parent directory *)

(** [os.path.basename] and [os.path.dirname] (POSIX). (Python.) *)
Definition basename (p : str) : str :=
  match rpart "/" p with Some (_, b) => b | None => p end.
(** Python [os.path.dirname] (_version.py:126, 499). *)
Definition dirname (p : str) : str :=
  match rpart "/" p with
  | Some (a, _) =>
      let head := a ++ s_ "/" in
      let stripped := rev (lstrip_by (ceqb "/") (rev head)) in
      match stripped with [] => head | _ => stripped end
  | None => []
  end.

(** _version.py:107-129 [versions_from_parentdir]; [n] directories still to try. *)
Fixpoint parentdir_loop (n : nat) (prefix root : str) : Res VersionInfo :=
  match n with
  | O => Err NotThisMethod
  | S k =>
      if startswith prefix (basename root)
      then Ok (mkVI (drop_prefix prefix (basename root)) None (Some false) None None)
      else parentdir_loop k prefix (dirname root)
  end.
(** _version.py:107-130. *)
Definition versions_from_parentdir (prefix root : str) : Res VersionInfo := parentdir_loop 3 prefix root.

(** ** get_versions *)

(** _version.py:494-499: the root of the source tree, from the real path of the
    file. *)
Definition source_root (file : str) : str :=
  fold_left (fun r _ => dirname r) (split "/" cfg_versionfile_source) file.

(** [try: return r  except NotThisMethod: pass]; then [k]. (_version.py:477-520.) *)
Definition or_else (r : Res VersionInfo) (k : Res VersionInfo) : Res VersionInfo :=
  match r with Err NotThisMethod => k | _ => r end.

(** _version.py:477-520 [get_versions].  [file] is [os.path.realpath(__file__)],
    [None] when [__file__] is undefined; [git root] the outcomes of git in [root]. *)
Definition get_versions (k : Keywords) (file : option str) (git : str -> Git) : Res VersionInfo :=
  or_else (git_versions_from_keywords k cfg_tag_prefix)
    match file with
    | None => Ok (mkVI (s_ "0+unknown") None None (Some (s_ "unable to find root of source tree")) None)
    | Some f =>
        let root := source_root f in
        or_else (do p <- git_pieces_from_vcs cfg_tag_prefix (git root); render p (Some cfg_style))
          (or_else (versions_from_parentdir cfg_parentdir_prefix root)
             (Ok (mkVI (s_ "0+unknown") None None (Some (s_ "unable to compute version")) None)))
    end.

(** __init__.py:11 [__version__ = get_versions()["version"]]; an exception here
    makes [import openscm_twolayermodel] fail. *)
Definition package_version (k : Keywords) (file : option str) (git : str -> Git) : Res str :=
  do v <- get_versions k file git; Ok (v_version v).
