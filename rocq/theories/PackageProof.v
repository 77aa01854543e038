(** Proofs about JSON and the version files (lemmas for FactsPackage.v). *)
From Coq Require Import List String Ascii Bool Arith NArith ZArith Lia Permutation.
From Verif Require Import Arith Version VersionStr VersionFile Package SpecPackage.
Import ListNotations.

Local Ltac dchar c := destruct c as [[] [] [] [] [] [] [] []].

(** ** Strings in JSON *)
Definition scans (e : ascii -> str) (c : ascii) : Prop :=
  forall t, json_scan (e c ++ t) = pcons c (json_scan t).

Lemma scans_esc : forall c, scans json_esc c.
Proof. intros c t. dchar c; reflexivity. Qed.

Definition raw (c : ascii) : str := [c].

Lemma scans_raw : forall c, 32 <= nat_of_ascii c -> c <> """"%char -> c <> "\"%char -> scans raw c.
Proof.
  intros c H1 H2 H3 t. unfold raw. cbn [app json_scan].
  rewrite (proj2 (ceqb_neq c """")) by exact H2. rewrite (proj2 (ceqb_neq c "\")) by exact H3.
  rewrite (proj2 (Nat.ltb_ge _ _)) by exact H1. reflexivity.
Qed.

Lemma scan_str : forall e s t, Forall (scans e) s -> json_scan (flat_map e s ++ """"%char :: t) = PVal s t.
Proof.
  intros e s t H. induction H as [|c s Hc H IH].
  - reflexivity.
  - cbn [flat_map]. rewrite <- app_assoc, Hc, IH. reflexivity.
Qed.

Definition scans_val (e : ascii -> str) (v : JVal) : Prop :=
  match v with JStr s => Forall (scans e) s | _ => True end.

Lemma value_ok : forall e v t, scans_val e v -> json_value (json_val e v ++ t) = PVal v t.
Proof.
  intros e [|[]|s] t H.
  - reflexivity.
  - reflexivity.
  - reflexivity.
  - cbn [json_val]. unfold json_str. rewrite <- app_assoc.
    cbn [app s_ list_ascii_of_string json_value]. replace (ceqb """" """") with true by reflexivity.
    rewrite <- app_assoc. cbn [app s_ list_ascii_of_string]. rewrite (scan_str e s t H). reflexivity.
Qed.

Lemma jskip_value : forall e v t, jskip (s_ " " ++ json_val e v ++ t) = json_val e v ++ t.
Proof. intros e [|[]|s] t; reflexivity. Qed.

Lemma dset_new : forall k v d, ~ In k (map fst d) -> dset k v d = d ++ [(k, v)].
Proof.
  intros k v d. induction d as [|[k' v'] d IH]; intros H; [reflexivity|].
  cbn in H. cbn [dset app]. destruct (str_eqb k k') eqn:E.
  - apply str_eqb_eq in E. exfalso. apply H. left. now symmetry.
  - rewrite IH; [reflexivity|]. intros K. apply H. now right.
Qed.

Definition scans_entry (e : ascii -> str) (kv : str * JVal) : Prop :=
  Forall (scans e) (fst kv) /\ scans_val e (snd kv).

Lemma members_ok : forall e d acc n rest, d <> [] -> Forall (scans_entry e) d ->
  NoDup (map fst (acc ++ d)) ->
  json_members (List.length d + n) acc (jskip (json_items e d ++ "}"%char :: rest)) = PVal (acc ++ d) rest.
Proof.
  intros e d. induction d as [|[k v] d IH]; intros acc n rest Hd Hs Hn; [congruence|].
  inversion Hs as [|? ? [Hk Hv] Hs']; subst. cbn [fst snd] in Hk, Hv.
  assert (Hfresh : ~ In k (map fst acc)).
  { rewrite map_app in Hn. cbn in Hn. apply NoDup_remove_2 in Hn. intros K. apply Hn. apply in_or_app. now left. }
  cbn [List.length plus json_items]. unfold json_str.
  cbn [app s_ list_ascii_of_string]. unfold jskip at 1. cbn [lstrip_by].
  replace (json_ws newline) with true by reflexivity. replace (json_ws " ") with true by reflexivity.
  replace (json_ws """") with false by reflexivity.
  cbn [json_members]. replace (ceqb """" """") with true by reflexivity.
  rewrite <- !app_assoc. cbn [app]. rewrite (scan_str e k _ Hk).
  unfold jskip at 1. cbn [lstrip_by].
  replace (json_ws ":") with false by reflexivity. replace (ceqb ":" ":") with true by reflexivity.
  match goal with |- context [jskip (" "%char :: ?x)] => change (jskip (" "%char :: x)) with (jskip (s_ " " ++ x)) end.
  rewrite <- app_assoc, jskip_value, (value_ok e v _ Hv). rewrite (dset_new k v acc Hfresh).
  destruct d as [|kv d].
  - cbn [app]. reflexivity.
  - rewrite <- app_comm_cons. unfold jskip at 1. cbn [lstrip_by].
    replace (json_ws ",") with false by reflexivity. replace (ceqb "," "}") with false by reflexivity.
    replace (ceqb "," ",") with true by reflexivity.
    rewrite (IH (acc ++ [(k, v)]) n rest); [|discriminate|exact Hs'|now rewrite <- app_assoc].
    now rewrite <- app_assoc.
Qed.

(** ** Sorting *)
Lemma dinsert_perm : forall k v d, Permutation ((k, v) :: d) (dinsert k v d).
Proof.
  intros k v d. induction d as [|[k' v'] d IH]; [reflexivity|]. cbn. destruct (str_leb k k'); [reflexivity|].
  rewrite perm_swap. now constructor.
Qed.
Lemma dsort_perm : forall d, Permutation d (dsort d).
Proof.
  induction d as [|[k v] d IH]; [reflexivity|]. cbn. rewrite <- dinsert_perm. now constructor.
Qed.
Lemma dget_in : forall d k v, NoDup (map fst d) -> (dget k d = Some v <-> In (k, v) d).
Proof.
  induction d as [|[k' v'] d IH]; intros k v H; cbn; [split; [discriminate|tauto]|].
  cbn in H. inversion H as [|? ? H1 H2]; subst. destruct (str_eqb k k') eqn:E.
  - apply str_eqb_eq in E. subst k'. split.
    + intros K. inversion K; subst. now left.
    + intros [K|K]; [now inversion K|]. exfalso. apply H1. apply (in_map fst) in K. exact K.
  - rewrite IH by exact H2. split; [now right|]. intros [K|K]; [|exact K]. inversion K; subst.
    rewrite str_eqb_refl in E. discriminate.
Qed.
Lemma perm_same : forall d d', NoDup (map fst d) -> Permutation d d' -> same_dict d' d.
Proof.
  intros d d' H P k.
  assert (H' : NoDup (map fst d')) by (eapply Permutation_NoDup; [apply Permutation_map; exact P|exact H]).
  destruct (dget k d) as [v|] eqn:E.
  - apply dget_in; [exact H'|]. eapply Permutation_in; [exact P|]. now apply dget_in.
  - destruct (dget k d') as [v|] eqn:E'; [|reflexivity]. apply dget_in in E'; [|exact H'].
    symmetry in P. apply (Permutation_in _ P) in E'. apply dget_in in E'; [congruence|exact H].
Qed.
Lemma dsort_nodup : forall d, NoDup (map fst d) -> NoDup (map fst (dsort d)).
Proof. intros d H. eapply Permutation_NoDup; [apply Permutation_map, dsort_perm|exact H]. Qed.

(** Order of strings. *)
Lemma str_leb_total : forall a b, str_leb a b = true \/ str_leb b a = true.
Proof.
  induction a as [|x a IH]; intros [|y b]; [now left|now left|now right|]. cbn [str_leb].
  destruct (lt_eq_lt_dec (nat_of_ascii x) (nat_of_ascii y)) as [[L|E]|L].
  - left. apply Nat.ltb_lt in L. now rewrite L.
  - rewrite E, Nat.ltb_irrefl, Nat.eqb_refl. cbn [orb andb]. apply IH.
  - right. apply Nat.ltb_lt in L. now rewrite L.
Qed.
Inductive dsorted : Dict -> Prop :=
| ds_nil : dsorted []
| ds_one : forall k v, dsorted [(k, v)]
| ds_cons : forall k v k' v' d, str_leb k k' = true -> dsorted ((k', v') :: d) -> dsorted ((k, v) :: (k', v') :: d).
Lemma dinsert_sorted : forall k v d, dsorted d -> dsorted (dinsert k v d).
Proof.
  intros k v d H. induction H as [|k1 v1|k1 v1 k2 v2 d L H IH]; cbn.
  - constructor.
  - destruct (str_leb k k1) eqn:E.
    + constructor; [exact E|constructor].
    + constructor; [|constructor]. destruct (str_leb_total k k1); congruence.
  - cbn in IH. destruct (str_leb k k1) eqn:E.
    + constructor; [exact E|]. now constructor.
    + assert (str_leb k1 k = true) by (destruct (str_leb_total k k1); congruence).
      destruct (str_leb k k2); constructor; auto.
Qed.
Lemma dsort_sorted : forall d, dsorted (dsort d).
Proof. induction d as [|[k v] d IH]; [constructor|]. cbn. now apply dinsert_sorted. Qed.
Lemma dsort_id : forall d, dsorted d -> dsort d = d.
Proof.
  intros d H. induction H as [|k v|k v k' v' d L H IH]; [reflexivity|reflexivity|].
  change (dsort ((k, v) :: (k', v') :: d)) with (dinsert k v (dsort ((k', v') :: d))).
  rewrite IH. cbn. now rewrite L.
Qed.
Lemma dsort_idem : forall d, dsort (dsort d) = dsort d.
Proof. intros d. apply dsort_id, dsort_sorted. Qed.

(** ** json.loads after json.dumps *)
Lemma jskip_items : forall e d t, d <> [] -> exists u, jskip (json_items e d ++ t) = """"%char :: u.
Proof. intros e [|[k v] d] t H; [congruence|]. eexists. reflexivity. Qed.
Lemma items_length : forall e d, List.length d <= List.length (json_items e d).
Proof.
  induction d as [|[k v] d IH]; [reflexivity|]. cbn [json_items]. rewrite !app_length.
  destruct d as [|kv d]; [cbn; lia|]. rewrite app_length. cbn [List.length] in *. lia.
Qed.
Lemma loads_dumps : forall e d, NoDup (map fst d) -> Forall (scans_entry e) d ->
  forall a b, forallb json_ws a = true -> forallb json_ws b = true ->
  json_loads (a ++ dumps_with e d ++ b) = Some (Ok (dsort d)).
Proof.
  intros e d Hn Hs a b Ha Hb. unfold json_loads, jskip.
  rewrite lstrip_all by (intros c K; exact (proj1 (forallb_forall _ _) Ha c K)).
  unfold dumps_with. cbn [app s_ list_ascii_of_string lstrip_by].
  replace (json_ws "{") with false by reflexivity. replace (ceqb "{" "{") with true by reflexivity.
  assert (Hb' : lstrip_by json_ws b = []).
  { rewrite <- (app_nil_r b). rewrite lstrip_all by (intros c K; exact (proj1 (forallb_forall _ _) Hb c K)). reflexivity. }
  assert (P : Permutation d (dsort d)) by apply dsort_perm.
  assert (Hs' : Forall (scans_entry e) (dsort d)).
  { apply Forall_forall. intros x K. rewrite Forall_forall in Hs. apply Hs. eapply Permutation_in; [symmetry; exact P|exact K]. }
  pose proof (dsort_nodup d Hn) as Hn'. set (d' := dsort d) in *. clearbody d'.
  fold (jskip ((json_items e d' ++ ["}"%char]) ++ b)).
  rewrite <- app_assoc. cbn [app].
  destruct (match d' with [] => true | _ => false end) eqn:D0.
  - destruct d'; [|discriminate]. cbn. replace (json_ws "}") with false by reflexivity. cbn. now rewrite Hb'.
  - assert (D : d' <> []) by (intros ->; discriminate). clear D0.
    destruct (jskip_items e d' ("}"%char :: b)) as (u & U); [exact D|].
    rewrite U. replace (ceqb """" "}") with false by reflexivity. rewrite <- U.
    set (N := S (List.length (a ++ "{"%char :: json_items e d' ++ "}"%char :: b))).
    assert (HN : exists n, N = List.length d' + n).
    { exists (N - List.length d'). unfold N. rewrite !app_length. cbn [List.length]. rewrite app_length.
      pose proof (items_length e d'). lia. }
    replace (S (List.length (a ++ "{"%char :: (json_items e d' ++ ["}"%char]) ++ b))) with N
      by (unfold N; rewrite <- app_assoc; reflexivity).
    destruct HN as (n & ->). rewrite (members_ok e d' [] n b); [|exact D|exact Hs'|exact Hn'].
    cbn [app]. now rewrite Hb'.
Qed.

(** ** The literal in Python *)
Definition pfront (s : str) (r : option (str * str)) : option (str * str) :=
  match r with Some (a, b) => Some (s ++ a, b) | None => None end.
Lemma pfront_app : forall a b r, pfront a (pfront b r) = pfront (a ++ b) r.
Proof. intros a b [[x y]|]; cbn; [now rewrite app_assoc|reflexivity]. Qed.

Lemma triple_char : forall c t, 32 <= nat_of_ascii c -> c <> """"%char -> c <> "\"%char ->
  (c = "'"%char -> startswith (s_ "''") t = false) ->
  py_triple (json_esc c ++ t) = pfront [c] (py_triple t).
Proof.
  intros c t H1 H2 H3 H4.
  dchar c; try (exfalso; cbn in H1; lia); try congruence;
    try reflexivity.
  specialize (H4 eq_refl). change (json_esc "'" ++ t) with ("'"%char :: t). cbn [py_triple].
  rewrite H4. replace (ceqb "'" "'") with true by reflexivity. cbn [andb].
  replace (ceqb "'" "\") with false by reflexivity. destruct (py_triple t) as [[? ?]|]; reflexivity.
Qed.

Lemma esc_head_quote : forall c t, startswith (s_ "'") (json_esc c ++ t) = ceqb c "'".
Proof. intros c t. dchar c; reflexivity. Qed.

Lemma startswith2 : forall a b t, startswith [a; b] t = match t with x :: u => ceqb a x && startswith [b] u | [] => false end.
Proof. intros a b [|x u]; reflexivity. Qed.

Lemma esc_two_quotes : forall s t, startswith (s_ "''") (flat_map json_esc s ++ """"%char :: t) = startswith (s_ "''") s.
Proof.
  intros [|c s] t; [reflexivity|]. cbn [flat_map]. rewrite <- app_assoc.
  destruct (ceqb c "'") eqn:E.
  - apply ceqb_eq in E. subst c. change (json_esc "'") with ["'"%char]. cbn [app s_ list_ascii_of_string].
    rewrite !startswith2. replace (ceqb "'" "'") with true by reflexivity. cbn [andb].
    destruct s as [|c2 s]; [reflexivity|]. cbn [flat_map]. rewrite <- app_assoc.
    pose proof (esc_head_quote c2 (flat_map json_esc s ++ """"%char :: t)) as Q. cbn [s_ list_ascii_of_string] in Q.
    rewrite Q. cbn [startswith]. rewrite andb_true_r. unfold ceqb. apply Ascii.eqb_sym.
  - pose proof (esc_head_quote c (flat_map json_esc s ++ """"%char :: t)) as Q. rewrite E in Q.
    cbn [s_ list_ascii_of_string] in *. rewrite startswith2.
    destruct (json_esc c ++ flat_map json_esc s ++ """"%char :: t) as [|x u] eqn:X.
    + cbn [startswith]. unfold ceqb in *. rewrite Ascii.eqb_sym, E. reflexivity.
    + cbn [startswith] in Q. rewrite andb_true_r in Q. rewrite Q. cbn [startswith andb].
      unfold ceqb in *. rewrite (Ascii.eqb_sym "'" c), E. reflexivity.
Qed.

Lemma plain_tail : forall c s, plain_text (c :: s) -> plain_text s.
Proof.
  intros c s [H1 H2]. split.
  - intros x K. apply H1. now right.
  - intros a b E. apply (H2 (c :: a) b). now rewrite E.
Qed.

Lemma triple_text : forall s t, plain_text s ->
  py_triple (flat_map json_esc s ++ """"%char :: t) = pfront (s ++ s_ """") (py_triple t).
Proof.
  induction s as [|c s IH]; intros t H.
  - cbn. destruct (py_triple t) as [[? ?]|]; reflexivity.
  - cbn [flat_map]. rewrite <- app_assoc. destruct (proj1 H c) as (A & B & C); [now left|].
    rewrite triple_char; [|exact A|exact B|exact C|].
    + rewrite IH by (eapply plain_tail; exact H). now rewrite pfront_app.
    + intros ->. rewrite esc_two_quotes. destruct (startswith (s_ "''") s) eqn:E; [|reflexivity].
      apply startswith_spec in E. destruct E as (u & E). exfalso. apply (proj2 H [] u). cbn. now rewrite E.
Qed.

Definition benign (c : ascii) : bool := negb (ceqb c "'") && negb (ceqb c "\").
Lemma triple_benign : forall s t, forallb benign s = true -> py_triple (s ++ t) = pfront s (py_triple t).
Proof.
  induction s as [|c s IH]; intros t H.
  - cbn. destruct (py_triple t) as [[? ?]|]; reflexivity.
  - cbn [forallb] in H. apply andb_prop in H. destruct H as [H1 H2]. unfold benign in H1. apply andb_prop in H1.
    destruct H1 as [Q B]. apply negb_true_iff in Q, B. cbn [app py_triple]. rewrite Q, B. cbn [andb].
    rewrite IH by exact H2. destruct (py_triple t) as [[? ?]|]; reflexivity.
Qed.

Lemma triple_jstr : forall s t, plain_text s ->
  py_triple (json_str json_esc s ++ t) = pfront (json_str raw s) (py_triple t).
Proof.
  intros s t H. unfold json_str. rewrite <- !app_assoc. rewrite triple_benign by reflexivity.
  cbn [app s_ list_ascii_of_string]. rewrite triple_text by exact H. rewrite pfront_app.
  replace (flat_map raw s) with s; [reflexivity|]. clear. induction s as [|c s IH]; [reflexivity|]. cbn. now rewrite <- IH.
Qed.
Lemma triple_jval : forall v t, plain_value v ->
  py_triple (json_val json_esc v ++ t) = pfront (json_val raw v) (py_triple t).
Proof.
  intros [|[]|s] t H; cbn [json_val].
  - now apply triple_benign.
  - now apply triple_benign.
  - now apply triple_benign.
  - now apply triple_jstr.
Qed.
Lemma triple_items : forall d t, plain_dict d ->
  py_triple (json_items json_esc d ++ t) = pfront (json_items raw d) (py_triple t).
Proof.
  induction d as [|[k v] d IH]; intros t H; cbn [json_items].
  - cbn. destruct (py_triple t) as [[? ?]|]; reflexivity.
  - destruct (H k v) as [Hk Hv]; [now left|]. rewrite <- !app_assoc.
    rewrite triple_benign by reflexivity. rewrite triple_benign by reflexivity.
    rewrite (triple_jstr k) by exact Hk. rewrite triple_benign by reflexivity.
    rewrite triple_jval by exact Hv. destruct d as [|kv d].
    + rewrite triple_benign by reflexivity. rewrite !pfront_app. now rewrite <- !app_assoc.
    + rewrite <- app_assoc. rewrite triple_benign by reflexivity. rewrite IH.
      * rewrite !pfront_app. now rewrite <- !app_assoc.
      * intros k' v' K. apply H. now right.
Qed.
Lemma triple_dumps : forall d t, plain_dict d ->
  py_triple (json_dumps d ++ t) = pfront (dumps_with raw d) (py_triple t).
Proof.
  intros d t H. unfold json_dumps, dumps_with. rewrite <- !app_assoc. rewrite triple_benign by reflexivity.
  rewrite triple_items.
  - rewrite triple_benign by reflexivity. rewrite !pfront_app. now rewrite <- !app_assoc.
  - intros k v K. apply H. eapply Permutation_in; [symmetry; apply dsort_perm|exact K].
Qed.

Lemma plain_scans : forall d, plain_dict d -> Forall (scans_entry raw) d.
Proof.
  intros d H. apply Forall_forall. intros [k v] K. destruct (H k v K) as [Hk Hv]. split; cbn [fst snd].
  - apply Forall_forall. intros c I. destruct (proj1 Hk c I) as (A & B & C). now apply scans_raw.
  - destruct v as [| |s]; try exact I. apply Forall_forall. intros c I. destruct (proj1 Hv c I) as (A & B & C). now apply scans_raw.
Qed.
Lemma esc_scans : forall d, Forall (scans_entry json_esc) d.
Proof.
  intros d. apply Forall_forall. intros [k v] _. split.
  - apply Forall_forall. intros c _. apply scans_esc.
  - destruct v; try exact I. apply Forall_forall. intros c _. apply scans_esc.
Qed.

(** ** Searching *)
Lemma find_last_front : forall p x z a b, find_last p z = Some (a, b) -> find_last p (x ++ z) = Some (x ++ a, b).
Proof. intros p x z a b H. induction x as [|c x IH]; [exact H|]. cbn [app find_last]. now rewrite IH. Qed.

Lemma short_last : forall x, find_last json_close (x ++ json_close ++ short_tail) = Some (x, short_tail).
Proof. intros x. rewrite (find_last_front _ x _ [] short_tail); [now rewrite app_nil_r|]. reflexivity. Qed.
Lemma short_first : forall x, find_first json_open (short_head ++ json_open ++ x) = Some (short_head, x).
Proof. intros x. reflexivity. Qed.

Lemma from_file_short : forall d, NoDup (map fst d) ->
  versions_from_file (Some (short_version_py d)) = Some (Ok (dsort d)).
Proof.
  intros d H. unfold versions_from_file, short_version_py. rewrite short_first.
  rewrite app_assoc, short_last. apply (loads_dumps json_esc d H (esc_scans d) [] [newline]); reflexivity.
Qed.

Lemma import_short_ok : forall d, NoDup (map fst d) -> plain_dict d ->
  import_short (short_version_py d) = Some (Ok (dsort d)).
Proof.
  intros d H P. unfold import_short, short_version_py.
  assert (E : short_head ++ json_open ++ json_dumps d ++ [newline] ++ json_close ++ short_tail =
              (short_head ++ s_ "version_json = '''") ++ [newline] ++ json_dumps d ++ [newline] ++
              s_ "'''" ++ s_ "  # END VERSION_JSON" ++ short_tail).
  { unfold json_open, json_close. now rewrite <- !app_assoc. }
  rewrite E, startswith_app, drop_prefix_app.
  rewrite triple_benign by reflexivity. rewrite triple_dumps by exact P. rewrite triple_benign by reflexivity.
  replace (py_triple (s_ "'''" ++ s_ "  # END VERSION_JSON" ++ short_tail)) with (Some ([] : str, s_ "  # END VERSION_JSON" ++ short_tail)) by reflexivity.
  cbn [pfront]. rewrite str_eqb_refl. rewrite app_nil_r.
  apply (loads_dumps raw d H (plain_scans d P) [newline] [newline]); reflexivity.
Qed.

(** ** Lines *)
Lemma split_app_nl : forall a b, split newline (a ++ newline :: b) = split newline a ++ split newline b.
Proof.
  induction a as [|c a IH]; intros b.
  - reflexivity.
  - cbn [app split]. destruct (ceqb c newline); [now rewrite IH|]. rewrite IH.
    destruct (split newline a) as [|w ws] eqn:E; [|reflexivity].
    exfalso. clear -E. destruct a as [|x a]; cbn [split] in E; [discriminate E|].
    destruct (ceqb x newline); [discriminate E|]. destruct (split newline a); discriminate E.
Qed.
Lemma split_no_nl : forall a, ~ In newline a -> split newline a = [a].
Proof.
  induction a as [|c a IH]; intros H; [reflexivity|]. cbn [split].
  rewrite (proj2 (ceqb_neq c newline)) by (intros ->; apply H; now left).
  rewrite IH; [reflexivity|]. intros K. apply H. now right.
Qed.
Lemma split_app_no_nl : forall a j, ~ In newline j -> exists pre l, split newline (a ++ j) = pre ++ [l ++ j].
Proof.
  induction a as [|c a IH]; intros j H.
  - exists [], []. now apply split_no_nl.
  - destruct (IH j H) as (pre & l & E). cbn [app split]. destruct (ceqb c newline).
    + exists ([] :: pre), l. now rewrite E.
    + rewrite E. destruct pre as [|w pre]; [exists [], (c :: l)|exists ((c :: w) :: pre), l]; reflexivity.
Qed.

Lemma lstrip_suffix : forall f s, exists u, s = u ++ lstrip_by f s.
Proof.
  intros f s. induction s as [|c s (u & IH)]; [now exists []|]. cbn. destruct (f c).
  - exists (c :: u). cbn. now rewrite <- IH.
  - now exists [].
Qed.
Lemma strip_prefix : forall s, exists u, lstrip_by space_s s = strip s ++ u.
Proof.
  intros s. unfold strip, strip_by. set (t := lstrip_by space_s s).
  destruct (lstrip_suffix space_s (rev t)) as (u & E). exists (rev u).
  rewrite <- rev_app_distr, <- E. now rewrite rev_involutive.
Qed.

Definition kw_names : list str := [s_ "git_refnames"; s_ "git_full"; s_ "git_date"].
Definition not_kw (l : str) : bool :=
  let t := lstrip_by space_s l in forallb (fun n => negb (startswith (n ++ s_ " =") t)) kw_names.

Lemma not_kw_line : forall name l, In name kw_names -> not_kw l = true -> startswith (name ++ s_ " =") (strip l) = false.
Proof.
  intros name l I H. destruct (startswith _ (strip l)) eqn:E; [|reflexivity]. exfalso.
  apply startswith_spec in E. destruct E as (t & E). destruct (strip_prefix l) as (u & U).
  unfold not_kw in H. cbv zeta in H. rewrite forallb_forall in H. specialize (H name I).
  rewrite U, E, <- !(app_assoc _ t u) in H. rewrite startswith_app in H. discriminate.
Qed.

Definition kw_step (name : str) (acc : option str) (line : str) : option str :=
  if startswith (name ++ s_ " =") (strip line)
  then match match_quoted line with Some g => Some g | None => acc end
  else acc.
Lemma kw_quiet : forall name lines acc, In name kw_names -> forallb not_kw lines = true ->
  fold_left (kw_step name) lines acc = acc.
Proof.
  intros name lines. induction lines as [|l lines IH]; intros acc I H; [reflexivity|].
  cbn [forallb] in H. apply andb_prop in H. destruct H as [H1 H2]. cbn [fold_left].
  unfold kw_step at 2. rewrite (not_kw_line name l I H1). now apply IH.
Qed.
Lemma names_in : In (s_ "git_refnames") kw_names /\ In (s_ "git_full") kw_names /\ In (s_ "git_date") kw_names.
Proof. unfold kw_names. cbn [In]. tauto. Qed.
Lemma keyword_line_step : forall name lines, keyword_line name lines = fold_left (kw_step name) lines None.
Proof. reflexivity. Qed.

(** ** No keyword in a written file *)
Definition quiet (t : str) : Prop := forallb not_kw (split newline t) = true.
Lemma quiet_nl : forall a b, quiet (a ++ newline :: b) <-> quiet a /\ quiet b.
Proof. intros a b. unfold quiet. rewrite split_app_nl, forallb_app, andb_true_iff. reflexivity. Qed.

Lemma esc_no_nl : forall c, ~ In newline (json_esc c).
Proof. intros c. dchar c; cbv; intuition discriminate. Qed.
Lemma jstr_no_nl : forall s, ~ In newline (json_str json_esc s).
Proof.
  intros s H. unfold json_str in H. apply in_app_or in H. destruct H as [H|H]; [cbn in H; intuition discriminate|].
  apply in_app_or in H. destruct H as [H|H]; [|cbn in H; intuition discriminate].
  apply in_flat_map in H. destruct H as (c & _ & H). exact (esc_no_nl c H).
Qed.
Lemma jval_no_nl : forall v, ~ In newline (json_val json_esc v).
Proof.
  intros [|[]|s]; cbn [json_val]; try (cbv; intuition discriminate). apply jstr_no_nl.
Qed.
Definition item (k : str) (v : JVal) : str := s_ " " ++ json_str json_esc k ++ s_ ": " ++ json_val json_esc v.
Lemma item_no_nl : forall k v, ~ In newline (item k v).
Proof.
  intros k v H. unfold item in H. rewrite !in_app_iff in H.
  destruct H as [H|[H|[H|H]]].
  - cbv in H; intuition discriminate.
  - exact (jstr_no_nl k H).
  - cbv in H; intuition discriminate.
  - exact (jval_no_nl v H).
Qed.
Lemma item_not_kw : forall k v t, not_kw (item k v ++ t) = true.
Proof. intros. reflexivity. Qed.
Lemma quiet_line : forall l, ~ In newline l -> not_kw l = true -> quiet l.
Proof. intros l H K. unfold quiet. rewrite split_no_nl by exact H. cbn [forallb]. now rewrite K. Qed.

Lemma quiet_items : forall d x t, d <> [] -> quiet x -> quiet t ->
  quiet (x ++ json_items json_esc d ++ t).
Proof.
  induction d as [|[k v] d IH]; intros x t Hd Hx Ht; [congruence|].
  cbn [json_items]. destruct d as [|kv d].
  - replace (x ++ _ ++ t) with (x ++ newline :: (item k v ++ newline :: t)).
    2:{ unfold item. cbn [app]. now rewrite <- !app_assoc. }
    rewrite !quiet_nl. split; [exact Hx|]. split; [|exact Ht].
    apply quiet_line; [apply item_no_nl|reflexivity].
  - replace (x ++ _ ++ t) with (x ++ newline :: ((item k v ++ s_ ",") ++ json_items json_esc (kv :: d) ++ t)).
    2:{ unfold item. cbn [app]. now rewrite <- !app_assoc. }
    rewrite quiet_nl. split; [exact Hx|]. apply IH; [discriminate| |exact Ht].
    apply quiet_line; [|reflexivity]. intros K. apply in_app_or in K. destruct K as [K|K].
    + exact (item_no_nl k v K).
    + cbv in K; intuition discriminate.
Qed.

Lemma quiet_short : forall d, quiet (short_version_py d).
Proof.
  intros d. unfold short_version_py, json_open, json_dumps, dumps_with.
  set (d' := dsort d). clearbody d'.
  replace (short_head ++ _ ++ _) with
    ((short_head ++ s_ "version_json = '''") ++ newline :: (s_ "{" ++ json_items json_esc d' ++ (s_ "}" ++ newline :: json_close ++ short_tail))).
  2:{ now rewrite <- !app_assoc. }
  apply quiet_nl. split; [reflexivity|]. destruct d' as [|kv d']; [reflexivity|].
  apply quiet_items; [discriminate|reflexivity|reflexivity].
Qed.

Lemma short_no_keywords : forall d, git_get_keywords (Some (short_version_py d)) = mkKw None None None.
Proof.
  intros d. unfold git_get_keywords, readlines. rewrite !keyword_line_step.
  pose proof (quiet_short d) as Q. unfold quiet in Q.
  destruct names_in as (I1 & I2 & I3). now rewrite !kw_quiet by assumption.
Qed.

Lemma build_short : forall d root git, NoDup (map fst d) ->
  build_versions (Some (short_version_py d)) root git = Some (Ok (dsort d)).
Proof.
  intros d root git H. unfold build_versions. rewrite short_no_keywords.
  change (git_versions_from_keywords (mkKw None None None) cfg_tag_prefix) with (@Err VersionInfo NotThisMethod).
  cbn [as_dict else_try]. now rewrite from_file_short.
Qed.

(** ** The file of a checkout or archive *)
Definition text_of (lines : list str) : str := flat_map (fun l => l ++ [newline]) lines.
Lemma split_text : forall lines, Forall (fun l => ~ In newline l) lines -> split newline (text_of lines) = lines ++ [[]].
Proof.
  intros lines H. induction H as [|l lines Hl H IH]; [reflexivity|].
  unfold text_of. cbn [flat_map]. rewrite <- app_assoc. cbn [app]. rewrite split_app_nl.
  rewrite split_no_nl by exact Hl. fold (text_of lines). now rewrite IH.
Qed.
Lemma find_first_sound : forall p s a b, find_first p s = Some (a, b) -> s = a ++ p ++ b.
Proof.
  intros p s. induction s as [|c s IH]; intros a b H; cbn [find_first] in H.
  - destruct (startswith p []) eqn:E; [|discriminate]. inversion H; subst. destruct p; [reflexivity|discriminate E].
  - destruct (startswith p (c :: s)) eqn:E.
    + inversion H; subst. apply startswith_spec in E. destruct E as (t & E). rewrite E, drop_prefix_app. reflexivity.
    + destruct (find_first p s) as [[x y]|]; [|discriminate]. inversion H; subst. cbn. now rewrite (IH x b eq_refl).
Qed.

Definition J : str := s_ "version_json = '''".
Lemma J_no_nl : ~ In newline J.
Proof. cbv. intuition discriminate. Qed.
Lemma no_open : forall lines, Forall (fun l => ~ In newline l) lines -> Forall (fun l => endswith J l = false) lines ->
  find_first json_open (text_of lines) = None.
Proof.
  intros lines Hn He. destruct (find_first json_open (text_of lines)) as [[a b]|] eqn:E; [|reflexivity]. exfalso.
  apply find_first_sound in E. pose proof (split_text lines Hn) as S. rewrite E in S.
  unfold json_open in S. fold J in S. rewrite <- app_assoc in S. cbn [app] in S. rewrite app_assoc in S.
  rewrite split_app_nl in S. destruct (split_app_no_nl a J J_no_nl) as (pre & l & E'). rewrite E' in S.
  assert (I : In (l ++ J) (lines ++ [[]])).
  { rewrite <- S. apply in_or_app. left. apply in_or_app. right. now left. }
  apply in_app_or in I. destruct I as [I|[I|[]]].
  - rewrite Forall_forall in He. apply He in I. rewrite endswith_app in I. discriminate.
  - destruct l; discriminate.
Qed.

Definition line_ok (l : str) : bool := negb (cin newline l) && negb (endswith J l) && not_kw l.
Lemma before_ok : forallb line_ok (map s_ version_py_before) = true.
Proof. exact_no_check (eq_refl true). Qed.
Lemma after_ok : forallb line_ok (map s_ version_py_after) = true.
Proof. exact_no_check (eq_refl true). Qed.

Lemma ok_no_nl : forall ls, forallb line_ok ls = true -> Forall (fun l => ~ In newline l) ls.
Proof.
  intros ls H. apply Forall_forall. intros l K. apply (proj1 (forallb_forall _ _) H) in K.
  unfold line_ok in K. rewrite !andb_true_iff in K. destruct K as [[K _] _]. apply negb_true_iff in K. now apply cin_notin.
Qed.
Lemma ok_no_J : forall ls, forallb line_ok ls = true -> Forall (fun l => endswith J l = false) ls.
Proof.
  intros ls H. apply Forall_forall. intros l K. apply (proj1 (forallb_forall _ _) H) in K.
  unfold line_ok in K. rewrite !andb_true_iff in K. destruct K as [[_ K] _]. now apply negb_true_iff in K.
Qed.
Lemma ok_not_kw : forall ls, forallb line_ok ls = true -> forallb not_kw ls = true.
Proof.
  intros ls H. apply forallb_forall. intros l K. apply (proj1 (forallb_forall _ _) H) in K.
  unfold line_ok in K. rewrite !andb_true_iff in K. tauto.
Qed.

Definition one_line (s : str) : Prop := ~ In newline s.

Lemma kw_lines_no_nl : forall r f d, one_line r -> one_line f -> one_line d ->
  Forall (fun l => ~ In newline l) (keyword_lines r f d).
Proof.
  intros r f d Hr Hf Hd. unfold keyword_lines.
  assert (P : forall p x, ~ In newline p -> one_line x -> ~ In newline (p ++ x ++ s_ """")).
  { intros p x Hp Hx K. rewrite !in_app_iff in K. destruct K as [K|[K|K]]; [auto|exact (Hx K)|cbv in K; intuition discriminate]. }
  repeat constructor; apply P; auto; cbv; intuition discriminate.
Qed.
Lemma kw_lines_no_J : forall r f d, Forall (fun l => endswith J l = false) (keyword_lines r f d).
Proof.
  intros r f d. assert (P : forall p x, endswith J (p ++ x ++ s_ """") = false).
  { intros p x. rewrite app_assoc. change J with (s_ "version_json = ''" ++ ["'"%char]).
    apply endswith_last_neq. discriminate. }
  unfold keyword_lines. repeat constructor; apply P.
Qed.
Definition long_lines (r f d : str) : list str :=
  map s_ version_py_before ++ keyword_lines r f d ++ map s_ version_py_after.
Lemma long_text : forall r f d, long_version_py r f d = text_of (long_lines r f d).
Proof. reflexivity. Qed.
Lemma long_no_nl : forall r f d, one_line r -> one_line f -> one_line d ->
  Forall (fun l => ~ In newline l) (long_lines r f d).
Proof.
  intros. unfold long_lines. apply Forall_app. split; [apply ok_no_nl, before_ok|].
  apply Forall_app. split; [now apply kw_lines_no_nl|apply ok_no_nl, after_ok].
Qed.
Lemma long_not_json : forall r f d, one_line r -> one_line f -> one_line d ->
  versions_from_file (Some (long_version_py r f d)) = Some (Err NotThisMethod).
Proof.
  intros r f d Hr Hf Hd. unfold versions_from_file. rewrite long_text, no_open; [reflexivity|now apply long_no_nl|].
  unfold long_lines. apply Forall_app. split; [apply ok_no_J, before_ok|].
  apply Forall_app. split; [apply kw_lines_no_J|apply ok_no_J, after_ok].
Qed.

Lemma strip_kw : forall n x, hd_error n = Some "g"%char ->
  strip (s_ "    " ++ n ++ x ++ s_ """") = n ++ x ++ s_ """".
Proof.
  intros n x H. unfold strip. pose proof (strip_both space_s (s_ "    ") (n ++ x ++ s_ """") []) as S.
  rewrite app_nil_r in S. apply S.
  - intros c K. cbn in K. destruct K as [<-|[<-|[<-|[<-|[]]]]]; reflexivity.
  - intros c [].
  - intros c [K|K].
    + destruct n as [|y n]; [discriminate|]. cbn in K, H. assert (c = "g"%char) by congruence. subst c. reflexivity.
    + rewrite app_assoc, rev_app_distr in K. cbn in K. inversion K. reflexivity.
Qed.
Lemma quoted_kw : forall n x, ~ In "="%char n ->
  match_quoted (n ++ s_ "= """ ++ x ++ s_ """") = Some x.
Proof.
  induction n as [|c n IH]; intros x H.
  - cbn [app s_ list_ascii_of_string match_quoted]. replace (ceqb "=" "=") with true by reflexivity.
    cbn [lstrip_by]. replace (space_s " ") with true by reflexivity. replace (space_s """") with false by reflexivity.
    replace (ceqb """" """") with true by reflexivity.
    replace (rpart """" (x ++ [""""%char])) with (Some (x, [] : str)); [reflexivity|].
    symmetry. apply rpart_spec. split; [reflexivity|]. intros [].
  - rewrite <- app_comm_cons. cbn [match_quoted].
    rewrite (proj2 (ceqb_neq c "=")) by (intros ->; apply H; now left). apply IH. intros K. apply H. now right.
Qed.

Lemma long_keywords : forall r f d, one_line r -> one_line f -> one_line d ->
  git_get_keywords (Some (long_version_py r f d)) = mkKw (Some r) (Some f) (Some d).
Proof.
  intros r f d Hr Hf Hd. unfold git_get_keywords, readlines. rewrite long_text, split_text by now apply long_no_nl.
  unfold long_lines. rewrite !keyword_line_step.
  assert (F : forall name, In name kw_names -> fold_left (kw_step name)
     ((map s_ version_py_before ++ keyword_lines r f d ++ map s_ version_py_after) ++ [[]]) None =
     fold_left (kw_step name) (keyword_lines r f d) None).
  { intros name I. rewrite !fold_left_app. rewrite (kw_quiet name [[]]) by (exact I || reflexivity).
    rewrite (kw_quiet name (map s_ version_py_before)) by (exact I || apply ok_not_kw, before_ok).
    rewrite (kw_quiet name (map s_ version_py_after)) by (exact I || apply ok_not_kw, after_ok). reflexivity. }
  assert (K : forall name acc n x, hd_error n = Some "g"%char -> ~ In "="%char n ->
     kw_step name acc (s_ "    " ++ (n ++ s_ "= """) ++ x ++ s_ """") =
     if startswith (name ++ s_ " =") (n ++ s_ "= """ ++ x ++ s_ """") then Some x else acc).
  { intros name acc n x H1 H2. unfold kw_step. rewrite strip_kw by (destruct n; [discriminate|exact H1]).
    rewrite <- (app_assoc n). rewrite (app_assoc (s_ "    ") n).
    rewrite quoted_kw; [reflexivity|]. intros I. apply in_app_or in I. destruct I as [I|I]; [cbv in I; intuition discriminate|auto]. }
  destruct names_in as (I1 & I2 & I3). rewrite !F by assumption. unfold keyword_lines. cbn [fold_left].
  change (s_ "    git_refnames = """) with (s_ "    " ++ (s_ "git_refnames " ++ s_ "= """)).
  change (s_ "    git_full = """) with (s_ "    " ++ (s_ "git_full " ++ s_ "= """)).
  change (s_ "    git_date = """) with (s_ "    " ++ (s_ "git_date " ++ s_ "= """)).
  rewrite <- !(app_assoc (s_ "    ")).
  rewrite !K by (reflexivity || (cbv; intuition discriminate)). reflexivity.
Qed.

(** ** Paths *)
Lemma dirname_app' : forall d f, (exists c t, d = t ++ [c] /\ c <> "/"%char) -> ~ In "/"%char f ->
  dirname (d ++ s_ "/" ++ f) = d.
Proof.
  intros d f (c & t & E & Hc) Hf. unfold dirname.
  replace (rpart "/" (d ++ s_ "/" ++ f)) with (Some (d, f)).
  2:{ symmetry. apply rpart_spec. now split. }
  cbv zeta. rewrite rev_app_distr. cbn [rev app s_ list_ascii_of_string lstrip_by].
  replace (ceqb "/" "/") with true by reflexivity.
  rewrite lstrip_id.
  - rewrite rev_involutive. subst d. destruct t; reflexivity.
  - intros x K. rewrite E, rev_app_distr in K. cbn in K. inversion K; subst. apply ceqb_neq. congruence.
Qed.
Lemma version_path_root : forall root, directory root -> source_root (version_path root) = root.
Proof.
  intros root [->|(a & c & -> & Hc)]; [reflexivity|].
  set (root := s_ "/" ++ a ++ [c]).
  assert (L : exists c t, root = t ++ [c] /\ c <> "/"%char).
  { exists c, (s_ "/" ++ a). split; [unfold root; now rewrite app_assoc|exact Hc]. }
  assert (V : version_path root = ((root ++ s_ "/" ++ s_ "src") ++ s_ "/" ++ s_ "openscm_twolayermodel") ++ s_ "/" ++ s_ "_version.py").
  { unfold version_path. change root with ("/"%char :: (a ++ [c])) at 1.
    replace (endswith (s_ "/") root) with false; [|symmetry].
    - unfold cfg_versionfile_source. now rewrite <- !app_assoc.
    - unfold root. rewrite app_assoc. change (s_ "/") with ([] ++ ["/"%char]) at 1. apply endswith_last_neq. congruence. }
  rewrite V. unfold source_root.
  replace (split "/" cfg_versionfile_source) with [s_ "src"; s_ "openscm_twolayermodel"; s_ "_version.py"] by reflexivity.
  cbn [fold_left]. rewrite dirname_app'; [|exists "l"%char|cbv; intuition discriminate].
  2:{ exists ((root ++ s_ "/" ++ s_ "src") ++ s_ "/" ++ s_ "openscm_twolayermode"). split; [now rewrite <- !app_assoc|discriminate]. }
  rewrite dirname_app'; [|exists "c"%char|cbv; intuition discriminate].
  2:{ exists (root ++ s_ "/" ++ s_ "sr"). split; [now rewrite <- !app_assoc|discriminate]. }
  apply dirname_app'; [exact L|cbv; intuition discriminate].
Qed.

(** ** Setup against import *)
Lemma else_as : forall r r', else_try (as_dict r) (as_dict r') = as_dict (or_else r r').
Proof. intros [v|e] r'; [reflexivity|]. destruct e; reflexivity. Qed.

Lemma build_long : forall r f d root git, one_line r -> one_line f -> one_line d -> directory root ->
  build_versions (Some (long_version_py r f d)) root (git root) =
  as_dict (get_versions (mkKw (Some r) (Some f) (Some d)) (Some (version_path root)) git).
Proof.
  intros r f d root git Hr Hf Hd R. unfold build_versions. rewrite long_keywords, long_not_json by assumption.
  unfold get_versions. rewrite version_path_root by exact R. cbv zeta.
  cbn [else_try]. now rewrite !else_as.
Qed.
