(** Lemmas about the parser of Config.v (C66). *)
From Coq Require Import List String Ascii Bool Arith Lia.
From Verif Require Import Arith Version VersionStr Package PackageProof Install SpecInstall InstallProof GenInstall Config SpecConfig.
Import ListNotations.
Local Open Scope list_scope.

(** ** Percent signs *)
Lemma substitute_written : forall sub v n, List.length (written v) < n -> substitute sub n (written v) = Some v.
Proof.
  intros sub v. induction v as [|c v IH]; intros n H.
  - destruct n; [cbn in H; lia|reflexivity].
  - cbn [written flat_map] in *. fold (written v) in *. destruct (Ascii.ascii_dec c "%"%char) as [->|N].
    + destruct n; [lia|]. cbn [app substitute]. cbn [ceqb Ascii.eqb Bool.eqb negb] in *.
      change (ceqb "%" "%") with true. cbn [negb]. rewrite IH; [reflexivity|]. cbn [app List.length] in H. lia.
    + destruct n; [lia|]. cbn [app substitute]. rewrite (proj2 (ceqb_neq c "%"%char) N). cbn [negb].
      rewrite IH; [reflexivity|]. cbn [app List.length] in H. lia.
Qed.
Lemma interpolate_written : forall d get v, interpolate (S d) get (written v) = Some v.
Proof. intros. cbn [interpolate]. apply substitute_written. lia. Qed.

(** ** Invariants of the parser *)
Definition key_sec (e : (str * str) * list str) : str := fst (fst e).

Lemma bad_sticky : forall L p, p_bad p = true -> p_bad (read_line p L) = true.
Proof.
  intros L p H. unfold read_line. destruct (strip L) as [|c v].
  - destruct (p_section p), (p_option p); exact H.
  - destruct (ceqb c "#" || ceqb c ";"); [exact H|].
    destruct (p_section p) as [s|] eqn:S.
    + destruct (p_option p).
      * destruct (Nat.ltb (p_indent p) (indentation L)); [exact H|].
        destruct (header (c :: v)) as [n|].
        -- destruct (member n (p_sections p) && _); [reflexivity|exact H].
        -- destruct (delimited (c :: v)) as [[o w]|]; [|reflexivity].
           destruct (rstrip o); [reflexivity|]. destruct (entry _ _); [reflexivity|exact H].
      * destruct (header (c :: v)) as [n|].
        -- destruct (member n (p_sections p) && _); [reflexivity|exact H].
        -- destruct (delimited (c :: v)) as [[o w]|]; [|reflexivity].
           destruct (rstrip o); [reflexivity|]. destruct (entry _ _); [reflexivity|exact H].
    + destruct (header (c :: v)) as [n|]; [|reflexivity].
      destruct (member n (p_sections p) && _); [reflexivity|exact H].
Qed.
Lemma bad_sticky_all : forall ls p, p_bad p = true -> p_bad (fold_left read_line ls p) = true.
Proof. induction ls as [|l ls IH]; intros p H; [exact H|]. cbn [fold_left]. apply IH. now apply bad_sticky. Qed.

(** The cases of a line. *)
Lemma read_line_cases : forall p L (P : Parser -> Prop),
  P p -> P (broken p) ->
  (forall x s o, p_section p = Some s -> p_option p = Some o ->
     P (mkParser (p_sections p) (extend (p_entries p) x) (Some s) (Some o) (p_indent p) (p_bad p))) ->
  (forall name, header (strip L) = Some name -> member name (p_sections p) && negb (str_eqb name default_section) = false ->
     P (mkParser (name :: p_sections p) (p_entries p) (Some name) None (indentation L) (p_bad p))) ->
  (forall s name v, p_section p = Some s -> entry (s, name) (p_entries p) = None ->
     P (mkParser (p_sections p) (((s, name), [v]) :: p_entries p) (Some s) (Some name) (indentation L) (p_bad p))) ->
  P (read_line p L).
Proof.
  intros p L P H0 HB HE HH HN. unfold read_line. destruct (strip L) as [|c v] eqn:S.
  - destruct (p_section p) eqn:A, (p_option p) eqn:B; try exact H0. now apply HE.
  - destruct (ceqb c "#" || ceqb c ";"); [exact H0|].
    assert (R : P match header (c :: v) with
            | Some name =>
                if member name (p_sections p) && negb (str_eqb name default_section) then broken p
                else mkParser (name :: p_sections p) (p_entries p) (Some name) None (indentation L) (p_bad p)
            | None =>
                match p_section p with
                | None => broken p
                | Some sec =>
                    match delimited (c :: v) with
                    | None => broken p
                    | Some (o, v) =>
                        let name := lower (rstrip o) in
                        match rstrip o, entry (sec, name) (p_entries p) with
                        | _ :: _, None =>
                            mkParser (p_sections p) (((sec, name), [strip v]) :: p_entries p) (Some sec) (Some name) (indentation L) (p_bad p)
                        | _, _ => broken p
                        end
                    end
                end
            end).
    { destruct (header (c :: v)) as [n|] eqn:Hd.
      - destruct (member n (p_sections p) && negb (str_eqb n default_section)) eqn:M; [exact HB|]. now apply HH.
      - destruct (p_section p) as [s|] eqn:A; [|exact HB].
        destruct (delimited (c :: v)) as [[o w]|]; [|exact HB]. cbn zeta.
        destruct (rstrip o) eqn:RO; [exact HB|]. destruct (entry (s, _) (p_entries p)) eqn:E; [exact HB|].
        now apply HN. }
    destruct (p_section p) as [s|] eqn:A; [|exact R].
    destruct (p_option p) as [o|] eqn:B; [|exact R].
    destruct (Nat.ltb (p_indent p) (indentation L)); [|exact R]. now apply HE.
Qed.

Lemma extend_keys : forall l x, map fst (extend l x) = map fst l.
Proof. intros [|[k v] l] x; reflexivity. Qed.

(** Sections only get more. *)
Lemma sections_grow : forall L p s, In s (p_sections p) -> In s (p_sections (read_line p L)).
Proof.
  intros L p s H. apply read_line_cases; cbn [p_sections broken]; intros; auto. now right.
Qed.
Lemma sections_grow_all : forall ls p s, In s (p_sections p) -> In s (p_sections (fold_left read_line ls p)).
Proof. induction ls as [|l ls IH]; intros p s H; [exact H|]. cbn [fold_left]. apply IH. now apply sections_grow. Qed.

Lemma header_text : forall v n, header v = Some n -> exists r, v = s_ "[" ++ n ++ s_ "]" ++ r.
Proof.
  intros [|c v] n H; [discriminate|]. cbn [header] in H. destruct (ceqb c "[") eqn:E; [|discriminate].
  apply ceqb_eq in E. subst c. destruct (lpart "]" v) as [[[|x a] b]|] eqn:L; try discriminate.
  inversion H; subst. apply lpart_spec in L. destruct L as [-> _]. now exists b.
Qed.
Lemma header_of : forall n r, n <> [] -> ~ In "]"%char n -> header (s_ "[" ++ n ++ s_ "]" ++ r) = Some n.
Proof.
  intros n r Z N. cbn [s_ list_ascii_of_string app header]. change (ceqb "[" "[") with true. cbn iota.
  assert (L : lpart "]" (n ++ "]"%char :: r) = Some (n, r)) by (apply lpart_spec; now split).
  cbn [s_ list_ascii_of_string app]. rewrite L. destruct n; [congruence|reflexivity].
Qed.

(** What a parser that has read [lines] knows about them. *)
Definition knows (lines : list str) (p : Parser) : Prop :=
  (forall e, In e (p_entries p) -> In (key_sec e) (p_sections p)) /\
  (forall s, p_section p = Some s -> In s (p_sections p)) /\
  (forall s, In s (p_sections p) -> exists L, In L lines /\ occurs (s_ "[" ++ s ++ s_ "]") L) /\
  (p_option p <> None -> p_entries p <> []).

Lemma keys_in : forall l e, In e l -> In (key_sec e) (map (fun k : str * str => fst k) (map fst l)).
Proof. intros l e H. rewrite map_map. now apply (in_map (fun x => fst (fst x))). Qed.
Lemma keys_back : forall l s, In s (map (fun k : str * str => fst k) (map fst l)) -> exists e, In e l /\ key_sec e = s.
Proof. intros l s H. rewrite map_map in H. apply in_map_iff in H. destruct H as (e & E & K). now exists e. Qed.

Lemma knows_line : forall lines L p, knows lines p -> knows (lines ++ [L]) (read_line p L).
Proof.
  intros lines L p (K1 & K2 & K3 & K4).
  assert (K3' : forall s, In s (p_sections p) -> exists L', In L' (lines ++ [L]) /\ occurs (s_ "[" ++ s ++ s_ "]") L').
  { intros s H. destruct (K3 s H) as (L' & A & B). exists L'. split; [apply in_or_app; now left|exact B]. }
  apply read_line_cases.
  - repeat split; assumption.
  - repeat split; assumption.
  - intros x s o Hs Ho. repeat split; cbn [p_entries p_sections p_section p_option].
    + intros e H. apply keys_in in H. rewrite extend_keys in H. apply keys_back in H. destruct H as (e' & A & <-). now apply K1.
    + intros s' E. inversion E; subst. now apply K2.
    + exact K3'.
    + intros _ Z. apply K4; [congruence|]. destruct (p_entries p) as [|[k v] l]; [reflexivity|discriminate Z].
  - intros name Hd _. repeat split; cbn [p_entries p_sections p_section p_option].
    + intros e H. right. now apply K1.
    + intros s E. inversion E; subst. now left.
    + intros s [<-|H]; [|now apply K3']. exists L. split; [apply in_or_app; right; now left|].
      apply header_text in Hd. destruct Hd as (r & Hd). destruct (strip_parts L) as (a & b & E & _).
      exists a, (r ++ b). rewrite E, Hd. rewrite <- !app_assoc. reflexivity.
    + congruence.
  - intros s name v Hs _. repeat split; cbn [p_entries p_sections p_section p_option].
    + intros e [<-|H]; [now apply K2|now apply K1].
    + intros s' E. inversion E; subst. now apply K2.
    + exact K3'.
    + discriminate.
Qed.
Lemma knows_all : forall ls lines p, knows lines p -> knows (lines ++ ls) (fold_left read_line ls p).
Proof.
  induction ls as [|l ls IH]; intros lines p H; [now rewrite app_nil_r|]. cbn [fold_left].
  replace (lines ++ l :: ls) with ((lines ++ [l]) ++ ls) by now rewrite <- app_assoc.
  apply IH. now apply knows_line.
Qed.
Lemma knows_start : knows [] parser0.
Proof. repeat split; cbn; try easy. Qed.
Lemma knows_read : forall t, knows (file_lines t) (read_cfg t).
Proof. intros t. apply (knows_all (file_lines t) [] parser0 knows_start). Qed.
Lemma lines_concat : forall t, List.concat (file_lines t) = t.
Proof.
  induction t as [|c t IH]; [reflexivity|]. cbn [file_lines]. destruct (ceqb c newline).
  - cbn [List.concat app]. now rewrite IH.
  - destruct (file_lines t) as [|l ls]; cbn [List.concat app] in *; now rewrite IH.
Qed.
Lemma line_occurs : forall t L p, In L (file_lines t) -> occurs p L -> occurs p t.
Proof.
  intros t L p H (a & b & ->). rewrite <- (lines_concat t). apply in_split in H. destruct H as (u & w & ->).
  rewrite concat_app. cbn [List.concat]. exists (List.concat u ++ a), (b ++ List.concat w).
  now rewrite <- !app_assoc.
Qed.

Lemma entry_in : forall k l v, entry k l = Some v -> exists e, In e l /\ fst e = k.
Proof.
  intros k l v. induction l as [|[k' v'] l IH]; [discriminate|]. cbn [entry]. destruct (key_eqb k k') eqn:E.
  - intros _. exists (k', v'). split; [now left|]. apply andb_prop in E. destruct E as [E1 E2].
    apply str_eqb_eq in E1, E2. cbn. destruct k, k'; cbn in *; congruence.
  - intros H. destruct (IH H) as (e & A & B). exists e. split; [now right|exact B].
Qed.
Lemma entry_none : forall s n l, ~ In s (map key_sec l) -> entry (s, n) l = None.
Proof.
  intros s n l H. destruct (entry (s, n) l) as [v|] eqn:E; [|reflexivity]. exfalso. apply H.
  apply entry_in in E. destruct E as (e & A & B). apply in_map_iff. exists e. split; [|exact A].
  unfold key_sec. now rewrite B.
Qed.
Lemma entry_app : forall k a b, entry k (a ++ b) = match entry k a with Some v => Some v | None => entry k b end.
Proof.
  intros k a b. induction a as [|[k' v] a IH]; [reflexivity|]. cbn [app entry]. now destruct (key_eqb k k').
Qed.
Lemma no_section_no_entry : forall t s n, ~ In s (p_sections (read_cfg t)) -> entry (s, n) (p_entries (read_cfg t)) = None.
Proof.
  intros t s n H. apply entry_none. intros K. apply in_map_iff in K. destruct K as (e & <- & K).
  apply H. exact (proj1 (knows_read t) _ K).
Qed.
Lemma not_in_text : forall t s, ~ occurs (s_ "[" ++ s ++ s_ "]") t -> ~ In s (p_sections (read_cfg t)).
Proof.
  intros t s H K. destruct (knows_read t) as (_ & _ & K3 & _). destruct (K3 s K) as (L & A & B).
  apply H. now apply (line_occurs t L).
Qed.

(** ** Reading texts one after the other *)
Lemma read_app : forall a b, ended a -> read_cfg (a ++ b) = fold_left read_line (file_lines b) (read_cfg a).
Proof. intros a b E. unfold read_cfg. rewrite file_lines_app by exact E. apply fold_left_app. Qed.

(** A header line at the start of a line always opens a section. *)
Lemma strip_header : forall n r, exists r', strip (s_ "[" ++ n ++ s_ "]" ++ r) = s_ "[" ++ n ++ s_ "]" ++ r'.
Proof.
  intros n r. unfold strip, strip_by.
  rewrite (lstrip_id space_s (s_ "[" ++ n ++ s_ "]" ++ r)) by (intros c H; cbn in H; inversion H; subst; reflexivity).
  assert (K : forall x y, exists u, lstrip_by space_s (x ++ "]"%char :: y) = u ++ "]"%char :: y).
  { intros x y. induction x as [|c x IH]; [now exists []|]. cbn [app lstrip_by]. destruct (space_s c); [exact IH|].
    now exists (c :: x). }
  replace (rev (s_ "[" ++ n ++ s_ "]" ++ r)) with (rev r ++ "]"%char :: rev (s_ "[" ++ n)).
  - destruct (K (rev r) (rev (s_ "[" ++ n))) as (u & E). rewrite E. exists (rev u).
    rewrite rev_app_distr. cbn [rev]. rewrite rev_involutive. rewrite <- !app_assoc. reflexivity.
  - rewrite !rev_app_distr. cbn [s_ list_ascii_of_string rev app]. rewrite <- !app_assoc. reflexivity.
Qed.
Lemma read_header : forall p n r, n <> [] -> ~ In "]"%char n ->
  read_line p (s_ "[" ++ n ++ s_ "]" ++ r) =
  if member n (p_sections p) && negb (str_eqb n default_section) then broken p
  else mkParser (n :: p_sections p) (p_entries p) (Some n) None 0 (p_bad p).
Proof.
  intros p n r Z N. unfold read_line. destruct (strip_header n r) as (r' & ->).
  change (s_ "[" ++ n ++ s_ "]" ++ r') with ("["%char :: (n ++ s_ "]" ++ r')).
  cbn iota. change (ceqb "[" "#" || ceqb "[" ";") with false. cbn iota.
  change (s_ "[" ++ n ++ s_ "]" ++ r) with ("["%char :: (n ++ s_ "]" ++ r)).
  change (indentation ("["%char :: (n ++ s_ "]" ++ r))) with 0.
  assert (H : header ("["%char :: n ++ s_ "]" ++ r') = Some n) by exact (header_of n r' Z N).
  rewrite H. destruct (p_section p); [destruct (p_option p)|]; reflexivity.
Qed.

(** ** The lines of a section *)
Lemma written_in : forall c v, In c (written v) <-> In c v.
Proof.
  intros c v. unfold written. rewrite in_flat_map. split.
  - intros (x & A & B). destruct (Ascii.ascii_dec x "%"%char); cbn in B; intuition congruence.
  - intros H. exists c. split; [exact H|]. destruct (Ascii.ascii_dec c "%"%char); cbn; now left.
Qed.
Lemma written_hd : forall v, hd_error (written v) = hd_error v.
Proof. intros [|c v]; [reflexivity|]. cbn. now destruct (Ascii.ascii_dec c "%"%char). Qed.
Lemma written_last : forall v, hd_error (rev (written v)) = hd_error (rev v).
Proof.
  intros v. destruct v as [|c v _] using rev_ind; [reflexivity|]. unfold written. rewrite flat_map_app. cbn [flat_map].
  rewrite app_nil_r, !rev_app_distr. destruct (Ascii.ascii_dec c "%"%char); reflexivity.
Qed.
Lemma written_nil : forall v, written v = [] -> v = [].
Proof. intros v H. assert (E := written_hd v). rewrite H in E. now destruct v. Qed.

Lemma delimited_first : forall a d b, (forall c, In c a -> c <> "="%char /\ c <> ":"%char) -> d = "="%char -> delimited (a ++ d :: b) = Some (a, b).
Proof.
  intros a d b H ->. induction a as [|c a IH]; [reflexivity|]. cbn [app delimited].
  destruct (H c) as [N1 N2]; [now left|].
  rewrite (proj2 (ceqb_neq c "="%char) N1), (proj2 (ceqb_neq c ":"%char) N2). cbn [orb].
  rewrite IH; [reflexivity|]. intros x K. apply H. now right.
Qed.
Lemma rstrip_space : forall n, unbroken n -> rstrip (n ++ s_ " ") = n.
Proof.
  intros n [Z U]. unfold rstrip. rewrite rev_app_distr. cbn [s_ list_ascii_of_string rev app lstrip_by].
  change (space_s " ") with true. cbn iota. rewrite lstrip_id; [apply rev_involutive|].
  intros c H. apply not_blank, U, in_rev. destruct (rev n); [discriminate|]. cbn in H. inversion H. now left.
Qed.
Lemma setting_strip : forall n v, setting_name n -> setting_value v ->
  strip (setting_line (n, v)) = (n ++ s_ " ") ++ "="%char :: (match v with [] => [] | _ => s_ " " ++ written v end).
Proof.
  intros n v (U & _ & _) (NN & H1 & H2). unfold strip, setting_line. cbn [fst snd].
  destruct v as [|c v].
  - transitivity (strip_by space_s ([] ++ (n ++ s_ " =") ++ (s_ " " ++ [newline]))).
    { f_equal. cbn [written flat_map app]. rewrite <- !app_assoc. reflexivity. }
    rewrite strip_both; [rewrite <- app_assoc; reflexivity|intros x []| |].
    + intros x [<-|[<-|[]]]; reflexivity.
    + intros x [K|K].
      * destruct n as [|y n]; [now destruct U|]. cbn in K. inversion K; subst. apply not_blank, U. now left.
      * rewrite rev_app_distr in K. cbn in K. inversion K. reflexivity.
  - transitivity (strip_by space_s ([] ++ (n ++ s_ " = " ++ written (c :: v)) ++ [newline])).
    { f_equal. cbn [app]. rewrite <- !app_assoc. reflexivity. }
    rewrite strip_both; [rewrite <- !app_assoc; reflexivity|intros x []| |].
    + intros x [<-|[]]; reflexivity.
    + intros x [K|K].
      * destruct n as [|y n]; [now destruct U|]. cbn in K. inversion K; subst. apply not_blank, U. now left.
      * apply not_blank. apply H2. rewrite <- written_last. rewrite !rev_app_distr in K.
        assert (W : rev (written (c :: v)) <> []).
        { intros E. apply (f_equal (@rev ascii)) in E. rewrite rev_involutive in E. apply written_nil in E. discriminate. }
        destruct (rev (written (c :: v))); [congruence|]. exact K.
Qed.
Lemma read_setting : forall p s n v, setting_name n -> setting_value v -> p_section p = Some s -> p_indent p = 0 ->
  entry (s, lower n) (p_entries p) = None ->
  read_line p (setting_line (n, v)) =
  mkParser (p_sections p) (((s, lower n), [written v]) :: p_entries p) (Some s) (Some (lower n)) 0 (p_bad p).
Proof.
  intros p s n v Hn Hv Hs Hi He. assert (HS := setting_strip n v Hn Hv).
  destruct Hn as (U & D & F). assert (Z : n <> []) by now destruct U.
  destruct n as [|a n]; [congruence|].
  unfold read_line. rewrite HS. clear HS. set (w := match v with [] => [] | _ => s_ " " ++ written v end).
  destruct (F a eq_refl) as (F1 & F2 & F3).
  change (((a :: n) ++ s_ " ") ++ "="%char :: w) with (a :: ((n ++ s_ " ") ++ "="%char :: w)).
  cbn iota. rewrite (proj2 (ceqb_neq a "#"%char) F1), (proj2 (ceqb_neq a ";"%char) F2). cbn [orb].
  assert (I : indentation (setting_line (@pair str str (a :: n) v)) = 0).
  { unfold setting_line. cbn [fst app indentation]. rewrite not_blank; [reflexivity|]. apply U. now left. }
  assert (Hd : header (a :: ((n ++ s_ " ") ++ "="%char :: w)) = None).
  { cbn [header]. now rewrite (proj2 (ceqb_neq a "["%char) F3). }
  assert (Dl : delimited (a :: ((n ++ s_ " ") ++ "="%char :: w)) = Some ((a :: n) ++ s_ " ", w)).
  { change (a :: ((n ++ s_ " ") ++ "="%char :: w)) with (((a :: n) ++ s_ " ") ++ "="%char :: w). apply delimited_first; [|reflexivity].
    intros c K. apply in_app_or in K. destruct K as [K|[<-|[]]]; [now apply D|split; discriminate]. }
  assert (W : strip w = written v).
  { unfold w. destruct v as [|c v]; [reflexivity|]. unfold strip.
    transitivity (strip_by space_s (s_ " " ++ written (c :: v) ++ [])); [now rewrite app_nil_r|].
    apply strip_both; [intros x [<-|[]]; reflexivity|intros x []|].
    intros x K. apply not_blank. destruct Hv as (_ & H1 & H2). rewrite written_hd, written_last in K.
    destruct K as [K|K]; [now apply H1|now apply H2]. }
  rewrite I, Hs, Hi, Hd, Dl. change (Nat.ltb 0 0) with false. rewrite (rstrip_space _ U). cbn zeta. rewrite He, W.
  destruct (p_option p); reflexivity.
Qed.

Lemma small_lower : forall s, small s = lower s.
Proof.
  intros s. unfold small, lower. apply map_ext. intros [b0 b1 b2 b3 b4 b5 b6 b7].
  destruct b0, b1, b2, b3, b4, b5, b6, b7; reflexivity.
Qed.

Definition block (s : str) (settings : list (str * str)) : list ((str * str) * list str) :=
  rev (map (fun x => ((s, lower (fst x)), [written (snd x)])) settings).

Lemma setting_line_newline : forall n v, setting_name n -> setting_value v ->
  exists l, setting_line (n, v) = l ++ [newline] /\ ~ In newline l.
Proof.
  intros n v (U & _) (N & _). exists (n ++ s_ " = " ++ written v). split; [unfold setting_line; cbn [fst snd]; now rewrite <- !app_assoc|].
  intros K. apply in_app_or in K. destruct K as [K|K]; [exact (proj2 U _ K newline_blank)|].
  apply in_app_or in K. destruct K as [K|K]; [cbn in K; repeat (destruct K as [K|K]; [discriminate K|]); destruct K|].
  now apply (proj1 (written_in _ _)) in K.
Qed.
Lemma settings_lines : forall settings r, (forall n v, In (n, v) settings -> setting_name n /\ setting_value v) ->
  file_lines (flat_map setting_line settings ++ r) = map setting_line settings ++ file_lines r.
Proof.
  induction settings as [|[n v] settings IH]; intros r H; [reflexivity|]. cbn [flat_map map].
  destruct (H n v) as [Hn Hv]; [now left|]. destruct (setting_line_newline n v Hn Hv) as (l & E & N).
  rewrite E, <- !app_assoc. cbn [app]. rewrite file_lines_more by exact N.
  rewrite IH; [reflexivity|]. intros n' v' K. apply H. now right.
Qed.
Lemma read_settings : forall settings p s, proper_settings settings ->
  p_section p = Some s -> p_indent p = 0 ->
  (forall x, In x settings -> entry (s, lower (fst x)) (p_entries p) = None) ->
  let q := fold_left read_line (map setting_line settings) p in
  p_sections q = p_sections p /\ p_entries q = block s settings ++ p_entries p /\ p_bad q = p_bad p.
Proof.
  induction settings as [|[n v] settings IH]; intros p s [H ND] Hs Hi He q; [now repeat split|].
  unfold q. cbn [map fold_left]. destruct (H n v) as [Hn Hv]; [now left|].
  rewrite (read_setting p s n v Hn Hv Hs Hi (He (n, v) (or_introl eq_refl))).
  cbn [map] in ND. inversion ND as [|y ys NI ND']; subst.
  assert (PS : proper_settings settings) by (split; [intros a b K; apply H; now right|exact ND']).
  destruct (IH (mkParser (p_sections p) (((s, lower n), [written v]) :: p_entries p) (Some s) (Some (lower n)) 0 (p_bad p)) s PS eq_refl eq_refl) as (A & B & C).
  - intros x Hx. cbn [p_entries entry]. unfold key_eqb. cbn [fst snd]. rewrite str_eqb_refl. cbn [andb].
    destruct (str_eqb (lower (fst x)) (lower n)) eqn:E; [|apply He; now right].
    exfalso. apply str_eqb_eq in E. apply NI. cbn [fst]. rewrite small_lower, <- E, <- small_lower. now apply (in_map (fun z => small (fst z))).
  - split; [exact A|]. split; [|exact C]. rewrite B. cbn [p_entries]. unfold block. cbn [map rev fst snd].
    now rewrite <- app_assoc.
Qed.

Lemma entry_block : forall s n settings, NoDup (map (fun x => small (fst x)) settings) ->
  entry (s, lower n) (block s settings) = option_map (fun v => [written v]) (setting_of settings n).
Proof.
  intros s n settings. unfold block. induction settings as [|[m v] settings IH]; intros ND; [reflexivity|].
  cbn [map rev setting_of fst snd] in *. inversion ND as [|y ys NI ND']; subst. rewrite entry_app, IH by exact ND'.
  destruct (list_eq_dec Ascii.ascii_dec (small m) (small n)) as [E|N].
  - assert (X : setting_of settings n = None).
    { clear - NI E. induction settings as [|[a b] settings IH]; [reflexivity|]. cbn [setting_of].
      destruct (list_eq_dec Ascii.ascii_dec (small a) (small n)) as [E'|_].
      - exfalso. apply NI. cbn [map fst]. left. congruence.
      - apply IH. intros K. apply NI. now right. }
    rewrite X. cbn [option_map entry]. unfold key_eqb. cbn [fst snd]. rewrite !small_lower in E. rewrite E, !str_eqb_refl. reflexivity.
  - rewrite !small_lower in N. destruct (setting_of settings n); [reflexivity|]. cbn [option_map entry]. unfold key_eqb. cbn [fst snd].
    replace (str_eqb (lower n) (lower m)) with false; [now rewrite andb_false_r|].
    symmetry. destruct (str_eqb (lower n) (lower m)) eqn:K; [|reflexivity]. apply str_eqb_eq in K. congruence.
Qed.

(** ** The text after the section *)
Definition alongside (blk b : list ((str * str) * list str)) (p q : Parser) : Prop :=
  (forall n, n <> sec_versioneer -> member n (p_sections q) = member n (p_sections p)) /\
  In sec_versioneer (p_sections q) /\
  (exists e, p_entries p = e ++ b /\ p_entries q = e ++ blk ++ b /\ (p_option p <> None -> e <> [])) /\
  p_section q = p_section p /\ p_option q = p_option p /\ p_indent q = p_indent p /\ p_bad q = p_bad p /\
  p_section p <> Some sec_versioneer.

Lemma alongside_line : forall blk b p q L, (forall e, In e blk -> key_sec e = sec_versioneer) ->
  alongside blk b p q -> ~ In sec_versioneer (p_sections (read_line p L)) -> alongside blk b (read_line p L) (read_line q L).
Proof.
  intros blk b p q L HB (A1 & A2 & (e & E1 & E2 & E3) & A4 & A5 & A6 & A7 & A8) NV.
  unfold read_line in *. rewrite A4, A5, A6, A7.
  assert (BK : alongside blk b (broken p) (broken q)).
  { repeat split; cbn [broken p_sections p_entries p_section p_option p_indent p_bad]; try assumption. now exists e. }
  assert (EX : forall x s o, p_section p = Some s -> p_option p = Some o ->
    alongside blk b (mkParser (p_sections p) (extend (p_entries p) x) (p_section p) (p_option p) (p_indent p) (p_bad p))
                    (mkParser (p_sections q) (extend (p_entries q) x) (p_section p) (p_option p) (p_indent p) (p_bad p))).
  { intros x s o Hs Ho. repeat split; cbn [p_sections p_entries p_section p_option p_indent p_bad]; try assumption.
    exists (extend e x). rewrite E1, E2. assert (Z : e <> []) by (apply E3; congruence).
    destruct e as [|[k v] e]; [congruence|]. repeat split; try reflexivity. discriminate. }
  assert (P0 : alongside blk b p q) by (repeat split; try assumption; now exists e).
  destruct (strip L) as [|c v].
  { destruct (p_section p) as [s|] eqn:S; [|exact P0]. destruct (p_option p) as [o|] eqn:O; [|exact P0].
    now apply (EX [] s o). }
  destruct (ceqb c "#" || ceqb c ";"); [exact P0|].
  assert (R : alongside blk b
     match header (c :: v) with
     | Some name => if member name (p_sections p) && negb (str_eqb name default_section) then broken p
                    else mkParser (name :: p_sections p) (p_entries p) (Some name) None (indentation L) (p_bad p)
     | None => match p_section p with
               | None => broken p
               | Some sec => match delimited (c :: v) with
                             | None => broken p
                             | Some (o, v) => let name := lower (rstrip o) in
                                match rstrip o, entry (sec, name) (p_entries p) with
                                | _ :: _, None => mkParser (p_sections p) (((sec, name), [strip v]) :: p_entries p) (Some sec) (Some name) (indentation L) (p_bad p)
                                | _, _ => broken p
                                end
                             end
               end
     end
     match header (c :: v) with
     | Some name => if member name (p_sections q) && negb (str_eqb name default_section) then broken q
                    else mkParser (name :: p_sections q) (p_entries q) (Some name) None (indentation L) (p_bad p)
     | None => match p_section p with
               | None => broken q
               | Some sec => match delimited (c :: v) with
                             | None => broken q
                             | Some (o, v) => let name := lower (rstrip o) in
                                match rstrip o, entry (sec, name) (p_entries q) with
                                | _ :: _, None => mkParser (p_sections q) (((sec, name), [strip v]) :: p_entries q) (Some sec) (Some name) (indentation L) (p_bad p)
                                | _, _ => broken q
                                end
                             end
               end
     end \/ header (c :: v) = Some sec_versioneer).
  { destruct (header (c :: v)) as [name|] eqn:Hd.
    - destruct (str_dec name sec_versioneer) as [->|NN]; [now right|left].
      rewrite (A1 name NN). destruct (member name (p_sections p) && negb (str_eqb name default_section)); [exact BK|].
      repeat split; cbn [p_sections p_entries p_section p_option p_indent p_bad]; try assumption.
      + intros m Nm. unfold member in *. cbn [existsb]. now rewrite (A1 m Nm).
      + now right.
      + exists e. repeat split; try assumption. congruence.
      + congruence.
    - left. destruct (p_section p) as [s|] eqn:S; [|exact BK].
      assert (NS : s <> sec_versioneer) by congruence.
      destruct (delimited (c :: v)) as [[o w]|]; [|exact BK]. cbn zeta.
      destruct (rstrip o) as [|x xs]; [exact BK|].
      assert (EE : entry (s, lower (x :: xs)) (p_entries q) = entry (s, lower (x :: xs)) (p_entries p)).
      { rewrite E1, E2, !entry_app. destruct (entry (s, lower (x :: xs)) e); [reflexivity|].
        rewrite (entry_none s (lower (x :: xs)) blk); [reflexivity|].
        intros K. apply in_map_iff in K. destruct K as (y & Y & K). rewrite (HB y K) in Y. congruence. }
      rewrite EE. destruct (entry (s, lower (x :: xs)) (p_entries p)); [exact BK|].
      repeat split; cbn [p_sections p_entries p_section p_option p_indent p_bad]; try assumption.
      exists (((s, lower (x :: xs)), [strip w]) :: e). rewrite E1, E2. repeat split; try reflexivity. discriminate. }
  destruct R as [R|R].
  - destruct (p_section p) as [s|] eqn:S; [|exact R]. destruct (p_option p) as [o|] eqn:O; [|exact R].
    destruct (Nat.ltb (p_indent p) (indentation L)); [|exact R]. now apply (EX (c :: v) s o).
  - (* the header of the section itself: excluded *)
    destruct (p_section p) as [s|] eqn:S; [destruct (p_option p) as [o|] eqn:O; [destruct (Nat.ltb (p_indent p) (indentation L)) eqn:LT|]|].
    1: now apply (EX (c :: v) s o).
    all: rewrite R in NV |- *; exfalso; apply NV;
      destruct (member sec_versioneer (p_sections p) && negb (str_eqb sec_versioneer default_section)) eqn:M;
      [cbn [broken p_sections]; apply andb_prop in M; destruct M as [M _]; now apply member_in in M|now left].
Qed.
Lemma alongside_all : forall blk b ls p q, (forall e, In e blk -> key_sec e = sec_versioneer) ->
  alongside blk b p q -> ~ In sec_versioneer (p_sections (fold_left read_line ls p)) ->
  alongside blk b (fold_left read_line ls p) (fold_left read_line ls q).
Proof.
  intros blk b ls. induction ls as [|l ls IH]; intros p q HB H NV; [exact H|]. cbn [fold_left] in *.
  apply IH; [exact HB| |exact NV]. apply alongside_line; [exact HB|exact H|]. intros K. apply NV. now apply sections_grow_all.
Qed.
