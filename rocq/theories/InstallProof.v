(** Lemmas about the text operations of Install.v (C65). *)
From Coq Require Import List String Ascii Bool Arith Lia.
From Verif Require Import Arith Version VersionStr Package PackageProof Install SpecInstall.
Import ListNotations.
Local Open Scope list_scope.

Lemma blank_dec : forall c, {blank c} + {~ blank c}.
Proof. intros c. unfold blank. destruct (space_s c); [left|right]; congruence. Qed.
Lemma not_blank : forall c, ~ blank c -> space_s c = false.
Proof. intros c H. unfold blank in H. now destruct (space_s c). Qed.
Lemma newline_blank : blank newline.
Proof. reflexivity. Qed.

(** ** Lines *)
Lemma ended_nil : ended [].
Proof. now left. Qed.
Lemma ended_line : forall t a, ended (t ++ a ++ [newline]).
Proof. intros t a. right. exists (t ++ a). now rewrite app_assoc. Qed.
Lemma ended_tail : forall c t, ended (c :: t) -> t = [] \/ ended t.
Proof.
  intros c t [H|(a & H)]; [discriminate|]. destruct a as [|x a]; cbn in H; inversion H; subst.
  - now left.
  - right. right. now exists a.
Qed.
Lemma file_lines_nil : forall t, file_lines t = [] -> t = [].
Proof.
  intros [|c t] H; [reflexivity|]. cbn [file_lines] in H. destruct (ceqb c newline); [discriminate|].
  destruct (file_lines t); discriminate.
Qed.
Lemma file_lines_app : forall a b, ended a -> file_lines (a ++ b) = file_lines a ++ file_lines b.
Proof.
  induction a as [|c a IH]; intros b E; [reflexivity|]. cbn [file_lines app].
  destruct (ceqb c newline) eqn:C.
  - cbn [app]. f_equal. destruct (ended_tail _ _ E) as [->|E']; [reflexivity|]. now apply IH.
  - destruct (ended_tail _ _ E) as [->|E'].
    + destruct E as [E|(x & E)]; [discriminate|]. destruct x as [|y x]; cbn in E; inversion E; subst.
      * discriminate C.
      * destruct x; discriminate.
    + rewrite (IH b E'). destruct (file_lines a) as [|l ls] eqn:F; [|reflexivity].
      apply file_lines_nil in F. subst a.
      destruct E as [E|(x & E)]; [discriminate|]. destruct x as [|y x]; cbn in E; inversion E; subst.
      * discriminate C.
      * destruct x; discriminate.
Qed.
(** A first line. *)
Lemma file_lines_one : forall l, l <> [] -> ~ In newline l -> file_lines l = [l].
Proof.
  induction l as [|c l IH]; intros N H; [congruence|]. cbn [file_lines].
  replace (ceqb c newline) with false.
  - destruct l as [|d l]; [reflexivity|]. rewrite IH; [reflexivity|discriminate|].
    intros K. apply H. now right.
  - symmetry. apply ceqb_neq. intros ->. apply H. now left.
Qed.
Lemma file_lines_more : forall l t, ~ In newline l -> file_lines (l ++ newline :: t) = (l ++ [newline]) :: file_lines t.
Proof.
  induction l as [|c l IH]; intros t H; [reflexivity|]. cbn [app file_lines].
  replace (ceqb c newline) with false.
  - rewrite IH; [reflexivity|]. intros K. apply H. now right.
  - symmetry. apply ceqb_neq. intros ->. apply H. now left.
Qed.
Lemma newline_split : forall t, ~ In newline t \/ exists l t', t = l ++ newline :: t' /\ ~ In newline l.
Proof.
  induction t as [|c t IH].
  - left. intros [].
  - destruct (Ascii.ascii_dec c newline) as [->|N].
    + right. exists [], t. split; [reflexivity|]. intros [].
    + destruct IH as [IH|(l & t' & -> & H)].
      * left. intros [K|K]; [congruence|contradiction].
      * right. exists (c :: l), t'. split; [reflexivity|]. intros [K|K]; [congruence|contradiction].
Qed.
Lemma line_of_later : forall a l t, ended a -> line_of l t -> line_of l (a ++ t).
Proof.
  intros a l t E (N & x & y & -> & X & Y). split; [exact N|]. exists (a ++ x), y.
  split; [now rewrite app_assoc|]. split; [|exact Y].
  destruct X as [->|(x' & ->)].
  - rewrite app_nil_r. exact E.
  - right. exists (a ++ x'). now rewrite app_assoc.
Qed.
Lemma file_lines_sound : forall n t L, List.length t <= n -> In L (file_lines t) ->
  exists l, (L = l \/ L = l ++ [newline]) /\ line_of l t.
Proof.
  induction n as [|n IH]; intros t L Hn HL.
  - destruct t; [destruct HL|cbn in Hn; lia].
  - destruct (newline_split t) as [N|(l & t' & -> & N)].
    + destruct t as [|c t]; [destruct HL|]. rewrite file_lines_one in HL; [|discriminate|exact N].
      destruct HL as [<-|[]]. exists (c :: t). split; [now left|]. split; [exact N|].
      exists [], []. rewrite app_nil_r. repeat split; now left.
    + rewrite file_lines_more in HL by exact N. destruct HL as [<-|HL].
      * exists l. split; [now right|]. split; [exact N|]. exists [], (newline :: t').
        repeat split; [now left|]. right. now exists t'.
      * rewrite app_length in Hn. cbn in Hn. destruct (IH t' L) as (m & E & H); [lia|exact HL|].
        exists m. split; [exact E|]. change (l ++ newline :: t') with (l ++ [newline] ++ t').
        rewrite app_assoc. apply line_of_later; [right; now exists l|exact H].
Qed.
Lemma file_lines_complete : forall l t, l <> [] -> line_of l t ->
  exists L, (L = l \/ L = l ++ [newline]) /\ In L (file_lines t).
Proof.
  intros l t Z (N & a & b & -> & A & B).
  assert (E : ended a) by exact A.
  rewrite file_lines_app by exact E.
  destruct B as [->|(b' & ->)].
  - exists l. split; [now left|]. rewrite app_nil_r, (file_lines_one l Z N). apply in_or_app. right. now left.
  - exists (l ++ [newline]). split; [now right|]. rewrite file_lines_more by exact N. apply in_or_app. right. now left.
Qed.

(** ** Words *)
Lemma words_from_app : forall a cur c b, blank c -> words_from cur (a ++ c :: b) = words_from cur a ++ words b.
Proof.
  induction a as [|x a IH]; intros cur c b B; cbn.
  - unfold blank in B. rewrite B. reflexivity.
  - destruct (space_s x); rewrite IH by exact B; [now rewrite app_assoc|reflexivity].
Qed.
Lemma words_app : forall a c b, blank c -> words (a ++ c :: b) = words a ++ words b.
Proof. intros. now apply words_from_app. Qed.
Lemma words_from_solid : forall t cur, (forall c, In c t -> ~ blank c) -> words_from cur t = flush (rev t ++ cur).
Proof.
  induction t as [|c t IH]; intros cur H; [reflexivity|]. cbn.
  rewrite not_blank by (apply H; now left). rewrite IH by (intros x K; apply H; now right).
  now rewrite <- app_assoc.
Qed.
Lemma words_unbroken : forall w, unbroken w -> words w = [w].
Proof.
  intros w [Z H]. unfold words. rewrite words_from_solid by exact H. rewrite app_nil_r.
  unfold flush. destruct (rev w) eqn:R.
  - apply (f_equal (@rev ascii)) in R. rewrite rev_involutive in R. now subst.
  - now rewrite <- R, rev_involutive.
Qed.
Lemma words_blank : forall t, (forall c, In c t -> blank c) -> words t = [].
Proof.
  induction t as [|c t IH]; intros H; [reflexivity|].
  change (c :: t) with ([] ++ c :: t). rewrite words_app by (apply H; now left). cbn [app].
  rewrite IH; [reflexivity|]. intros x K. apply H. now right.
Qed.
Lemma words_complete : forall w t, word_of w t -> In w (words t).
Proof.
  intros w t (U & a & b & -> & A & B).
  assert (K : In w (words (w ++ b))).
  { destruct B as [->|(c & b' & -> & C)].
    - rewrite app_nil_r, words_unbroken by exact U. now left.
    - rewrite words_app by exact C. rewrite words_unbroken by exact U. now left. }
  destruct A as [->|(a' & c & -> & C)]; [exact K|].
  rewrite <- app_assoc. cbn [app]. rewrite words_app by exact C. apply in_or_app. now right.
Qed.
Lemma word_of_later : forall w a c t, blank c -> word_of w t -> word_of w (a ++ c :: t).
Proof.
  intros w a c t C (U & x & y & -> & X & Y). split; [exact U|].
  exists (a ++ c :: x), y. split; [now rewrite <- app_assoc|]. split; [|exact Y]. right.
  destruct X as [->|(x' & d & -> & D)].
  - now exists a, c.
  - exists (a ++ c :: x'), d. split; [now rewrite <- app_assoc|exact D].
Qed.
Lemma words_from_sound : forall t cur w, (forall c, In c cur -> ~ blank c) -> In w (words_from cur t) -> word_of w (rev cur ++ t).
Proof.
  assert (F : forall cur w b, (forall c, In c cur -> ~ blank c) -> In w (flush cur) ->
                (b = [] \/ exists c b', b = c :: b' /\ blank c) -> word_of w (rev cur ++ b)).
  { intros cur w b H K B. destruct cur as [|d cur]; [destruct K|].
    destruct K as [<-|[]]. split.
    - split; [intros Z; apply (f_equal (@List.length ascii)) in Z; rewrite rev_length in Z; discriminate|].
      intros c I. apply H. now apply in_rev.
    - exists [], b. repeat split; [now left|exact B]. }
  induction t as [|c t IH]; intros cur w H K; cbn in K.
  - apply F; [exact H|exact K|now left].
  - destruct (space_s c) eqn:S.
    + apply in_app_or in K. destruct K as [K|K].
      * apply F; [exact H|exact K|]. right. now exists c, t.
      * apply word_of_later; [exact S|]. apply (IH [] w); [intros x []|exact K].
    + assert (H' : forall x, In x (c :: cur) -> ~ blank x).
      { intros x [<-|I]; [|now apply H]. unfold blank. congruence. }
      specialize (IH (c :: cur) w H' K). cbn in IH. now rewrite <- app_assoc in IH.
Qed.
Lemma words_sound : forall w t, In w (words t) -> word_of w t.
Proof. intros w t H. apply (words_from_sound t [] w); [intros c []|exact H]. Qed.
Lemma words_spec : forall w t, In w (words t) <-> word_of w t.
Proof. split; [apply words_sound|apply words_complete]. Qed.
Lemma words_newline : forall t, words (t ++ [newline]) = words t.
Proof. intros t. rewrite words_app by exact newline_blank. apply app_nil_r. Qed.

Lemma member_in : forall x l, member x l = true <-> In x l.
Proof.
  intros x l. unfold member. rewrite existsb_exists. split.
  - intros (y & H & E). apply str_eqb_eq in E. now subst.
  - intros H. exists x. split; [exact H|apply str_eqb_refl].
Qed.
Lemma member_app : forall x l m, member x (l ++ m) = member x l || member x m.
Proof. intros. apply existsb_app. Qed.

(** ** Occurrences *)
Lemma find_first_none : forall p t, find_first p t = None -> ~ occurs p t.
Proof.
  intros p t. induction t as [|c t IH]; intros H (a & b & E); cbn in H.
  - destruct (startswith p []) eqn:S; [discriminate|]. destruct a; cbn in E; [|discriminate].
    destruct p; [discriminate S|discriminate E].
  - destruct (startswith p (c :: t)) eqn:S; [discriminate|].
    destruct a as [|x a]; cbn in E.
    + rewrite E, startswith_app in S. discriminate.
    + inversion E; subst. destruct (find_first p (a ++ p ++ b)) as [[u v]|] eqn:F; [discriminate|].
      apply IH; [reflexivity|]. now exists a, b.
Qed.
Lemma contains_spec : forall p t, contains p t = true <-> occurs p t.
Proof.
  intros p t. unfold contains. destruct (find_first p t) as [[a b]|] eqn:F.
  - apply find_first_sound in F. split; [intros _; now exists a, b|reflexivity].
  - apply find_first_none in F. split; [discriminate|contradiction].
Qed.

(** ** MANIFEST.in *)
Lemma simple_includes_app : forall a b, ended a -> simple_includes (a ++ b) = simple_includes a ++ simple_includes b.
Proof. intros a b E. unfold simple_includes. rewrite file_lines_app by exact E. apply flat_map_app. Qed.
Lemma words_include : forall r, tl (words (s_ "include " ++ r)) = words r.
Proof.
  intros r. change (s_ "include " ++ r) with (s_ "include" ++ " "%char :: r).
  rewrite words_app by reflexivity. reflexivity.
Qed.
Lemma includes_spec : forall t x, In x (simple_includes t) <-> includes t x.
Proof.
  intros t x. unfold simple_includes. rewrite in_flat_map. split.
  - intros (L & HL & HX). destruct (startswith (s_ "include ") L) eqn:S; [|destruct HX].
    apply startswith_spec in S. destruct S as (r & ->). rewrite words_include in HX.
    destruct (file_lines_sound _ t _ (le_n _) HL) as (l & E & Hl).
    destruct E as [<-|E].
    + exists r. split; [exact Hl|]. now apply words_sound.
    + destruct r as [|c r _] using rev_ind.
      * exfalso. assert (K : last (s_ "include " ++ []) "x"%char = last (l ++ [newline]) "x"%char) by now rewrite E.
        rewrite last_last in K. discriminate K.
      * rewrite app_assoc in E. apply app_inj_tail in E. destruct E as [<- ->].
        exists r. split; [exact Hl|]. rewrite words_newline in HX. now apply words_sound.
  - intros (r & Hl & HX). apply words_complete in HX.
    destruct (file_lines_complete _ _ (fun Z : s_ "include " ++ r = [] => eq_ind ("i"%char :: s_ "nclude " ++ r) (fun q => match q with [] => False | _ => True end) I [] Z) Hl) as (L & E & HL).
    exists L. split; [exact HL|]. destruct E as [->| ->].
    + rewrite startswith_app, words_include. exact HX.
    + rewrite <- app_assoc, startswith_app, words_include, words_newline. exact HX.
Qed.
Lemma includes_line : forall x, unbroken x -> simple_includes (include_line x) = [x].
Proof.
  intros x U. unfold simple_includes, include_line. rewrite app_assoc.
  rewrite file_lines_more.
  - cbn [file_lines flat_map]. rewrite <- app_assoc, startswith_app, words_include, words_newline, app_nil_r.
    now apply words_unbroken.
  - intros K. apply in_app_or in K. destruct K as [K|K]; [cbn in K; repeat (destruct K as [K|K]; [discriminate K|]); destruct K|].
    now apply (proj2 U newline K).
Qed.

(** ** .gitattributes *)
Lemma strip_parts : forall L, exists a b,
  L = a ++ strip L ++ b /\ (forall c, In c a -> blank c) /\ (forall c, In c b -> blank c).
Proof.
  assert (P : forall L, exists a, L = a ++ lstrip_by space_s L /\ forall c, In c a -> blank c).
  { induction L as [|c L IH]; cbn.
    - exists []. split; [reflexivity|]. intros c [].
    - destruct (space_s c) eqn:S.
      + destruct IH as (a & E & H). exists (c :: a). split; [cbn; congruence|].
        intros x [<-|K]; [exact S|now apply H].
      + exists []. split; [reflexivity|]. intros x []. }
  intros L. destruct (P L) as (a & E & A). destruct (P (rev (lstrip_by space_s L))) as (b & E' & B).
  exists a, (rev b). split; [|split; [exact A|intros c K; apply B; now apply in_rev]].
  rewrite E at 1. f_equal. unfold strip, strip_by. rewrite <- rev_app_distr, <- E', rev_involutive. reflexivity.
Qed.
Lemma words_trim_left : forall a t, (forall c, In c a -> blank c) -> words (a ++ t) = words t.
Proof.
  induction a as [|c a IH]; intros t H; [reflexivity|].
  change ((c :: a) ++ t) with ([] ++ c :: (a ++ t)). rewrite words_app by (apply H; now left).
  cbn [app]. apply IH. intros x K. apply H. now right.
Qed.
Lemma words_trim_right : forall t b, (forall c, In c b -> blank c) -> words (t ++ b) = words t.
Proof.
  intros t [|c b] H; [now rewrite app_nil_r|].
  rewrite words_app by (apply H; now left). rewrite (words_blank b); [apply app_nil_r|].
  intros x K. apply H. now right.
Qed.
Lemma words_strip : forall L, words (strip L) = words L.
Proof.
  intros L. destruct (strip_parts L) as (a & b & E & A & B). rewrite E at 2.
  rewrite words_trim_left by exact A. now rewrite words_trim_right by exact B.
Qed.
Lemma lstrip_keeps : forall vs x, (forall c, In c vs -> ~ blank c) -> vs <> [] ->
  exists u, lstrip_by space_s (x ++ rev vs) = u ++ rev vs.
Proof.
  intros vs x U Z. induction x as [|c x IH].
  - exists []. cbn [app]. apply lstrip_id. intros c H. apply not_blank. apply U. apply in_rev.
    destruct (rev vs); [discriminate|]. cbn in H. inversion H; subst. now left.
  - cbn [app lstrip_by]. destruct (space_s c); [exact IH|]. now exists (c :: x).
Qed.
(** A line begins (after white space) with an unbroken text. *)
Lemma strip_starts : forall vs L, unbroken vs -> startswith vs (strip L) = true <->
  exists a r, L = a ++ vs ++ r /\ forall c, In c a -> blank c.
Proof.
  intros vs L U. rewrite startswith_spec. split.
  - intros (t & S). destruct (strip_parts L) as (a & b & E & A & B). rewrite S in E.
    exists a, (t ++ b). rewrite E. split; [now rewrite <- app_assoc|exact A].
  - intros (a & r & -> & A). unfold strip, strip_by.
    rewrite lstrip_all by exact A. rewrite (lstrip_id space_s (vs ++ r)).
    + destruct (lstrip_keeps vs (rev r) (proj2 U) (proj1 U)) as (u & K).
      rewrite rev_app_distr, K. exists (rev u). now rewrite rev_app_distr, rev_involutive.
    + destruct U as [Z U]. destruct vs as [|v vs]; [congruence|]. cbn. intros c H. inversion H; subst.
      apply not_blank. apply U. now left.
Qed.

Lemma attr_line_of : forall vs L, unbroken vs -> attr_line vs L = true ->
  (exists a c r, L = a ++ vs ++ c :: r /\ (forall x, In x a -> blank x) /\ ~ blank c) \/
  (exists a c r, L = a ++ vs ++ c :: r /\ (forall x, In x a -> blank x) /\ blank c /\ word_of (s_ "export-subst") (c :: r)).
Proof.
  intros vs L U H. apply andb_prop in H. destruct H as [S M]. apply (strip_starts vs L U) in S.
  destruct S as (a & r & -> & A). apply member_in in M. rewrite words_strip, words_trim_left in M by exact A.
  destruct r as [|c r].
  - rewrite app_nil_r, words_unbroken in M by exact U. destruct M.
  - destruct (blank_dec c) as [C|C].
    + right. exists a, c, r. repeat split; try assumption; try reflexivity; try discriminate.
      * intros x K. cbn in K. repeat (destruct K as [<-|K]; [discriminate|]). destruct K.
      * rewrite words_app, words_unbroken in M by assumption. cbn in M. apply words_sound in M.
        apply (word_of_later _ [] c r C) in M. exact (proj2 M).
    + left. now exists a, c, r.
Qed.
Lemma attr_line_complete : forall vs a c r, unbroken vs -> (forall x, In x a -> blank x) -> blank c ->
  word_of (s_ "export-subst") (c :: r) -> attr_line vs (a ++ vs ++ c :: r) = true.
Proof.
  intros vs a c r U A C W. apply andb_true_intro. split.
  - apply strip_starts; [exact U|]. now exists a, (c :: r).
  - apply member_in. rewrite words_strip, words_trim_left, words_app, words_unbroken by assumption. cbn.
    apply words_complete in W. change (c :: r) with ([] ++ c :: r) in W.
    rewrite words_app in W by exact C. exact W.
Qed.
Lemma attr_present_app : forall vs a b, ended a -> attr_present vs (a ++ b) = attr_present vs a || attr_present vs b.
Proof. intros. unfold attr_present. rewrite file_lines_app by assumption. apply existsb_app. Qed.
Lemma export_word : forall c, blank c -> word_of (s_ "export-subst") (c :: s_ "export-subst").
Proof.
  intros c C. split.
  - split; [discriminate|]. intros x K. cbn in K. repeat (destruct K as [<-|K]; [discriminate|]). destruct K.
  - exists [c], []. rewrite app_nil_r. split; [reflexivity|]. split; [|now left]. right. now exists [], c.
Qed.
Lemma attr_present_line : forall vs, unbroken vs -> attr_present vs (export_line vs) = true.
Proof.
  intros vs U. unfold attr_present, export_line. rewrite app_assoc, file_lines_more.
  - cbn [file_lines existsb]. rewrite orb_false_r, <- app_assoc.
    change ((s_ " export-subst") ++ [newline]) with (" "%char :: (s_ "export-subst" ++ [newline])).
    apply (attr_line_complete vs [] " "%char); [exact U|intros x []|reflexivity|].
    apply words_sound. change (" "%char :: s_ "export-subst" ++ [newline]) with ((" "%char :: s_ "export-subst") ++ [newline]).
    rewrite words_newline. apply words_complete. now apply export_word.
  - intros K. apply in_app_or in K. destruct K as [K|K]; [now apply (proj2 U newline K)|].
    cbn in K. repeat (destruct K as [K|K]; [discriminate K|]). destruct K.
Qed.
Lemma attr_present_spec : forall vs t, unbroken vs -> attr_present vs t = true -> exports t vs \/ longer_pattern t vs.
Proof.
  intros vs t U H. unfold attr_present in H. apply existsb_exists in H. destruct H as (L & HL & HA).
  destruct (file_lines_sound _ t _ (le_n _) HL) as (l & E & Hl).
  assert (NV : ~ In newline vs) by (intros K; exact (proj2 U _ K newline_blank)).
  destruct (attr_line_of vs L U HA) as [(a & c & r & -> & A & C)|(a & c & r & -> & A & C & W)].
  - right. destruct E as [<-|E].
    + now exists a, c, r.
    + destruct r as [|d r _] using rev_ind.
      * exfalso. rewrite !app_assoc in E. apply app_inj_tail in E. destruct E as [_ ->]. now apply C.
      * exists a, c, r. split; [exact A|]. split; [exact C|].
        assert (E2 : (a ++ vs ++ c :: r) ++ [d] = l ++ [newline]) by (rewrite <- E, <- !app_assoc; reflexivity).
        apply app_inj_tail in E2. destruct E2 as [-> _]. exact Hl.
  - left. destruct E as [<-|E].
    + exists a, (c :: r). split; [exact A|]. split; [exact Hl|]. split; [now exists c, r|exact W].
    + destruct r as [|d r _] using rev_ind.
      * exfalso. apply words_complete in W. change [c] with ([] ++ c :: []) in W. rewrite words_app in W by exact C. destruct W.
      * assert (E2 : (a ++ vs ++ c :: r) ++ [d] = l ++ [newline]) by (rewrite <- E, <- !app_assoc; reflexivity).
        apply app_inj_tail in E2. destruct E2 as [<- ->].
        exists a, (c :: r). split; [exact A|]. split; [exact Hl|]. split; [now exists c, r|].
        apply words_sound. apply words_complete in W.
        change (c :: r ++ [newline]) with ((c :: r) ++ [newline]) in W. now rewrite words_newline in W.
Qed.
Lemma attr_exports : forall vs t, unbroken vs -> exports t vs -> attr_present vs t = true.
Proof.
  intros vs t U (a & r & A & Hl & (c & r' & -> & C) & W). unfold attr_present. apply existsb_exists.
  destruct (file_lines_complete (a ++ vs ++ c :: r') t) as (L & E & HL); [|exact Hl|].
  - intros Z. apply (f_equal (@List.length ascii)) in Z. rewrite !app_length in Z. cbn in Z. lia.
  - exists L. split; [exact HL|]. destruct E as [->| ->].
    + now apply attr_line_complete.
    + rewrite <- !app_assoc. cbn [app]. apply attr_line_complete; [assumption..|].
      apply words_sound. apply words_complete in W. change (c :: r' ++ [newline]) with ((c :: r') ++ [newline]).
      now rewrite words_newline.
Qed.
