(** Lemmas about the string functions of Version.v. *)
From Coq Require Import List String Ascii Bool Arith NArith ZArith Lia.
From Verif Require Import Arith Version SpecVersion.
Import ListNotations.

Lemma ceqb_eq : forall a b, ceqb a b = true <-> a = b.
Proof. intros. apply Ascii.eqb_eq. Qed.
Lemma ceqb_neq : forall a b, ceqb a b = false <-> a <> b.
Proof. intros. apply Ascii.eqb_neq. Qed.
Lemma cin_in : forall c l, cin c l = true <-> In c l.
Proof.
  intros. unfold cin. rewrite existsb_exists. split.
  - intros (x & H & E). apply ceqb_eq in E. now subst.
  - intros H. exists c. split; [exact H|]. now apply ceqb_eq.
Qed.
Lemma cin_notin : forall c l, cin c l = false <-> ~ In c l.
Proof. intros. rewrite <- cin_in. destruct (cin c l); split; intros; congruence. Qed.
Lemma str_eqb_eq : forall a b, str_eqb a b = true <-> a = b.
Proof.
  induction a as [|x a IH]; intros [|y b]; cbn; split; intros H; try easy.
  - apply andb_prop in H. destruct H as [H1 H2]. apply ceqb_eq in H1. apply IH in H2. congruence.
  - inversion H; subst. apply andb_true_intro. split; [now apply ceqb_eq|now apply IH].
Qed.
Lemma str_eqb_refl : forall a, str_eqb a a = true.
Proof. intros. now apply str_eqb_eq. Qed.

Lemma startswith_spec : forall p s, startswith p s = true <-> exists t, s = p ++ t.
Proof.
  induction p as [|a p IH]; intros s; cbn.
  - split; [intros _; now exists s|reflexivity].
  - destruct s as [|b s]; cbn.
    + split; [discriminate|]. intros (t & H). discriminate.
    + split.
      * intros H. apply andb_prop in H. destruct H as [H1 H2]. apply ceqb_eq in H1. apply IH in H2.
        destruct H2 as (t & ->). exists t. now subst.
      * intros (t & H). inversion H; subst. apply andb_true_intro. split; [now apply ceqb_eq|].
        apply IH. now exists t.
Qed.
Lemma startswith_app : forall p t, startswith p (p ++ t) = true.
Proof. intros. apply startswith_spec. now exists t. Qed.
Lemma drop_prefix_app : forall p t, drop_prefix p (p ++ t) = t.
Proof. intros p t. unfold drop_prefix. induction p; cbn; auto. Qed.
Lemma endswith_spec : forall p s, endswith p s = true <-> exists t, s = t ++ p.
Proof.
  intros. unfold endswith. rewrite startswith_spec. split; intros (t & H).
  - exists (rev t). rewrite <- (rev_involutive s), H, rev_app_distr, rev_involutive. reflexivity.
  - exists (rev t). subst. apply rev_app_distr.
Qed.
Lemma endswith_app : forall p t, endswith p (t ++ p) = true.
Proof. intros. apply endswith_spec. now exists t. Qed.
Lemma drop_suffix_app : forall p t, drop_suffix p (t ++ p) = t.
Proof.
  intros. unfold drop_suffix. rewrite app_length.
  replace (List.length t + List.length p - List.length p) with (List.length t + 0) by lia.
  rewrite firstn_app_2. cbn. apply app_nil_r.
Qed.
(** Suffixes that end differently. *)
Lemma endswith_last_neq : forall p a s b, a <> b -> endswith (p ++ [a]) (s ++ [b]) = false.
Proof.
  intros p a s b H. destruct (endswith _ _) eqn:E; [|reflexivity].
  apply endswith_spec in E. destruct E as (t & E). rewrite app_assoc in E.
  apply app_inj_tail in E. destruct E; congruence.
Qed.

(** ** Splitting at a character *)
Lemma lpart_spec : forall c s a b, lpart c s = Some (a, b) <-> s = a ++ c :: b /\ ~ In c a.
Proof.
  intros c s. induction s as [|x s IH]; intros a b; cbn.
  - split; [discriminate|]. intros [H _]. destruct a; discriminate.
  - destruct (ceqb x c) eqn:E.
    + apply ceqb_eq in E. subst x. split.
      * intros H. inversion H; subst. split; [reflexivity|]. intros [].
      * intros [H N]. destruct a as [|y a]; cbn in H; inversion H; subst; [reflexivity|].
        exfalso. apply N. now left.
    + apply ceqb_neq in E. split.
      * intros H. destruct (lpart c s) as [[a' b']|] eqn:L; [|discriminate].
        inversion H; subst. destruct (proj1 (IH a' b) eq_refl) as [-> N]. split; [reflexivity|].
        intros [K|K]; [congruence|contradiction].
      * intros [H N]. destruct a as [|y a]; cbn in H; inversion H; subst; [congruence|].
        replace (lpart c (a ++ c :: b)) with (Some (a, b)); [reflexivity|]. symmetry. apply IH.
        split; [reflexivity|]. intros K. apply N. now right.
Qed.
Lemma lpart_none : forall c s, lpart c s = None <-> ~ In c s.
Proof.
  intros c s. induction s as [|x s IH]; cbn.
  - split; [intros _ []|reflexivity].
  - destruct (ceqb x c) eqn:E.
    + apply ceqb_eq in E. split; [discriminate|]. intros H. exfalso. apply H. now left.
    + apply ceqb_neq in E. destruct (lpart c s) as [[a b]|].
      * split; [discriminate|]. intros H. exfalso. destruct IH as [_ IH].
        assert (~ In c s) by (intros K; apply H; now right). now specialize (IH H0).
      * split; [|reflexivity]. intros _ [K|K]; [congruence|]. now apply IH.
Qed.
Lemma rpart_spec : forall c s a b, rpart c s = Some (a, b) <-> s = a ++ c :: b /\ ~ In c b.
Proof.
  intros c s a b. unfold rpart. split.
  - intros H. destruct (lpart c (rev s)) as [[x y]|] eqn:E; [|discriminate]. inversion H; subst.
    apply lpart_spec in E. destruct E as [E N]. split.
    + rewrite <- (rev_involutive s), E, rev_app_distr. cbn. now rewrite <- app_assoc.
    + intros K. apply N. now apply in_rev.
  - intros [-> N]. replace (lpart c (rev (a ++ c :: b))) with (Some (rev b, rev a)).
    + now rewrite !rev_involutive.
    + symmetry. apply lpart_spec. rewrite rev_app_distr. cbn. rewrite <- app_assoc. split; [reflexivity|].
      intros K. apply N. now apply in_rev.
Qed.
Lemma rpart_none : forall c s, rpart c s = None <-> ~ In c s.
Proof.
  intros. unfold rpart. split.
  - intros H K. destruct (lpart c (rev s)) as [[x y]|] eqn:E; [discriminate|].
    apply lpart_none in E. apply E. apply -> in_rev. exact K.
  - intros H. destruct (lpart c (rev s)) as [[x y]|] eqn:E; [|reflexivity].
    apply lpart_spec in E. destruct E as [E _]. exfalso. apply H. apply in_rev. rewrite E.
    apply in_or_app. right. now left.
Qed.

(** ** Numerals *)
Lemma is_digit_in : forall c, is_digit c = true <-> In c (s_ "0123456789").
Proof. intros. apply cin_in. Qed.
Lemma is_hex_in : forall c, is_hex c = true <-> In c (s_ "0123456789abcdef").
Proof. intros. apply cin_in. Qed.
Lemma digits_only_spec : forall s, nonempty_digits s = true <-> digits_only s.
Proof.
  intros s. unfold nonempty_digits, digits_only. rewrite andb_true_iff, forallb_forall. split.
  - intros [H1 H2]. split; [intros ->; discriminate|]. intros c K. apply is_digit_in. auto.
  - intros [H1 H2]. split; [now destruct s|]. intros c K. apply is_digit_in. auto.
Qed.
Lemma hex_spec : forall s, negb (match s with [] => true | _ => false end) && forallb is_hex s = true <-> hexadecimal s.
Proof.
  intros s. unfold hexadecimal. rewrite andb_true_iff, forallb_forall. split.
  - intros [H1 H2]. split; [intros ->; discriminate|]. intros c K. apply is_hex_in. auto.
  - intros [H1 H2]. split; [now destruct s|]. intros c K. apply is_hex_in. auto.
Qed.
Lemma small_digit : forall (P : N -> Prop), P 0%N -> P 1%N -> P 2%N -> P 3%N -> P 4%N -> P 5%N -> P 6%N -> P 7%N -> P 8%N -> P 9%N ->
  forall d, (d < 10)%N -> P d.
Proof.
  intros P H0 H1 H2 H3 H4 H5 H6 H7 H8 H9 d Hd.
  assert (K : (d = 0 \/ d = 1 \/ d = 2 \/ d = 3 \/ d = 4 \/ d = 5 \/ d = 6 \/ d = 7 \/ d = 8 \/ d = 9)%N) by lia.
  decompose [or] K; subst; assumption.
Qed.
Lemma digit_chr_in : forall d, (d < 10)%N -> In (ascii_of_N (48 + d)) (s_ "0123456789").
Proof. apply small_digit; cbn; tauto. Qed.
Lemma digit_chr_val : forall d, (d < 10)%N -> digit_val (ascii_of_N (48 + d)) = Z.of_N d.
Proof. apply small_digit; reflexivity. Qed.
Lemma dec_val_app : forall s c, dec_val (s ++ [c]) = (10 * dec_val s + digit_val c)%Z.
Proof. intros. unfold dec_val. rewrite fold_left_app. reflexivity. Qed.
Lemma numeral_digits : forall n s, Numeral n s -> digits_only s.
Proof.
  intros n s H. induction H as [d Hd|n s d Hn Hd H IH].
  - split; [discriminate|]. intros c [K|[]]. subst c. now apply digit_chr_in.
  - split; [now destruct s|]. intros c K. apply in_app_or in K. destruct K as [K|[K|[]]].
    + now apply IH.
    + subst c. now apply digit_chr_in.
Qed.
Lemma numeral_val : forall n s, Numeral n s -> dec_val s = Z.of_N n.
Proof.
  intros n s H. induction H as [d Hd|n s d Hn Hd H IH].
  - unfold dec_val. cbn -[Z.mul ascii_of_N N.add]. rewrite digit_chr_val by exact Hd. lia.
  - rewrite dec_val_app, IH, digit_chr_val by exact Hd. lia.
Qed.
Lemma numeral_show_fuel : forall fuel n, (n < 2 ^ N.of_nat fuel)%N -> (0 < fuel) -> Numeral n (show_fuel fuel n).
Proof.
  induction fuel as [|k IH]; intros n Hn Hf; [lia|]. cbn [show_fuel].
  destruct (N.ltb_spec n 10) as [H|H].
  - now apply Num_digit.
  - pose proof (N.div_mod n 10 ltac:(discriminate)) as E. pose proof (N.mod_lt n 10 ltac:(discriminate)) as M.
    assert (Hq : (0 < n / 10)%N) by (apply N.div_str_pos; lia).
    rewrite E at 1. apply Num_more; [exact Hq|exact M|]. apply IH.
    + apply N.div_lt_upper_bound; [discriminate|].
      replace (N.of_nat (S k)) with (N.succ (N.of_nat k)) in Hn by lia. rewrite N.pow_succ_r' in Hn. lia.
    + destruct k; [|lia]. cbn in Hn. lia.
Qed.
Lemma numeral_show : forall n, Numeral n (show_N n).
Proof.
  intros n. unfold show_N. apply numeral_show_fuel; [|lia].
  destruct n as [|p]; [reflexivity|].
  pose proof (N.size_gt (Npos p)) as H. eapply N.lt_le_trans; [exact H|].
  apply N.pow_le_mono_r; [discriminate|].
  assert (E : forall q, N.of_nat (Pos.size_nat q) = Npos (Pos.size q)).
  { induction q; cbn [Pos.size_nat Pos.size]; try lia; reflexivity. }
  cbn [N.size N.size_nat]. rewrite Nat2N.inj_succ, E. lia.
Qed.
Lemma numeral_fun : forall n s t, Numeral n s -> Numeral n t -> s = t.
Proof.
  intros n s t H. revert t. induction H as [d Hd|n s d Hn Hd H IH]; intros t K.
  - destruct K as [d' Hd'|n' s' d' Hn' Hd' K']; [reflexivity|lia].
  - remember (10 * n + d)%N as m eqn:Em. destruct K as [d' Hd'|n' s' d' Hn' Hd' K'].
    + lia.
    + assert (n = n') by lia. assert (d = d') by lia. subst. f_equal. now apply IH.
Qed.
Lemma numeral_inj : forall n m s, Numeral n s -> Numeral m s -> n = m.
Proof. intros n m s H K. apply numeral_val in H. apply numeral_val in K. lia. Qed.
Lemma show_Z_of_N : forall n s, Numeral n s -> show_Z (Z.of_N n) = s.
Proof.
  intros n s H. unfold show_Z. destruct (Z.ltb_spec (Z.of_N n) 0); [lia|]. rewrite N2Z.id.
  eapply numeral_fun; [apply numeral_show|exact H].
Qed.

(** ** strip *)
Lemma lstrip_id : forall f s, (forall c, hd_error s = Some c -> f c = false) -> lstrip_by f s = s.
Proof. intros f [|c s] H; [reflexivity|]. cbn. now rewrite (H c eq_refl). Qed.
Lemma strip_id : forall f s, (forall c, hd_error s = Some c \/ hd_error (rev s) = Some c -> f c = false) -> strip_by f s = s.
Proof.
  intros f s H. unfold strip_by. rewrite (lstrip_id f s) by (intros; apply H; now left).
  rewrite lstrip_id by (intros; apply H; now right). apply rev_involutive.
Qed.
Lemma lstrip_all : forall f a s, (forall c, In c a -> f c = true) -> lstrip_by f (a ++ s) = lstrip_by f s.
Proof.
  intros f a s H. induction a as [|x a IH]; cbn; [reflexivity|].
  rewrite (H x) by now left. apply IH. intros c K. apply H. now right.
Qed.
Lemma strip_line : forall f s nl, (forall c, hd_error s = Some c \/ hd_error (rev s) = Some c -> f c = false) -> f nl = true ->
  strip_by f (s ++ [nl]) = s.
Proof.
  intros f s nl H N. unfold strip_by. destruct s as [|x s].
  - cbn. now rewrite N.
  - rewrite (lstrip_id f ((x :: s) ++ [nl])) by (intros c E; apply H; now left).
    rewrite rev_app_distr. cbn [rev app lstrip_by]. rewrite N.
    rewrite lstrip_id by (intros c E; apply H; now right). apply (rev_involutive (x :: s)).
Qed.
Lemma strip_both : forall f a s b, (forall c, In c a -> f c = true) -> (forall c, In c b -> f c = true) ->
  (forall c, hd_error s = Some c \/ hd_error (rev s) = Some c -> f c = false) -> strip_by f (a ++ s ++ b) = s.
Proof.
  intros f a s b Ha Hb H. unfold strip_by. rewrite lstrip_all by exact Ha. destruct s as [|x s].
  - replace (lstrip_by f ([] ++ b)) with (@nil ascii); [reflexivity|]. cbn.
    rewrite <- (app_nil_r b). now rewrite lstrip_all.
  - rewrite (lstrip_id f ((x :: s) ++ b)) by (intros c E; apply H; now left).
    rewrite rev_app_distr, lstrip_all by (intros c K; apply Hb; apply in_rev; exact K).
    rewrite lstrip_id by (intros c E; apply H; now right). apply (rev_involutive (x :: s)).
Qed.
Lemma space_b_s : forall c, space_s c = false -> space_b c = false.
Proof. intros c H. unfold space_s in H. now apply orb_false_elim in H. Qed.
Lemma no_space_in : forall (s : str) c, hd_error s = Some c \/ hd_error (rev s) = Some c -> In c s.
Proof.
  intros s c [H|H].
  - destruct s; inversion H. now left.
  - apply in_rev. destruct (rev s); inversion H. now left.
Qed.
Lemma hd_error_app : forall A (a b : list A), a <> [] -> hd_error (a ++ b) = hd_error a.
Proof. intros A [|x a] b H; [congruence|reflexivity]. Qed.

(** ** str.split *)
Lemma split_none : forall c s, ~ In c s -> split c s = [s].
Proof.
  intros c s H. induction s as [|x s IH]; cbn; [reflexivity|].
  destruct (ceqb x c) eqn:E; [apply ceqb_eq in E; subst; exfalso; apply H; now left|].
  rewrite IH; [reflexivity|]. intros K. apply H. now right.
Qed.
Lemma split_app : forall c s t, ~ In c s -> split c (s ++ c :: t) = s :: split c t.
Proof.
  intros c s t H. induction s as [|x s IH]; cbn.
  - replace (ceqb c c) with true; [reflexivity|]. symmetry. now apply ceqb_eq.
  - destruct (ceqb x c) eqn:E; [apply ceqb_eq in E; subst; exfalso; apply H; now left|].
    rewrite IH; [reflexivity|]. intros K. apply H. now right.
Qed.

(** ** int *)
Lemma digit_not_special : forall c, In c (s_ "0123456789") -> space_s c = false /\ ceqb c "-" = false /\ ceqb c "+" = false /\ ceqb c "_" = false /\ ceqb c newline = false /\ ceqb c "." = false.
Proof. intros c H. cbn in H. repeat (destruct H as [<-|H]; [repeat split; reflexivity|]). destruct H. Qed.
Lemma hex_not_special : forall c, In c (s_ "0123456789abcdef") -> space_s c = false /\ ceqb c "-" = false /\ ceqb c "+" = false /\ ceqb c "_" = false /\ ceqb c newline = false /\ ceqb c "." = false /\ ceqb c "y" = false /\ ceqb c "g" = false.
Proof. intros c H. cbn in H. repeat (destruct H as [<-|H]; [repeat split; reflexivity|]). destruct H. Qed.
Lemma py_int_digits : forall s, digits_only s -> py_int (Some s) = Ok (dec_val s).
Proof.
  intros s [Hne H]. unfold py_int, strip. rewrite strip_id.
  2:{ intros c K. apply no_space_in in K. now apply digit_not_special, H. }
  destruct s as [|c s]; [congruence|].
  destruct (digit_not_special c (H c (or_introl eq_refl))) as (_ & -> & -> & _).
  unfold py_int_unsigned. rewrite split_none.
  - cbn [forallb]. replace (nonempty_digits (c :: s)) with true.
    + cbn [andb List.concat]. now rewrite app_nil_r.
    + symmetry. apply digits_only_spec. now split.
  - intros K. apply H in K. apply digit_not_special in K. decompose [and] K. discriminate.
Qed.

(** ** The regular expression *)
Lemma in_last : forall A (s : list A), s <> [] -> exists t c, s = t ++ [c].
Proof. intros A s H. destruct (exists_last H) as (t & c & E). now exists t, c. Qed.
Lemma chomp_id : forall s, ~ In newline s -> chomp s = s.
Proof.
  intros s H. unfold chomp. destruct (endswith [newline] s) eqn:E; [|reflexivity].
  apply endswith_spec in E. destruct E as (t & ->). exfalso. apply H. apply in_or_app. right. now left.
Qed.
Lemma chomp_nl : forall s, chomp (s ++ [newline]) = s.
Proof. intros. unfold chomp. now rewrite endswith_app, drop_suffix_app. Qed.
Lemma hex_no : forall c s, hexadecimal s -> ~ In c (s_ "0123456789abcdef") -> ~ In c s.
Proof. intros c s [_ H] N K. auto. Qed.
Lemma digits_no : forall c s, digits_only s -> ~ In c (s_ "0123456789") -> ~ In c s.
Proof. intros c s [_ H] N K. auto. Qed.
Ltac notin := cbn; let H := fresh in intros H; repeat (destruct H as [H|H]; [discriminate H|]); destruct H.

Lemma match_describe_spec : forall s tag num hex,
  match_describe s = Some (tag, num, hex) <-> describe_format s tag num hex.
Proof.
  intros s tag num hex. unfold describe_format. split.
  - intros H. unfold match_describe in H.
    destruct (rpart "-" (chomp s)) as [[l g]|] eqn:E1; [|discriminate].
    destruct g as [|c hx]; [discriminate|].
    destruct (rpart "-" l) as [[tg nm]|] eqn:E2; [|discriminate].
    destruct (_ && negb (cin newline tg)) eqn:B; [|discriminate]. inversion H; subst tg nm hx; clear H.
    apply rpart_spec in E1. destruct E1 as [E1 _]. apply rpart_spec in E2. destruct E2 as [E2 _].
    apply andb_prop in B. destruct B as [B B6]. apply andb_prop in B. destruct B as [B B5].
    apply andb_prop in B. destruct B as [B B4]. apply andb_prop in B. destruct B as [B B3].
    apply andb_prop in B. destruct B as [B1 B2].
    apply ceqb_eq in B1. subst c.
    assert (Hh : hexadecimal hex) by (apply hex_spec; now rewrite B2).
    apply digits_only_spec in B4.
    apply negb_true_iff in B6. apply cin_notin in B6.
    split; [|repeat split; try tauto; try apply B4; try apply Hh; intros ->; discriminate].
    subst l. unfold chomp in E1. destruct (endswith [newline] s) eqn:En.
    + apply endswith_spec in En. destruct En as (t & ->). rewrite drop_suffix_app in E1. subst t.
      right. cbn. rewrite <- !app_assoc. reflexivity.
    + left. subst s. cbn. rewrite <- !app_assoc. reflexivity.
  - intros (Hs & Ht & Hn & Hd & Hh).
    assert (E : chomp s = (tag ++ "-"%char :: num) ++ "-"%char :: "g"%char :: hex).
    { assert (Hc : ~ In newline (tag ++ s_ "-" ++ num ++ s_ "-g" ++ hex)).
      { rewrite !in_app_iff. intros [K|[K|[K|[K|K]]]].
        - contradiction.
        - revert K. notin.
        - revert K. apply digits_no; [exact Hd|notin].
        - revert K. notin.
        - revert K. apply hex_no; [exact Hh|notin]. }
      destruct Hs as [-> | ->].
      - rewrite chomp_id by exact Hc. cbn. now rewrite <- app_assoc.
      - replace (tag ++ s_ "-" ++ num ++ s_ "-g" ++ hex ++ [newline]) with ((tag ++ s_ "-" ++ num ++ s_ "-g" ++ hex) ++ [newline])
          by now rewrite <- !app_assoc.
        rewrite chomp_nl. cbn. now rewrite <- app_assoc. }
    unfold match_describe. rewrite E.
    replace (rpart "-" ((tag ++ "-"%char :: num) ++ "-"%char :: "g"%char :: hex)) with (Some (tag ++ "-"%char :: num, "g"%char :: hex)).
    2:{ symmetry. apply rpart_spec. split; [reflexivity|]. intros [K|K]; [discriminate|].
        revert K. apply hex_no; [exact Hh|notin]. }
    replace (rpart "-" (tag ++ "-"%char :: num)) with (Some (tag, num)).
    2:{ symmetry. apply rpart_spec. split; [reflexivity|]. apply digits_no; [exact Hd|notin]. }
    apply digits_only_spec in Hd. apply hex_spec in Hh. apply cin_notin in Hn.
    replace (ceqb "g" "g") with true by reflexivity. rewrite Hd, Hn, andb_true_l, Hh.
    destruct tag; [congruence|reflexivity].
Qed.

(** ** Sorting *)
Lemma str_leb_spec : forall a b, str_leb a b = true <-> lex_le a b.
Proof.
  induction a as [|x a IH]; intros b.
  - cbn. split; [constructor|reflexivity].
  - destruct b as [|y b]; cbn [str_leb]; cbv zeta.
    + split; [discriminate|]. intros H; inversion H.
    + rewrite orb_true_iff, andb_true_iff, Nat.ltb_lt, Nat.eqb_eq, IH. split.
      * intros [H|[H1 H2]]; [now constructor|].
        assert (x = y) by (rewrite <- (ascii_nat_embedding x), <- (ascii_nat_embedding y); congruence).
        subst. now constructor.
      * intros H. inversion H; subst; auto.
Qed.
Lemma lex_refl : forall a, lex_le a a.
Proof. induction a as [|x a IH]; [constructor|now apply Lex_eq]. Qed.
Lemma lex_trans : forall a b c, lex_le a b -> lex_le b c -> lex_le a c.
Proof.
  intros a b c H. revert c. induction H as [s|x y s t L|x s t H IH]; intros c K.
  - constructor.
  - inversion K; subst.
    + apply Lex_lt. lia.
    + now apply Lex_lt.
  - inversion K; subst.
    + now apply Lex_lt.
    + apply Lex_eq. auto.
Qed.
Lemma lex_total : forall a b, lex_le a b \/ lex_le b a.
Proof.
  induction a as [|x a IH]; intros [|y b]; try (left; now constructor); try (right; now constructor).
  destruct (Nat.lt_trichotomy (nat_of_ascii x) (nat_of_ascii y)) as [L|[E|L]].
  - left. now constructor.
  - assert (x = y) by (rewrite <- (ascii_nat_embedding x), <- (ascii_nat_embedding y); congruence). subst.
    destruct (IH b); [left|right]; now constructor.
  - right. now constructor.
Qed.
Lemma lex_antisym : forall a b, lex_le a b -> lex_le b a -> a = b.
Proof.
  intros a b H. induction H as [s|x y s t L|x s t H IH]; intros K; inversion K; subst; try lia; try reflexivity.
  f_equal. auto.
Qed.
Inductive lex_sorted : list str -> Prop :=
| LS_nil : lex_sorted []
| LS_cons : forall x l, (forall y, In y l -> lex_le x y) -> lex_sorted l -> lex_sorted (x :: l).
Lemma insert_in : forall x l y, In y (insert x l) <-> y = x \/ In y l.
Proof.
  intros x l y. induction l as [|z l IH]; cbn.
  - split; [intros [H|[]]; auto|intros [H|[]]; auto].
  - destruct (str_eqb x z) eqn:E.
    + apply str_eqb_eq in E. subst. cbn. split; [tauto|]. intros [->|H]; auto.
    + destruct (str_leb x z); cbn.
      * split; [intros [H|H]; auto|intros [H|H]; auto].
      * rewrite IH. tauto.
Qed.
Lemma insert_sorted : forall x l, lex_sorted l -> lex_sorted (insert x l).
Proof.
  intros x l H. induction H as [|z l Hz H IH]; cbn.
  - constructor; [intros y []|constructor].
  - destruct (str_eqb x z) eqn:E; [now constructor|].
    destruct (str_leb x z) eqn:L.
    + apply str_leb_spec in L. constructor; [|now constructor].
      intros y [<-|K]; [exact L|]. eapply lex_trans; [exact L|auto].
    + constructor; [|exact IH]. intros y K. apply insert_in in K. destruct K as [->|K]; [|auto].
      destruct (lex_total z x) as [T|T]; [exact T|]. apply str_leb_spec in T. congruence.
Qed.
Lemma sorted_set_in : forall l y, In y (sorted_set l) <-> In y l.
Proof.
  intros l y. induction l as [|x l IH]; cbn; [tauto|]. unfold sorted_set in *. rewrite insert_in, IH.
  split; intros [H|H]; auto.
Qed.
Lemma sorted_set_sorted : forall l, lex_sorted (sorted_set l).
Proof. induction l as [|x l IH]; cbn; [constructor|]. now apply insert_sorted. Qed.

Lemma first_with_prefix_some : forall p l r, lex_sorted l ->
  (first_with_prefix p l = Some r <-> In (p ++ r) l /\ forall r', In (p ++ r') l -> lex_le (p ++ r) (p ++ r')).
Proof.
  intros p l r S. split.
  - intros H. induction S as [|x l Hx S IH]; cbn in H; [discriminate|].
    destruct (startswith p x) eqn:E.
    + apply startswith_spec in E. destruct E as (t & ->). rewrite drop_prefix_app in H. inversion H; subst t.
      split; [now left|]. intros r' [K|K]; [rewrite K; apply lex_refl|auto].
    + destruct (IH H) as [I1 I2]. split; [now right|]. intros r' [K|K]; [|auto].
      exfalso. subst x. rewrite startswith_app in E. discriminate.
  - intros [H1 H2]. induction S as [|x l Hx S IH]; cbn; [destruct H1|].
    destruct (startswith p x) eqn:E.
    + apply startswith_spec in E. destruct E as (t & ->). rewrite drop_prefix_app. f_equal.
      apply (app_inv_head p). apply lex_antisym.
      * destruct H1 as [H1|H1]; [rewrite H1; apply lex_refl|auto].
      * apply H2. now left.
    + apply IH.
      * destruct H1 as [H1|H1]; [|exact H1]. subst x. rewrite startswith_app in E. discriminate.
      * intros r' K. apply H2. now right.
Qed.
Lemma first_with_prefix_none : forall p l, first_with_prefix p l = None <-> forall r, ~ In (p ++ r) l.
Proof.
  intros p l. induction l as [|x l IH]; cbn.
  - split; [intros _ r []|reflexivity].
  - destruct (startswith p x) eqn:E.
    + split; [discriminate|]. intros H. apply startswith_spec in E. destruct E as (t & ->).
      exfalso. apply (H t). now left.
    + rewrite IH. split; intros H r.
      * intros [K|K]; [subst x; rewrite startswith_app in E; discriminate|]. now apply (H r).
      * intros K. apply (H r). now right.
Qed.
Lemma lex_app : forall p a b, lex_le (p ++ a) (p ++ b) <-> lex_le a b.
Proof.
  induction p as [|x p IH]; intros a b; cbn; [tauto|]. split; intros H.
  - inversion H; subst; [lia|]. now apply IH.
  - apply Lex_eq. now apply IH.
Qed.
