(** Physical values of quantities: every quantity operation of [Pint.v] acts on
    the physical value as the corresponding real operation, whatever the units. *)
From Coq Require Import List String QArith Reals Qreals Bool Arith Lra Lia.
From Verif Require Import Arith Pint Base TwoLayer Impulse Scm Api Spec Exact SpecReal GenTL GenMeta.
Import ListNotations.
Local Open Scope R_scope.

Section U.
Variable reg : Registry.
Notation E := (xenv reg).
Notation usize := (usize reg).
Notation same_dim := (same_dim E).

Lemma Q2R_0 : Q2R 0 = 0.
Proof. unfold Q2R; cbn; lra. Qed.
Lemma Q2R_1 : Q2R 1 = 1.
Proof. unfold Q2R; cbn; lra. Qed.
Lemma Q2R_int z : Q2R (inject_Z z) = IZR z.
Proof. unfold Q2R, inject_Z; cbn. lra. Qed.

Lemma rsize_pos s e : 0 < Rpower (rg_size reg s) (Q2R e).
Proof. unfold Rpower. apply exp_pos. Qed.

Lemma usize_pos u : 0 < usize u.
Proof.
  induction u as [|[s e] u IH]; cbn [Exact.usize]; [lra|].
  apply Rmult_lt_0_compat; [apply rsize_pos|assumption].
Qed.
Lemma usize_neq u : usize u <> 0.
Proof. pose proof (usize_pos u). lra. Qed.

Lemma usize_app u v : usize (u ++ v) = usize u * usize v.
Proof.
  induction u as [|[s e] u IH]; cbn [Exact.usize app]; [lra|]. rewrite IH. lra.
Qed.
Lemma usize_umul u v : usize (umul u v) = usize u * usize v.
Proof. apply usize_app. Qed.

Lemma usize_upow u p : usize (upow u p) = Rpower (usize u) (Q2R p).
Proof.
  induction u as [|[s e] u IH]; cbn [Exact.usize upow map fst snd].
  - unfold Rpower. rewrite ln_1, Rmult_0_r, exp_0. reflexivity.
  - fold (upow u p). rewrite IH, Q2R_mult, <- Rpower_mult, Rpower_mult_distr; auto using rsize_pos, usize_pos.
Qed.
Lemma usize_uinv u : usize (uinv u) = / usize u.
Proof.
  unfold uinv. rewrite usize_upow.
  replace (Q2R (-1)) with (- (1)) by (unfold Q2R; cbn; lra).
  rewrite Rpower_Ropp, Rpower_1 by apply usize_pos. reflexivity.
Qed.
Lemma usize_udiv u v : usize (udiv u v) = usize u / usize v.
Proof. unfold udiv. rewrite usize_umul, usize_uinv. reflexivity. Qed.
Lemma usize_sq u : usize (upow u 2) = usize u * usize u.
Proof.
  rewrite usize_upow. replace (Q2R 2) with (INR 2) by (unfold Q2R; cbn; lra).
  rewrite Rpower_pow by apply usize_pos. cbn. lra.
Qed.
Lemma usize_sqrt u : usize (upow u (1 # 2)) = sqrt (usize u).
Proof.
  rewrite usize_upow. replace (Q2R (1 # 2)) with (/ 2) by (unfold Q2R; cbn; lra).
  apply Rpower_sqrt, usize_pos.
Qed.

(** Units with equal exponents have equal size. *)
Fixpoint drop_sym (s : string) (u : Units) : Units :=
  match u with
  | [] => []
  | (t, e) :: r => if String.eqb t s then drop_sym s r else (t, e) :: drop_sym s r
  end.
Lemma drop_sym_length s u : (List.length (drop_sym s u) <= List.length u)%nat.
Proof. induction u as [|[t e] u IH]; cbn; [lia|]. destruct (String.eqb t s); cbn; lia. Qed.
Lemma usize_drop s u : usize u = Rpower (rg_size reg s) (Q2R (expo u s)) * usize (drop_sym s u).
Proof.
  induction u as [|[t e] u IH]; cbn [Exact.usize expo drop_sym].
  - rewrite Q2R_0. unfold Rpower. rewrite Rmult_0_l, exp_0. lra.
  - destruct (String.eqb_spec t s) as [->|Hn].
    + rewrite Q2R_plus, Rpower_plus, IH. lra.
    + cbn [Exact.usize]. rewrite IH. lra.
Qed.
Lemma expo_drop s u t : (expo (drop_sym s u) t == if String.eqb s t then 0 else expo u t)%Q.
Proof.
  induction u as [|[t' e] u IH]; cbn [expo drop_sym].
  - destruct (String.eqb s t); reflexivity.
  - destruct (String.eqb_spec t' s) as [->|Hn].
    + rewrite IH. destruct (String.eqb s t); reflexivity.
    + cbn [expo]. destruct (String.eqb_spec t' t) as [->|]; [|exact IH].
      rewrite IH. destruct (String.eqb_spec s t); [congruence|reflexivity].
Qed.
Lemma usize_zero : forall n u, (List.length u <= n)%nat -> (forall s, expo u s == 0)%Q -> usize u = 1.
Proof.
  induction n as [|n IH]; intros u Hl H.
  - destruct u; [reflexivity|cbn in Hl; lia].
  - destruct u as [|[s e] u]; [reflexivity|].
    rewrite (usize_drop s). rewrite (Qeq_eqR _ _ (H s)), Q2R_0.
    unfold Rpower. rewrite Rmult_0_l, exp_0, Rmult_1_l.
    apply IH.
    + cbn [drop_sym]. rewrite String.eqb_refl. pose proof (drop_sym_length s u). cbn in Hl. lia.
    + intros t. rewrite expo_drop. destruct (String.eqb s t); [reflexivity|apply H].
Qed.
Lemma expo_umul u v s : (expo (u ++ v) s == expo u s + expo v s)%Q.
Proof.
  induction u as [|[t e] u IH]; cbn [expo app]; [ring|].
  destruct (String.eqb t s); rewrite IH; ring.
Qed.
Lemma expo_upow u p s : (expo (upow u p) s == p * expo u s)%Q.
Proof.
  induction u as [|[t e] u IH]; cbn [expo upow map fst snd]; [ring|]. fold (upow u p).
  destruct (String.eqb t s); rewrite IH; ring.
Qed.
Lemma expo_udiv u v s : (expo (udiv u v) s == expo u s - expo v s)%Q.
Proof. unfold udiv, umul, uinv. rewrite expo_umul, expo_upow. ring. Qed.

Lemma usize_expo u v : (forall s, expo u s == expo v s)%Q -> usize u = usize v.
Proof.
  intros H.
  assert (H1 : usize (udiv u v) = 1).
  { apply (usize_zero (List.length (udiv u v))); [lia|].
    intros s. rewrite expo_udiv, H. ring. }
  rewrite usize_udiv in H1. pose proof (usize_pos v).
  apply Rmult_eq_reg_r with (/ usize v); [|apply Rinv_neq_0_compat; lra].
  rewrite Rinv_r by lra. exact H1.
Qed.
Lemma usize_eqb u v : units_eqb u v = true -> usize u = usize v.
Proof. intros H. apply usize_expo, units_eqb_spec, H. Qed.

(** ** Values *)
Notation is_qty := (is_qty reg).

Lemma same_dim_refl u : same_dim u u.
Proof. intros k _. reflexivity. Qed.
Lemma same_dim_sym u v : same_dim u v -> same_dim v u.
Proof. intros H k Hk. symmetry. apply H, Hk. Qed.
Lemma same_dim_trans u v w : same_dim u v -> same_dim v w -> same_dim u w.
Proof. intros H G k Hk. rewrite (H k Hk). apply G, Hk. Qed.

Lemma is_qty_to_mag q x u : is_qty q x u -> to_mag E q u = Ok (Fin x).
Proof.
  intros (Hd & m & Hm & He). unfold to_mag, conv. apply dim_eqb_spec in Hd. rewrite Hd, Hm.
  pose proof (usize_pos u). pose proof (usize_pos (units q)).
  destruct (units_eqb (units q) u) eqn:Eu.
  - apply usize_eqb in Eu. rewrite Eu in He. apply Rmult_eq_reg_r in He; [subst; reflexivity|lra].
  - cbn [nmul ar xenv exact rootf xlift2]. f_equal. f_equal. rewrite usize_udiv.
    apply Rmult_eq_reg_r with (usize u); [|lra]. rewrite <- He. field. lra.
Qed.
Lemma to_mag_is_qty q x u : to_mag E q u = Ok (Fin x) -> is_qty q x u.
Proof.
  unfold to_mag, conv. destruct (dim_eqb E (units q) u) eqn:Ed; [|discriminate].
  apply dim_eqb_spec in Ed. intros H. split; [exact Ed|].
  pose proof (usize_pos u).
  destruct (units_eqb (units q) u) eqn:Eu.
  - apply usize_eqb in Eu. injection H as H. exists x. rewrite Eu. auto.
  - injection H as H. cbn [nmul ar xenv exact rootf xlift2] in H.
    destruct (mag q) as [m|]; [|discriminate]. exists m. split; [reflexivity|].
    injection H as <-. rewrite usize_udiv. field. lra.
Qed.
Lemma is_qty_unique q x y u : is_qty q x u -> is_qty q y u -> x = y.
Proof.
  intros H G. apply is_qty_to_mag in H. apply is_qty_to_mag in G. congruence.
Qed.

(** Change of the reference unit. *)
Lemma is_qty_conv q x u v y : is_qty q x u -> same_dim u v -> x * usize u = y * usize v -> is_qty q y v.
Proof.
  intros (Hd & m & Hm & He) Hv Hxy. split; [eapply same_dim_trans; eauto|]. exists m. split; [assumption|]. lra.
Qed.
Lemma is_qty_lit c u : is_qty (mkQty E c u) (Q2R c) u.
Proof. split; [apply same_dim_refl|]. exists (Q2R c). split; reflexivity. Qed.
Lemma is_qty_self m u : is_qty (mkQ (env := E) (Fin m) u) m u.
Proof. split; [apply same_dim_refl|]. exists m. split; reflexivity. Qed.

Lemma is_qty_mul p q x y u v : is_qty p x u -> is_qty q y v -> is_qty (qmul E p q) (x * y) (umul u v).
Proof.
  intros (Hd & m & Hm & He) (Hd' & m' & Hm' & He'). split.
  - intros k Hk. cbn [qmul units]. rewrite !dimx_umul, (Hd k Hk), (Hd' k Hk). reflexivity.
  - cbn [qmul units mag]. rewrite Hm, Hm'. exists (m * m'). split; [reflexivity|].
    rewrite !usize_umul.
    transitivity ((m * usize (units p)) * (m' * usize (units q))); [ring|]. rewrite He, He'. ring.
Qed.
Lemma is_qty_neg p x u : is_qty p x u -> is_qty (qneg E p) (- x) u.
Proof.
  intros (Hd & m & Hm & He). split; [assumption|]. cbn [qneg units mag]. rewrite Hm.
  exists (- m). split; [reflexivity|]. lra.
Qed.
Lemma is_qty_scale c p x u : is_qty p x u -> is_qty (qscale E (Fin c) p) (c * x) u.
Proof.
  intros (Hd & m & Hm & He). split; [assumption|]. cbn [qscale units mag]. rewrite Hm.
  exists (c * m). split; [reflexivity|]. rewrite !Rmult_assoc, He. reflexivity.
Qed.
Lemma xeqb_Fin a b : xeqb (Fin a) (Fin b) = true <-> a = b.
Proof. cbn. destruct (Req_EM_T a b); split; congruence. Qed.

Lemma is_qty_mag_zero q x u m : is_qty q x u -> mag q = Fin m -> (m = 0 <-> x = 0).
Proof.
  intros (Hd & m' & Hm' & He) Hm. rewrite Hm in Hm'. injection Hm' as <-.
  pose proof (usize_pos u). pose proof (usize_pos (units q)). split; intros ->.
  - rewrite Rmult_0_l in He. symmetry in He. apply Rmult_integral in He as [?|?]; [assumption|lra].
  - rewrite Rmult_0_l in He. apply Rmult_integral in He as [?|?]; [assumption|lra].
Qed.
Lemma is_qty_mag_pos q x u m : is_qty q x u -> mag q = Fin m -> (0 < m <-> 0 < x).
Proof.
  intros (Hd & m' & Hm' & He) Hm. rewrite Hm in Hm'. injection Hm' as <-.
  pose proof (usize_pos u). pose proof (usize_pos (units q)). split; intros Hp.
  - assert (0 < x * usize u) by (rewrite <- He; apply Rmult_lt_0_compat; lra).
    apply Rmult_lt_reg_r with (usize u); lra.
  - assert (0 < m * usize (units q)) by (rewrite He; apply Rmult_lt_0_compat; lra).
    apply Rmult_lt_reg_r with (usize (units q)); lra.
Qed.

Lemma qdiv_zero p q v : is_qty q 0 v -> qdiv E p q = Err ZeroDivisionError.
Proof.
  intros Hq. destruct Hq as (Hd' & m' & Hm' & He').
  assert (m' = 0) by (rewrite Rmult_0_l in He'; pose proof (usize_pos (units q));
    apply Rmult_integral in He' as [?|?]; [assumption|lra]).
  unfold qdiv. rewrite Hm'. subst. cbn [neqb nQ ar xenv exact]. rewrite Q2R_0.
  replace (xeqb (Fin 0) (Fin 0)) with true by (symmetry; apply xeqb_Fin; reflexivity). reflexivity.
Qed.
Lemma qdiv_ok p q x y u v : is_qty p x u -> is_qty q y v -> y <> 0 ->
  exists r, qdiv E p q = Ok r /\ is_qty r (x / y) (udiv u v) /\ units r = udiv (units p) (units q).
Proof.
  intros (Hd & m & Hm & He) Hq Hy. pose proof Hq as (Hd' & m' & Hm' & He').
  assert (Hm0 : m' <> 0) by (rewrite (is_qty_mag_zero _ _ _ _ Hq Hm'); exact Hy).
  unfold qdiv. rewrite Hm, Hm'. cbn [neqb nQ ar xenv exact]. rewrite Q2R_0.
  destruct (xeqb (Fin m') (Fin 0)) eqn:Ex; [apply xeqb_Fin in Ex; contradiction|].
  eexists. split; [reflexivity|]. split; [|reflexivity]. split.
  - intros k Hk. cbn [units]. rewrite !dimx_udiv, (Hd k Hk), (Hd' k Hk). reflexivity.
  - cbn [units mag ndiv ar xenv exact xdiv]. destruct (Req_EM_T m' 0); [contradiction|].
    exists (m / m'). split; [reflexivity|]. rewrite !usize_udiv.
    pose proof (usize_pos v). pose proof (usize_pos (units q)).
    transitivity ((m * usize (units p)) / (m' * usize (units q))); [field; lra|].
    rewrite He, He'. field. split; [lra|assumption].
Qed.

Lemma xnum_op_fin (op : R -> R -> R) a b : xlift2 op (Fin a) (Fin b) = Fin (op a b).
Proof. reflexivity. Qed.

(** Addition and subtraction: any operation compatible with scaling. *)
Lemma addsub_ok (op : R -> R -> R) p q x y u v :
  (forall a b c, op (a * c) (b * c) = op a b * c) ->
  is_qty p x u -> is_qty q y v -> same_dim u v -> usize u = usize v ->
  exists r, addsub E (xlift2 op) p q = Ok r /\ is_qty r (op x y) u /\
    (units r = units p \/ units r = units q).
Proof.
  intros Hop (Hd & m & Hm & He) (Hd' & m' & Hm' & He') Huv Hs.
  assert (Hpq : same_dim (units p) (units q)).
  { eapply same_dim_trans; [exact Hd|]. eapply same_dim_trans; [exact Huv|]. apply same_dim_sym, Hd'. }
  assert (Hqp : same_dim (units q) u) by (eapply same_dim_trans; [exact Hd'|apply same_dim_sym, Huv]).
  unfold addsub. pose proof Hpq as Hb. apply dim_eqb_spec in Hb. rewrite Hb. cbn [negb].
  pose proof (usize_pos (units p)) as Pp. pose proof (usize_pos (units q)) as Pq.
  destruct (units_eqb (units p) (units q)) eqn:Eu.
  - apply usize_eqb in Eu. eexists. split; [reflexivity|]. split; [|left; reflexivity].
    split; [exact Hd|]. cbn [mag units]. rewrite Hm, Hm'. exists (op m m'). split; [reflexivity|].
    rewrite <- !Hop, He, Eu, He', Hs. reflexivity.
  - destruct (has_delta (units p) && negb (has_delta (units q))).
    + rewrite (is_qty_to_mag p (m * usize (units p) / usize (units q)) (units q)).
      2:{ split; [exact Hpq|]. exists m. split; [exact Hm|]. field. lra. }
      cbn [bind]. eexists. split; [reflexivity|]. split; [|right; reflexivity]. split; [exact Hqp|].
      cbn [mag units]. rewrite Hm'. exists (op (m * usize (units p) / usize (units q)) m'). split; [reflexivity|].
      rewrite <- !Hop. replace (m * usize (units p) / usize (units q) * usize (units q)) with (x * usize u) by (rewrite <- He; field; lra).
      rewrite He', Hs. reflexivity.
    + rewrite (is_qty_to_mag q (m' * usize (units q) / usize (units p)) (units p)).
      2:{ split; [apply same_dim_sym, Hpq|]. exists m'. split; [exact Hm'|]. field. lra. }
      cbn [bind]. eexists. split; [reflexivity|]. split; [|left; reflexivity]. split; [exact Hd|].
      cbn [mag units]. rewrite Hm. exists (op m (m' * usize (units q) / usize (units p))). split; [reflexivity|].
      rewrite <- !Hop, He. f_equal. replace (m' * usize (units q) / usize (units p) * usize (units p)) with (m' * usize (units q)) by (field; lra).
      rewrite He', Hs. reflexivity.
Qed.

Lemma qadd_ok p q x y u v : is_qty p x u -> is_qty q y v -> same_dim u v -> usize u = usize v ->
  exists r, qadd E p q = Ok r /\ is_qty r (x + y) u /\ (units r = units p \/ units r = units q).
Proof. apply (addsub_ok Rplus). intros. ring. Qed.
Lemma qsub_ok p q x y u v : is_qty p x u -> is_qty q y v -> same_dim u v -> usize u = usize v ->
  exists r, qsub E p q = Ok r /\ is_qty r (x - y) u /\ (units r = units p \/ units r = units q).
Proof. apply (addsub_ok Rminus). intros. ring. Qed.

Lemma is_qty_sq p x u : is_qty p x u -> is_qty (qsq E p) (x * x) (upow u 2).
Proof.
  intros (Hd & m & Hm & He). split.
  - intros k Hk. cbn [qsq units]. rewrite !dimx_upow, (Hd k Hk). reflexivity.
  - cbn [qsq units mag]. rewrite Hm. exists (m * m). split; [reflexivity|]. rewrite !usize_sq.
    transitivity ((m * usize (units p)) * (m * usize (units p))); [ring|]. rewrite He. ring.
Qed.

Lemma qsqrt_ok p x u : is_qty p x u -> 0 <= x ->
  exists r, qsqrt E p = Ok r /\ is_qty r (sqrt x) (upow u (1 # 2)) /\ units r = upow (units p) (1 # 2).
Proof.
  intros Hp Hx. pose proof Hp as (Hd & m & Hm & He).
  assert (Hm0 : 0 <= m).
  { destruct Hx as [Hx|Hx].
    - apply (is_qty_mag_pos _ _ _ _ Hp Hm) in Hx. lra.
    - symmetry in Hx. apply (is_qty_mag_zero _ _ _ _ Hp Hm) in Hx. lra. }
  unfold qsqrt, nneg_p. rewrite Hm. cbn [nleb neqb nQ ar xenv exact]. rewrite Q2R_0.
  replace (xleb (Fin m) (Fin 0) && negb (xeqb (Fin m) (Fin 0))) with false.
  2:{ cbn. destruct (Rle_dec m 0), (Req_EM_T m 0); try reflexivity. exfalso. lra. }
  eexists. split; [reflexivity|]. split; [|reflexivity]. split.
  - intros k Hk. cbn [units]. rewrite !dimx_upow, (Hd k Hk). reflexivity.
  - cbn [units mag nsqrt ar xenv exact xlift1]. exists (sqrt m). split; [reflexivity|]. rewrite !usize_sqrt.
    pose proof (usize_pos u). pose proof (usize_pos (units p)).
    rewrite <- !sqrt_mult; try lra. f_equal. exact He.
Qed.
Lemma qsqrt_neg p x u : is_qty p x u -> x < 0 -> qsqrt E p = Err ComplexValue.
Proof.
  intros Hp Hx. pose proof Hp as (Hd & m & Hm & He).
  assert (Hn : is_qty (qneg E p) (- x) u) by (apply is_qty_neg; assumption).
  assert (Hm0 : m < 0).
  { assert (Hmm : mag (qneg E p) = Fin (- m)) by (cbn [qneg mag]; rewrite Hm; reflexivity).
    apply (is_qty_mag_pos _ _ _ _ Hn) in Hmm. lra. }
  unfold qsqrt, nneg_p. rewrite Hm. cbn [nleb neqb nQ ar xenv exact]. rewrite Q2R_0.
  replace (xleb (Fin m) (Fin 0) && negb (xeqb (Fin m) (Fin 0))) with true; [reflexivity|].
  cbn. destruct (Rle_dec m 0), (Req_EM_T m 0); try reflexivity; exfalso; lra.
Qed.

Lemma rsub_ok c q x u : is_qty q x u -> same_dim u [] -> usize u = 1 ->
  rsub E (Fin c) q = Ok (mkQ (env := E) (Fin (c - x)) []).
Proof.
  intros Hq Hu Hs. unfold rsub. rewrite (is_qty_to_mag q x []); [reflexivity|].
  apply (is_qty_conv q x u); auto. rewrite Hs. reflexivity.
Qed.
Lemma rdiv_ok c q x u : is_qty q x u -> x <> 0 ->
  exists r, rdiv E (Fin c) q = Ok r /\ is_qty r (c / x) (udiv [] u) /\ units r = udiv [] (units q).
Proof. intros Hq Hx. apply qdiv_ok; auto. apply is_qty_self. Qed.

(** Comparison. *)
Lemma qge_ok p q x y u : is_qty p x u -> is_qty q y u ->
  qge E p q = Ok (if Rle_dec y x then true else false).
Proof.
  intros (Hd & m & Hm & He) (Hd' & m' & Hm' & He'). unfold qge. rewrite Hm, Hm'.
  pose proof (usize_pos u). pose proof (usize_pos (units p)). pose proof (usize_pos (units q)).
  destruct (units_eqb (units p) (units q)) eqn:Eu.
  - apply usize_eqb in Eu. f_equal. cbn [nleb ar xenv exact xleb].
    destruct (Rle_dec m' m), (Rle_dec y x); try reflexivity; exfalso.
    + apply n. apply Rmult_le_reg_r with (usize u); [lra|]. rewrite <- He, <- He', Eu. apply Rmult_le_compat_r; lra.
    + apply n. apply Rmult_le_reg_r with (usize (units q)); [lra|]. rewrite He', <- Eu, He. apply Rmult_le_compat_r; lra.
  - assert (Hpq : dim_eqb E (units p) (units q) = true).
    { apply dim_eqb_spec. eapply same_dim_trans; [exact Hd|apply same_dim_sym, Hd']. }
    rewrite Hpq. f_equal. cbn [nleb nmul rootf ar xenv exact xleb xlift2]. rewrite He, He'.
    destruct (Rle_dec (y * usize u) (x * usize u)), (Rle_dec y x); try reflexivity; exfalso.
    + apply n. apply Rmult_le_reg_r with (usize u); lra.
    + apply n. apply Rmult_le_compat_r; lra.
Qed.

(** ** Series *)
Lemma is_series_to_mags e F u : is_series reg e F u ->
  to_mags E e u = Ok (map (fun i => Fin (F i)) (seq 0 (List.length (mags e)))).
Proof.
  intros (Hd & H). unfold to_mags. apply dim_eqb_spec in Hd. rewrite Hd. f_equal.
  pose proof (usize_pos u).
  apply nth_error_ext'. intros i.
  rewrite nth_error_map.
  destruct (nth_error (mags e) i) as [x|] eqn:Ex.
  - assert (Hi : (i < List.length (mags e))%nat) by (apply nth_error_Some; congruence).
    rewrite (nth_error_nth' _ 0%nat) by (rewrite seq_length; exact Hi). rewrite seq_nth by exact Hi. cbn [option_map Nat.add].
    destruct (H i x Ex) as (m & -> & He).
    destruct (units_eqb (aunits e) u) eqn:Eu.
    + rewrite Ex. apply usize_eqb in Eu. rewrite Eu in He. apply Rmult_eq_reg_r in He; [subst; reflexivity|lra].
    + rewrite nth_error_map, Ex. cbn [option_map nmul ar xenv exact rootf xlift2]. do 2 f_equal. rewrite usize_udiv.
      apply Rmult_eq_reg_r with (usize u); [|lra]. rewrite <- He. field. lra.
  - assert (Hi : (List.length (mags e) <= i)%nat) by (apply nth_error_None; assumption).
    transitivity (@None xnum).
    + apply nth_error_None. destruct (units_eqb _ _); rewrite ?map_length; exact Hi.
    + replace (nth_error (seq 0 (List.length (mags e))) i) with (@None nat); [reflexivity|].
      symmetry. apply nth_error_None. rewrite seq_length. exact Hi.
Qed.
Lemma is_series_nan_free e F u : is_series reg e F u -> nan_free E e.
Proof.
  intros (_ & H) x Hi. apply In_nth_error in Hi as (i & Hi). destruct (H i x Hi) as (m & -> & _). reflexivity.
Qed.

Lemma series_ok u F n :
  is_series reg (mkQA (env := E) (map (fun i => Fin (F i)) (seq 0 n)) u) F u.
Proof.
  split; [apply same_dim_refl|]. cbn [mags aunits]. intros i x Hx.
  rewrite nth_error_map in Hx. destruct (nth_error (seq 0 n) i) as [j|] eqn:Ej; [|discriminate].
  assert (Hi : (i < n)%nat) by (rewrite <- (seq_length n 0); apply nth_error_Some; congruence).
  rewrite (nth_error_nth' _ 0%nat) in Ej by (rewrite seq_length; exact Hi). rewrite seq_nth in Ej by exact Hi.
  injection Ej as <-. injection Hx as <-. exists (F i). split; reflexivity.
Qed.
End U.
