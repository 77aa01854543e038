(** Rows: the impulse-response model with numbers as parameters and a driver
    with columns. *)
From Coq Require Import List String QArith Bool Arith Lia.
From Verif Require Import Arith Pint Base TwoLayer Impulse Scm Api Rows SpecRows GenRows.
Import ListNotations.

Definition const (env : Env) (k : nat) (x : num env) : num (rows env k) := fun _ => x.

Section Num.
Variables (env : Env) (k : nat).
Notation E := (rows env k).
Notation nm := (number env k).
Notation cst := (const env k).

Lemma forallb_const (b : bool) n : forallb (fun _ => b) (seq n (S k)) = b.
Proof.
  cbn [seq forallb]. destruct b; [|reflexivity]. generalize (S n). clear. induction k as [|m IH]; intros n; [reflexivity|]. exact (IH (S n)).
Qed.
Lemma n_eqb x y : neqb E (cst x) (cst y) = neqb env x y. Proof. apply (forallb_const (neqb env x y) 0). Qed.
Lemma n_leb x y : nleb E (cst x) (cst y) = nleb env x y. Proof. apply (forallb_const (nleb env x y) 0). Qed.

Lemma n_conv x u v : conv E (cst x) u v = rmap cst (conv env x u v).
Proof. unfold conv. change (dim_eqb E u v) with (dim_eqb env u v). destruct (dim_eqb env u v); [|reflexivity]. destruct (units_eqb u v); reflexivity. Qed.
Lemma n_to_mag q u : to_mag E (nm q) u = rmap cst (to_mag env q u). Proof. exact (n_conv (mag q) (units q) u). Qed.
Lemma n_assert v u : assert_quantity E (number_val env k v) u = rmap nm (assert_quantity env v u).
Proof. destruct v as [q|]; [|reflexivity]. cbn [number_val assert_quantity]. rewrite n_to_mag. destruct (to_mag env q u) as [m|[]]; reflexivity. Qed.

Lemma n_qdiv p q : qdiv E (nm p) (nm q) = rmap nm (qdiv env p q).
Proof. unfold qdiv. change (neqb E (mag (nm q)) (nQ E 0)) with (neqb E (cst (mag q)) (cst (nQ env 0))). rewrite (n_eqb (mag q) (nQ env 0)). destruct (neqb env (mag q) (nQ env 0)); reflexivity. Qed.
Lemma n_rdiv c q : rdiv E (cst c) (nm q) = rmap nm (rdiv env c q).
Proof. exact (n_qdiv (mkQ c []) q). Qed.
Lemma n_addsub op op' p q : (forall x y, op (cst x) (cst y) = cst (op' x y)) -> addsub E op (nm p) (nm q) = rmap nm (addsub env op' p q).
Proof.
  intros H. unfold addsub. cbn [units number]. change (dim_eqb E (units p) (units q)) with (dim_eqb env (units p) (units q)).
  destruct (dim_eqb env (units p) (units q)); cbn [negb]; [|reflexivity].
  assert (Z : forall x y u, mkQ (op (cst x) (cst y)) u = nm (mkQ (op' x y) u)) by (intros; rewrite H; reflexivity).
  destruct (units_eqb (units p) (units q)); [exact (f_equal Ok (Z _ _ _))|].
  destruct (has_delta (units p) && negb (has_delta (units q)))%bool; rewrite n_to_mag;
    match goal with |- context [to_mag env ?a ?b] => destruct (to_mag env a b) end; cbn [rmap bind]; try reflexivity;
    exact (f_equal Ok (Z _ _ _)).
Qed.
Lemma n_qadd p q : qadd E (nm p) (nm q) = rmap nm (qadd env p q). Proof. apply n_addsub. reflexivity. Qed.
Lemma n_qsub p q : qsub E (nm p) (nm q) = rmap nm (qsub env p q). Proof. apply n_addsub. reflexivity. Qed.
Lemma n_rsub c q : rsub E (cst c) (nm q) = rmap nm (rsub env c q).
Proof. unfold rsub. rewrite n_to_mag. destruct (to_mag env q []); reflexivity. Qed.
Lemma n_qsqrt q : qsqrt E (nm q) = rmap nm (qsqrt env q).
Proof.
  unfold qsqrt. assert (H : nneg_p E (mag (nm q)) = nneg_p env (mag q)).
  { unfold nneg_p. change (mag (nm q)) with (cst (mag q)). change (nQ E 0) with (cst (nQ env 0)). rewrite n_leb, n_eqb. reflexivity. }
  rewrite H. destruct (nneg_p env (mag q)); reflexivity.
Qed.
Lemma n_qge p q : qge E (nm p) (nm q) = qge env p q.
Proof.
  unfold qge. cbn [units number mag]. change (dim_eqb E (units p) (units q)) with (dim_eqb env (units p) (units q)).
  destruct (units_eqb (units p) (units q)); [exact (f_equal Ok (n_leb (mag q) (mag p)))|]. destruct (dim_eqb env (units p) (units q)); [|reflexivity].
  f_equal. exact (n_leb (nmul env (mag q) (rootf env (units q))) (nmul env (mag p) (rootf env (units p)))).
Qed.

Lemma bind_n {A B C D} (h : A -> B) (g : C -> D) x y (f : B -> Res D) (f' : A -> Res C) :
  x = rmap h y -> (forall a, f (h a) = rmap g (f' a)) -> (do z <- x; f z) = rmap g (do z <- y; f' z).
Proof. intros -> H. destruct y as [a|e]; [apply H|reflexivity]. Qed.

Ltac op := match goal with
  | |- _ = rmap _ (qadd env ?p ?q) => exact (n_qadd p q)
  | |- _ = rmap _ (qsub env ?p ?q) => exact (n_qsub p q)
  | |- _ = rmap _ (qdiv env ?p ?q) => exact (n_qdiv p q)
  | |- _ = rmap _ (rdiv env ?p ?q) => exact (n_rdiv p q)
  | |- _ = rmap _ (qsqrt env ?p) => exact (n_qsqrt p)
  end.
Ltac ops := repeat (eapply (bind_n nm); [op|intros ?; cbv beta]).

Definition ng (g : Geoffroy env) : Geoffroy E :=
  mkG E (nm (g_C g)) (nm (g_CD g)) (nm (g_b g)) (nm (g_bstar g)) (nm (g_delta g)) (nm (g_tau1 g)) (nm (g_tau2 g))
    (nm (g_phi1 g)) (nm (g_phi2 g)) (nm (g_a1 g)) (nm (g_a2 g)).
Lemma n_geoffroy a b c d e : geoffroy E (nm a) (nm b) (nm c) (nm d) (nm e) = rmap ng (geoffroy env a b c d e).
Proof. unfold geoffroy. cbv zeta. ops. reflexivity. Qed.

(** Two objects with the same numbers as parameters. *)
Definition np (p : TLParams env) : TLParams E :=
  mkTLP E (nm (tlp_lambda0 _ p)) (nm (tlp_du _ p)) (nm (tlp_dl _ p)) (nm (tlp_eta _ p)) (nm (tlp_efficacy _ p)).
End Num.

Section Col.
Variables (env : Env) (k j : nat).
Notation E := (rows env k).
Notation nm := (number env k).
Notation cst := (const env k).
Notation cq := (col_qty env k j).
Notation cv := (col_values env k j).
Notation cd := (col_driver env k j).
Notation at_j := (fun r : num E => r j).

(** The ensemble and column [j]: the same numbers, the columns of the rest. *)
Record rel (s : IR E) (s' : IR env) : Prop := mkRel {
  r_q1 : ir_q1 _ s = nm (ir_q1 _ s'); r_q2 : ir_q2 _ s = nm (ir_q2 _ s'); r_d1 : ir_d1 _ s = nm (ir_d1 _ s'); r_d2 : ir_d2 _ s = nm (ir_d2 _ s');
  r_eff : ir_efficacy _ s = nm (ir_efficacy _ s'); r_dt : ir_delta_t _ s = nm (ir_delta_t _ s');
  r_q1m : ir_q1_mag _ s = cst (ir_q1_mag _ s'); r_q2m : ir_q2_mag _ s = cst (ir_q2_mag _ s'); r_d1m : ir_d1_mag _ s = cst (ir_d1_mag _ s');
  r_d2m : ir_d2_mag _ s = cst (ir_d2_mag _ s'); r_effm : ir_efficacy_mag _ s = cst (ir_efficacy_mag _ s'); r_dtm : ir_delta_t_mag _ s = cst (ir_delta_t_mag _ s');
  r_erf : ir_erf _ s' = option_map cd (ir_erf _ s); r_erfm : ir_erf_mag _ s' = option_map cv (ir_erf_mag _ s);
  r_t1 : ir_temp1 _ s' = cv (ir_temp1 _ s); r_t2 : ir_temp2 _ s' = cv (ir_temp2 _ s); r_r : ir_rndt _ s' = cv (ir_rndt _ s);
  r_i : ir_idx _ s' = ir_idx _ s }.

Definition simr {A B} (f : A -> B -> Prop) (m : Meth (IR E) A) (m' : Meth (IR env) B) : Prop :=
  forall s s', rel s s' -> rel (fst (m s)) (fst (m' s')) /\
    match snd (m s), snd (m' s') with Ok a, Ok b => f a b | Err e, Err e' => e = e' | _, _ => False end.
Lemma simr_bind {A B C D} (f : A -> B -> Prop) (g : C -> D -> Prop) m m' h h' :
  simr f m m' -> (forall a b, f a b -> simr g (h a) (h' b)) -> simr g (mbind m h) (mbind m' h').
Proof.
  intros H K s s' R. unfold mbind. specialize (H s s' R). destruct (m s) as (s1 & r1), (m' s') as (s1' & r1').
  cbn [fst snd] in H. destruct H as (R1 & H). destruct r1 as [a|e], r1' as [b|e']; try contradiction; [apply (K a b H s1 s1' R1)|].
  cbn [fst snd]. split; assumption.
Qed.
Definition is {A B} (h : A -> B) : A -> B -> Prop := fun a b => b = h a.
Definition is' {A B} (h : B -> A) : A -> B -> Prop := fun a b => a = h b.
Lemma simr_read {A B} (h : A -> B) r r' : (forall s s', rel s s' -> r' s' = rmap h (r s)) -> simr (is h) (mread r) (mread r').
Proof. intros H s s' R. unfold mread. cbn [fst snd]. rewrite (H s s' R). split; [exact R|]. destruct (r s); reflexivity. Qed.
Lemma simr_read' {A B} (h : B -> A) r r' : (forall s s', rel s s' -> r s = rmap h (r' s')) -> simr (is' h) (mread r) (mread r').
Proof. intros H s s' R. unfold mread. cbn [fst snd]. rewrite (H s s' R). split; [exact R|]. destruct (r' s'); reflexivity. Qed.
Definition any {A B} : A -> B -> Prop := fun _ _ => True.
Lemma simr_mod h h' : (forall s s', rel s s' -> rel (h s) (h' s')) -> simr any (mmod h) (mmod h').
Proof. intros H s s' R. unfold mmod. cbn [fst snd]. split; [apply H, R|exact I]. Qed.

Ltac upd_rel := intros ? ? []; constructor; first [assumption|reflexivity].
Ltac setter := 
  eapply (simr_bind (is' nm)); [apply simr_read'; intros; apply n_assert|intros ? ? ->];
  eapply (simr_bind any); [apply simr_mod; upd_rel|intros _ _ _];
  eapply (simr_bind (is' cst)); [apply (simr_read' cst); intros; apply n_to_mag|intros ? ? ->];
  apply simr_mod; upd_rel.
Lemma i_d1 v : simr any (ir_set_d1 E (number_val env k v)) (ir_set_d1 env v). Proof. unfold ir_set_d1. setter. Qed.
Lemma i_d2 v : simr any (ir_set_d2 E (number_val env k v)) (ir_set_d2 env v). Proof. unfold ir_set_d2. setter. Qed.
Lemma i_q1 v : simr any (ir_set_q1 E (number_val env k v)) (ir_set_q1 env v). Proof. unfold ir_set_q1. setter. Qed.
Lemma i_q2 v : simr any (ir_set_q2 E (number_val env k v)) (ir_set_q2 env v). Proof. unfold ir_set_q2. setter. Qed.
Lemma i_eff v : simr any (ir_set_efficacy E (number_val env k v)) (ir_set_efficacy env v). Proof. unfold ir_set_efficacy. setter. Qed.
Lemma i_dt v : simr any (ir_set_delta_t E (number_val env k v)) (ir_set_delta_t env v). Proof. unfold ir_set_delta_t. setter. Qed.
Lemma i_erf q : simr any (ir_set_erf E (Some q)) (ir_set_erf env (Some (cd q))).
Proof.
  unfold ir_set_erf. eapply (simr_bind (is cd)); [apply simr_read; intros; apply col_assert_arr|intros a ? ->].
  eapply (simr_bind any); [apply simr_mod; upd_rel|intros _ _ _].
  eapply (simr_bind (is cv)); [apply simr_read; intros; apply col_to_mags|intros m ? ->]. apply simr_mod; upd_rel.
Qed.
Lemma i_put1 i v : simr any (ir_put_temp1 E i v) (ir_put_temp1 env i (v j)).
Proof.
  unfold ir_put_temp1. eapply (simr_bind (is cv)); [apply simr_read; intros s s' []; rewrite r_t3; apply col_lset|intros l ? ->]. apply simr_mod; upd_rel.
Qed.
Lemma i_put2 i v : simr any (ir_put_temp2 E i v) (ir_put_temp2 env i (v j)).
Proof.
  unfold ir_put_temp2. eapply (simr_bind (is cv)); [apply simr_read; intros s s' R; rewrite (r_t2 _ _ R); apply col_lset|intros l ? ->]. apply simr_mod; upd_rel.
Qed.
Lemma i_put3 i v : simr any (ir_put_rndt E i v) (ir_put_rndt env i (v j)).
Proof.
  unfold ir_put_rndt. eapply (simr_bind (is cv)); [apply simr_read; intros s s' R; rewrite (r_r _ _ R); apply col_lset|intros l ? ->]. apply simr_mod; upd_rel.
Qed.
Lemma i_erf_at s s' i : rel s s' -> ir_erf_at env s' i = rmap at_j (ir_erf_at E s i).
Proof. intros R. unfold ir_erf_at. rewrite (r_erfm _ _ R). destruct (ir_erf_mag E s); [|reflexivity]. apply col_lget. Qed.

Lemma col_next_temp dt t q d f :
  calculate_next_temp env dt (t j) q d (f j) = rmap at_j (calculate_next_temp E (cst dt) t (cst q) (cst d) f).
Proof.
  unfold calculate_next_temp. change (nQ E 0) with (cst (nQ env 0)). rewrite n_eqb. destruct (neqb env d (nQ env 0)); reflexivity.
Qed.
Lemma i_params s s' : rel s s' -> ir_get_two_layer_parameters E s = rmap (np env k) (ir_get_two_layer_parameters env s').
Proof.
  intros R. unfold ir_get_two_layer_parameters. rewrite (r_q1 _ _ R), (r_q2 _ _ R), (r_d1 _ _ R), (r_d2 _ _ R), (r_eff _ _ R). cbv zeta.
  repeat (eapply (bind_n (nm)); [match goal with
  | |- _ = rmap _ (qadd env ?p ?q) => exact (n_qadd env k p q)
  | |- _ = rmap _ (qsub env ?p ?q) => exact (n_qsub env k p q)
  | |- _ = rmap _ (qdiv env ?p ?q) => exact (n_qdiv env k p q)
  | |- _ = rmap _ (rdiv env ?p ?q) => exact (n_rdiv env k p q)
  end|intros ?; cbv beta]). reflexivity.
Qed.
Lemma col_qadd p q : qadd env (cq p) (cq q) = rmap cq (qadd E p q).
Proof.
  unfold qadd, addsub. cbn [units col_qty]. change (dim_eqb E (units p) (units q)) with (dim_eqb env (units p) (units q)).
  destruct (dim_eqb env (units p) (units q)); cbn [negb]; [|reflexivity].
  destruct (units_eqb (units p) (units q)); [reflexivity|].
  destruct (has_delta (units p) && negb (has_delta (units q)))%bool; rewrite col_to_mag;
    match goal with |- context [to_mag E ?a ?b] => destruct (to_mag E a b) end; reflexivity.
Qed.
Lemma col_number q : cq (nm q) = q. Proof. destruct q; reflexivity. Qed.

Lemma i_next_rndt s s' t1 t2 f e : rel s s' ->
  ir_calculate_next_rndt env s' (t1 j) (t2 j) (f j) e = rmap at_j (ir_calculate_next_rndt E s t1 t2 f (cst e)).
Proof.
  intros R. unfold ir_calculate_next_rndt. rewrite (i_params s s' R).
  destruct (ir_get_two_layer_parameters env s') as [p|x]; cbn [rmap bind]; [|reflexivity].
  change (nQ E 1) with (cst (nQ env 1)). rewrite n_eqb. cbv zeta.
  destruct (neqb env e (nQ env 1)); [reflexivity|].
  cbn [tlp_du tlp_dl tlp_lambda0 tlp_eta tlp_efficacy np]. rewrite n_geoffroy.
  destruct (geoffroy env (tlp_du env p) (tlp_dl env p) (tlp_lambda0 env p) (tlp_efficacy env p) (tlp_eta env p)) as [gh|x]; cbn [rmap bind]; [|reflexivity].
  cbn [g_phi1 g_phi2 ng]. rewrite !n_rsub.
  destruct (rsub env (nQ env 1) (g_phi1 gh)) as [o1|x]; cbn [rmap bind]; [|reflexivity].
  destruct (rsub env (nQ env 1) (g_phi2 gh)) as [o2|x]; cbn [rmap bind]; [|reflexivity].
  pose proof (col_qadd (qmul E (nm o1) (qscale E t1 (mkQty E 1 u_dC))) (qmul E (nm o2) (qscale E t2 (mkQty E 1 u_dC)))) as H.
  change (cq (qmul E (nm o1) (qscale E t1 (mkQty E 1 u_dC)))) with (qmul env o1 (qscale env (t1 j) (mkQty env 1 u_dC))) in H.
  change (cq (qmul E (nm o2) (qscale E t2 (mkQty E 1 u_dC)))) with (qmul env o2 (qscale env (t2 j) (mkQty env 1 u_dC))) in H.
  rewrite H. destruct (qadd E (qmul E (nm o1) (qscale E t1 (mkQty E 1 u_dC))) (qmul E (nm o2) (qscale E t2 (mkQty E 1 u_dC)))) as [sm_|x]; cbn [rmap bind]; [|reflexivity].
  match goal with |- context [units_eqb (units ?x) u_Wm2] => change (units x) with (umul (units (tlp_eta env p)) (units sm_)) end.
  match goal with |- context [units_eqb (@units E ?x) u_Wm2] => change (@units E x) with (umul (units (tlp_eta env p)) (units sm_)) end.
  destruct (units_eqb (umul (units (tlp_eta env p)) (units sm_)) u_Wm2); reflexivity.
Qed.

Lemma i_step_at i : simr any (ir_step_at E i) (ir_step_at env i).
Proof.
  unfold ir_step_at. destruct i as [|i].
  - eapply (simr_bind any); [apply (i_put1 0 (nQ E 0))|intros _ _ _].
    eapply (simr_bind any); [apply (i_put2 0 (nQ E 0))|intros _ _ _]. apply (i_put3 0 (nQ E 0)).
  - eapply (simr_bind (is at_j)).
    { apply simr_read. intros s s' R. rewrite (r_t1 _ _ R), col_lget, (i_erf_at s s' i R), (r_dtm _ _ R), (r_q1m _ _ R), (r_d1m _ _ R).
      destruct (lget (ir_temp1 E s) i); [|reflexivity]. destruct (ir_erf_at E s i); [|reflexivity]. apply col_next_temp. }
    intros a ? ->. eapply (simr_bind any); [apply i_put1|intros _ _ _].
    eapply (simr_bind (is at_j)).
    { apply simr_read. intros s s' R. rewrite (r_t2 _ _ R), col_lget, (i_erf_at s s' i R), (r_dtm _ _ R), (r_q2m _ _ R), (r_d2m _ _ R).
      destruct (lget (ir_temp2 E s) i); [|reflexivity]. destruct (ir_erf_at E s i); [|reflexivity]. apply col_next_temp. }
    intros b ? ->. eapply (simr_bind any); [apply i_put2|intros _ _ _].
    eapply (simr_bind (is at_j)).
    { apply simr_read. intros s s' R. rewrite (r_t1 _ _ R), (r_t2 _ _ R), !col_lget, (i_erf_at s s' i R), (r_effm _ _ R).
      destruct (lget (ir_temp1 E s) i); [|reflexivity]. destruct (lget (ir_temp2 E s) i); [|reflexivity].
      destruct (ir_erf_at E s i); [|reflexivity]. apply (i_next_rndt s s' _ _ _ _ R). }
    intros c ? ->. apply i_put3.
Qed.
Lemma i_step : simr any (ir_step E) (ir_step env).
Proof.
  unfold ir_step. eapply (simr_bind any).
  { apply simr_mod. intros s s' []. constructor; cbn; try assumption. rewrite r_i0. reflexivity. }
  intros _ _ _. eapply (simr_bind (is (fun x => x))).
  - apply simr_read. intros s s' R. rewrite (r_i _ _ R). destruct (ir_idx E s); reflexivity.
  - intros i ? ->. apply i_step_at.
Qed.
Lemma i_steps n : simr any (ir_steps E n) (ir_steps env n).
Proof.
  induction n as [|n IH]; [intros s s' R; split; [exact R|exact I]|]. cbn [ir_steps].
  eapply (simr_bind any); [apply i_step|intros _ _ _; apply IH].
Qed.
Lemma i_erf_len s s' : rel s s' -> ir_erf_len env s' = ir_erf_len E s.
Proof. intros R. unfold ir_erf_len. rewrite (r_erf _ _ R). destruct (ir_erf E s); [|reflexivity]. cbn. unfold col_values. apply map_length. Qed.
Lemma i_run : simr any (ir_run E) (ir_run env).
Proof. intros s s' R. unfold ir_run. rewrite (i_erf_len s s' R). apply i_steps, R. Qed.

Definition iclean (s : IR E) : Prop := match ir_erf E s with None => True | Some q => no_nan env k q end.
Definition same_result (r : Res unit) (r' : Res unit) : Prop := match r, r' with Ok a, Ok b => any a b | Err e, Err e' => e = e' | _, _ => False end.
Lemma same_result_eq r r' : same_result r r' -> r' = r.
Proof. destruct r as [[]|e], r' as [[]|e']; cbn; intros H; try contradiction; congruence. Qed.
Lemma i_reset s s' : (j <= k)%nat -> iclean s -> rel s s' ->
  rel (fst (ir_reset E s)) (fst (ir_reset env s')) /\ same_result (snd (ir_reset E s)) (snd (ir_reset env s')).
Proof.
  intros Hj Hc R. unfold ir_reset, mbind, mread, mmod, mraise. unfold iclean in Hc. rewrite (r_erf _ _ R).
  destruct (ir_erf E s) as [q|] eqn:He; cbn [option_map]; [|split; [exact R|reflexivity]].
  destruct (rows_nan env k j q Hc Hj) as (-> & ->). cbn. rewrite (r_erfm _ _ R).
  destruct (ir_erf_mag E s) as [m|] eqn:Hm; cbn.
  - split; [|exact I]. destruct R. constructor; cbn; try assumption; try reflexivity; unfold col_values; rewrite !map_map; reflexivity.
  - split; [|reflexivity]. destruct R. constructor; cbn; try assumption; reflexivity.
Qed.

(** [iclean] is kept. *)
Definition ikeeps {A} (m : Meth (IR E) A) : Prop := forall s, iclean s -> iclean (fst (m s)).
Lemma ikeeps_bind {A B} (m : Meth (IR E) A) (h : A -> Meth (IR E) B) : ikeeps m -> (forall a, ikeeps (h a)) -> ikeeps (mbind m h).
Proof. intros H K s Hs. unfold mbind. specialize (H s Hs). destruct (m s) as (s1 & [a|e]); [apply K, H|exact H]. Qed.
Lemma ikeeps_read {A} (r : IR E -> Res A) : ikeeps (mread r). Proof. intros s H. exact H. Qed.
Lemma ikeeps_mod h : (forall s, ir_erf E (h s) = ir_erf E s) -> ikeeps (mmod h).
Proof. intros H s Hs. unfold iclean, mmod in *. cbn [fst]. rewrite H. exact Hs. Qed.
Ltac kp := repeat first [apply ikeeps_bind; [|intros ?]|apply ikeeps_read|apply ikeeps_mod; intros ?; reflexivity].
Lemma ik_d1 v : ikeeps (ir_set_d1 E v). Proof. unfold ir_set_d1. kp. Qed.
Lemma ik_d2 v : ikeeps (ir_set_d2 E v). Proof. unfold ir_set_d2. kp. Qed.
Lemma ik_q1 v : ikeeps (ir_set_q1 E v). Proof. unfold ir_set_q1. kp. Qed.
Lemma ik_q2 v : ikeeps (ir_set_q2 E v). Proof. unfold ir_set_q2. kp. Qed.
Lemma ik_eff v : ikeeps (ir_set_efficacy E v). Proof. unfold ir_set_efficacy. kp. Qed.
Lemma ik_dt v : ikeeps (ir_set_delta_t E v). Proof. unfold ir_set_delta_t. kp. Qed.
Lemma ik_erf q : no_nan env k q -> ikeeps (ir_set_erf E (Some q)).
Proof.
  intros Hq. unfold ir_set_erf. intros s Hs. unfold mbind at 1, mread. cbn [assert_quantity_arr].
  destruct (to_mags E q u_Wm2) as [m|[]]; cbn [fst]; try exact Hs.
  unfold mbind, mmod. cbn [fst snd]. destruct (to_mags E q u_Wm2); exact Hq.
Qed.
Lemma ik_put1 i v : ikeeps (ir_put_temp1 E i v). Proof. unfold ir_put_temp1. kp. Qed.
Lemma ik_put2 i v : ikeeps (ir_put_temp2 E i v). Proof. unfold ir_put_temp2. kp. Qed.
Lemma ik_put3 i v : ikeeps (ir_put_rndt E i v). Proof. unfold ir_put_rndt. kp. Qed.
Lemma ik_step : ikeeps (ir_step E).
Proof.
  unfold ir_step. apply ikeeps_bind; [apply ikeeps_mod; intros ?; reflexivity|intros ?].
  apply ikeeps_bind; [apply ikeeps_read|intros [|i]]; unfold ir_step_at;
  repeat first [apply ik_put1|apply ik_put2|apply ik_put3|apply ikeeps_read|apply ikeeps_bind; [|intros ?]].
Qed.
Lemma ik_steps n : ikeeps (ir_steps E n).
Proof. induction n as [|n IH]; [intros s H; exact H|]. cbn [ir_steps]. apply ikeeps_bind; [apply ik_step|intros ?; exact IH]. Qed.
Lemma ik_run : ikeeps (ir_run E). Proof. intros s H. unfold ir_run. apply ik_steps, H. Qed.
Lemma ik_reset : ikeeps (ir_reset E).
Proof.
  unfold ir_reset. apply ikeeps_bind; [apply ikeeps_read|intros [|]]; [intros s H; exact H|]. kp.
Qed.

Section Calls.
Variables (pE : string -> option (Qty E)) (pe : string -> option (Qty env)).
Hypothesis Hj : (j <= k)%nat.
Lemma i_call c s s' : iclean s -> ir_assigns_no_nan env k c -> rel s s' ->
  iclean (fst (ir_call E pE (on_ir_ensemble env k c) s)) /\
  rel (fst (ir_call E pE (on_ir_ensemble env k c) s)) (fst (ir_call env pe (on_ir_column env k j c) s')) /\
  snd (ir_call env pe (on_ir_column env k j c) s') = snd (ir_call E pE (on_ir_ensemble env k c) s).
Proof.
  intros Hc Hn R.
  assert (Z : forall (m : Meth (IR E) unit) (m' : Meth (IR env) unit), simr any m m' -> ikeeps m -> iclean (fst (m s)) /\ rel (fst (m s)) (fst (m' s')) /\ snd (m' s') = snd (m s)).
  { intros m m' H K. split; [apply K, Hc|]. destruct (H s s' R) as (H1 & H2). split; [exact H1|]. apply same_result_eq, H2. }
  destruct c; cbn [on_ir_column on_ir_ensemble ir_call ir_set_drivers].
  - apply Z; [apply i_q1|apply ik_q1].
  - apply Z; [apply i_q2|apply ik_q2].
  - apply Z; [apply i_d1|apply ik_d1].
  - apply Z; [apply i_d2|apply ik_d2].
  - apply Z; [apply i_eff|apply ik_eff].
  - apply Z; [apply i_dt|apply ik_dt].
  - apply Z; [apply i_erf|apply ik_erf, Hn].
  - split; [apply ik_reset, Hc|]. destruct (i_reset s s' Hj Hc R) as (H1 & H2). split; [exact H1|apply same_result_eq, H2].
  - apply Z; [apply i_step|apply ik_step].
  - apply Z; [apply i_run|apply ik_run].
Qed.
Lemma i_calls cs : forall s s', iclean s -> Forall (ir_assigns_no_nan env k) cs -> rel s s' ->
  iclean (ir_calls E pE (map (on_ir_ensemble env k) cs) s) /\
  rel (ir_calls E pE (map (on_ir_ensemble env k) cs) s) (ir_calls env pe (map (on_ir_column env k j) cs) s').
Proof.
  induction cs as [|c cs IH]; intros s s' Hc H R; [split; assumption|].
  inversion_clear H. unfold ir_calls in *. cbn [map fold_left].
  destruct (i_call c s s' Hc H0 R) as (K & R1 & _). apply IH; assumption.
Qed.
End Calls.

Lemma rel_blank : rel (ir_blank E) (ir_blank env). Proof. constructor; reflexivity. Qed.
Lemma i_init g : simr any (ir_init_body E (number_args env k g)) (ir_init_body env g).
Proof.
  unfold ir_init_body. destruct g.
  eapply (simr_bind any); [apply i_q1|intros _ _ _]. eapply (simr_bind any); [apply i_q2|intros _ _ _].
  eapply (simr_bind any); [apply i_d1|intros _ _ _]. eapply (simr_bind any); [apply i_d2|intros _ _ _].
  eapply (simr_bind any); [apply i_eff|intros _ _ _]. eapply (simr_bind any); [apply i_dt|intros _ _ _].
  eapply (simr_bind (is (fun x => x))).
  - apply simr_read. intros s s' R. cbn [Impulse.ia_d1 Impulse.ia_d2 number_args]. 
    destruct ia_d1, ia_d2; cbn [number_val]; try reflexivity. rewrite n_qge.
    match goal with |- ?x = rmap _ ?y => change y with x; destruct x; reflexivity end.
  - intros [|] ? ->; [intros s s' R; split; [exact R|reflexivity]|]. apply simr_mod. intros s s' []. constructor; cbn; try assumption; reflexivity.
Qed.
Lemma i_new g :
  match ir_new E (number_args env k g), ir_new env g with
  | Ok s, Ok s' => rel s s' /\ ir_erf E s = None | Err e, Err e' => e = e' | _, _ => False end.
Proof.
  unfold ir_new. pose proof (i_init g _ _ rel_blank) as (R & H).
  assert (N : snd (ir_init_body E (number_args env k g) (ir_blank E)) = Ok tt -> ir_erf E (fst (ir_init_body E (number_args env k g) (ir_blank E))) = None).
  { clear. assert (W : forall (P : IR E -> Prop) A (m : Meth (IR E) A) h s0, (forall s a, snd (h a s) = Ok tt -> P (fst (h a s))) -> snd (mbind m h s0) = Ok tt -> P (fst (mbind m h s0))).
    { intros P A m h s0 HP. unfold mbind. destruct (m s0) as (s1 & [a|e]); [apply HP|discriminate]. }
    unfold ir_init_body. repeat (apply (W (fun s => ir_erf E s = None)); intros ?s [] ).
    all: try (apply (W (fun s => ir_erf E s = None)); intros ?s []). all: try discriminate. all: reflexivity. }
  destruct (ir_init_body E (number_args env k g) (ir_blank E)) as (s & [[]|e]), (ir_init_body env g (ir_blank env)) as (s' & [[]|e']);
    cbn [fst snd] in *; try contradiction; [split; [exact R|apply N; reflexivity]|exact H].
Qed.
Lemma col_zip l1 : forall l2, zip_add env (cv l1) (cv l2) = cv (zip_add E l1 l2).
Proof. induction l1 as [|x l1 IH]; intros [|y l2]; try reflexivity. cbn. f_equal. apply IH. Qed.
Lemma i_outs s s' : rel s s' -> ir_outputs env s' = col_outputs env k j (ir_outputs E s).
Proof. intros R. unfold ir_outputs. rewrite (r_t1 _ _ R), (r_t2 _ _ R), (r_r _ _ R), col_zip. reflexivity. Qed.
End Col.
