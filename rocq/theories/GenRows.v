(** Rows: the code run on rows is the code run on every column. *)
From Coq Require Import List String QArith Bool Arith Lia.
From Verif Require Import Arith Pint Base TwoLayer Impulse Scm Api Rows SpecRows.
Import ListNotations.

Definition rmap {A B} (f : A -> B) (r : Res A) : Res B := match r with Ok a => Ok (f a) | Err e => Err e end.

Section Sim.
Context {S1 S2 : Type} (st : S1 -> S2).
Definition sim {A B} (f : A -> B) (m : Meth S1 A) (m' : Meth S2 B) : Prop :=
  forall s, m' (st s) = (st (fst (m s)), rmap f (snd (m s))).
Lemma sim_bind {A B C D} (f : A -> B) (g : C -> D) m m' k k' :
  sim f m m' -> (forall a, sim g (k a) (k' (f a))) -> sim g (mbind m k) (mbind m' k').
Proof.
  intros H K s. unfold mbind. rewrite (H s). destruct (m s) as (s1 & [a|e]); cbn [fst snd rmap]; [apply K|reflexivity].
Qed.
Lemma sim_read {A B} (f : A -> B) r r' : (forall s, r' (st s) = rmap f (r s)) -> sim f (mread r) (mread r').
Proof. intros H s. unfold mread. cbn [fst snd]. rewrite H. reflexivity. Qed.
Lemma sim_mod h h' : (forall s, h' (st s) = st (h s)) -> sim (fun x => x) (mmod h) (mmod h').
Proof. intros H s. unfold mmod. cbn [fst snd rmap]. rewrite H. reflexivity. Qed.
Lemma sim_ret {A B} (f : A -> B) a : sim f (mret a) (mret (f a)).
Proof. intros s. reflexivity. Qed.
Lemma sim_raise {A B} (f : A -> B) e : sim f (mraise e) (mraise e).
Proof. intros s. reflexivity. Qed.
End Sim.

Section Col.
Variables (env : Env) (k j : nat).
Notation E := (rows env k).
Notation cq := (col_qty env k j).
Notation cv := (col_values env k j).
Notation cd := (col_driver env k j).
Notation at_j := (fun r : num E => r j).

Lemma col_conv x u v : conv env (x j) u v = rmap at_j (conv E x u v).
Proof. unfold conv. change (dim_eqb E u v) with (dim_eqb env u v). destruct (dim_eqb env u v); [|reflexivity]. destruct (units_eqb u v); reflexivity. Qed.
Lemma col_to_mag q u : to_mag env (cq q) u = rmap at_j (to_mag E q u).
Proof. apply col_conv. Qed.
Lemma col_to_mags q u : to_mags env (cd q) u = rmap cv (to_mags E q u).
Proof.
  unfold to_mags. cbn [aunits mags col_driver]. change (dim_eqb E (aunits q) u) with (dim_eqb env (aunits q) u).
  destruct (dim_eqb env (aunits q) u); [|reflexivity]. destruct (units_eqb (aunits q) u); [reflexivity|].
  cbn [rmap]. unfold col_values. rewrite !map_map. reflexivity.
Qed.
Lemma col_assert v u : assert_quantity env (col_val env k j v) u = rmap cq (assert_quantity E v u).
Proof.
  destruct v as [q|]; [|reflexivity]. cbn [col_val assert_quantity]. rewrite col_to_mag.
  destruct (to_mag E q u) as [m|[]]; reflexivity.
Qed.
Lemma col_assert_arr q u : assert_quantity_arr env (Some (cd q)) u = rmap cd (assert_quantity_arr E (Some q) u).
Proof.
  cbn [assert_quantity_arr]. rewrite col_to_mags. destruct (to_mags E q u) as [m|[]]; reflexivity.
Qed.
Lemma col_qmul p q : qmul env (cq p) (cq q) = cq (qmul E p q). Proof. reflexivity. Qed.

Lemma col_lget l i : lget (cv l) i = rmap at_j (lget l i).
Proof. unfold lget, col_values. revert i. induction l as [|x l IH]; intros [|i]; try reflexivity. exact (IH i). Qed.
Lemma col_upd l : forall i v, upd (cv l) i (v j) = cv (upd l i v).
Proof. induction l as [|x l IH]; intros [|i] v; cbn; try reflexivity. f_equal. apply IH. Qed.
Lemma col_lset l i v : lset (cv l) i (v j) = rmap cv (lset l i v).
Proof.
  unfold lset. replace (List.length (cv l)) with (List.length l) by (symmetry; apply map_length). rewrite col_upd.
  match goal with |- _ = rmap _ (if ?b then _ else _) => destruct b end; reflexivity.
Qed.

(** Missing values. *)
Lemma rows_nan q : no_nan env k q -> (j <= k)%nat ->
  existsb (nisnan E) (mags q) = false /\ existsb (nisnan env) (mags (cd q)) = false.
Proof.
  intros H Hj. unfold no_nan in H. cbn [mags col_driver]. unfold col_values. split; apply not_true_iff_false; intros K.
  - apply existsb_exists in K. destruct K as (r & Hr & K). cbn [nisnan ar rows row_arith] in K. apply existsb_exists in K.
    destruct K as (i & Hi & K). apply in_seq in Hi. rewrite (H r i Hr ltac:(lia)) in K. discriminate.
  - apply existsb_exists in K. destruct K as (x & Hx & K). apply in_map_iff in Hx. destruct Hx as (r & <- & Hr).
    rewrite (H r j Hr Hj) in K. discriminate.
Qed.
Lemma nan_rows q : existsb (nisnan E) (mags q) = false <-> no_nan env k q.
Proof.
  split; intros H.
  - intros r i Hr Hi. apply not_true_iff_false. intros K. assert (X : existsb (nisnan E) (mags q) = true); [|congruence].
    apply existsb_exists. exists r. split; [assumption|]. cbn [nisnan ar rows row_arith]. apply existsb_exists.
    exists i. split; [apply in_seq; lia|assumption].
  - apply not_true_iff_false. intros K.
    apply existsb_exists in K. destruct K as (r & Hr & K). cbn [nisnan ar rows row_arith] in K. apply existsb_exists in K.
    destruct K as (i & Hi & K). apply in_seq in Hi. rewrite (H r i Hr ltac:(lia)) in K. discriminate.
Qed.

(** ** The two-layer model *)
Definition col_tl (s : TL E) : TL env :=
  mkTL env (cq (tl_du _ s)) (cq (tl_dl _ s)) (cq (tl_lambda0 _ s)) (cq (tl_a _ s)) (cq (tl_efficacy _ s)) (cq (tl_eta _ s)) (cq (tl_delta_t _ s))
    (tl_du_mag _ s j) (tl_dl_mag _ s j) (tl_lambda0_mag _ s j) (tl_a_mag _ s j) (tl_efficacy_mag _ s j) (tl_eta_mag _ s j) (tl_delta_t_mag _ s j)
    (tl_hcu_mag _ s j) (tl_hcl_mag _ s j) (option_map cd (tl_erf _ s)) (option_map cv (tl_erf_mag _ s))
    (cv (tl_temp_upper _ s)) (cv (tl_temp_lower _ s)) (cv (tl_rndt _ s)) (tl_idx _ s).
Notation simt := (sim col_tl).

Ltac st := repeat first
  [ eapply sim_bind; [eapply sim_read; intros ?s; cbv beta; first [apply col_assert|apply col_to_mag]|intros ?a; cbv beta]
  | eapply sim_bind; [apply sim_mod; intros ?s; reflexivity|intros ?a; cbv beta]
  | apply sim_mod; intros ?s; reflexivity ].
Lemma s_du v : simt (fun x => x) (tl_set_du E v) (tl_set_du env (col_val env k j v)).
Proof.
  unfold tl_set_du. st. eapply sim_bind.
  - eapply (sim_read _ at_j). intros s. unfold tl_heat_capacity_upper. cbn [tl_du col_tl].
    exact (col_to_mag (qmul E (qmul E (tl_du E s) (DENSITY_WATER E)) (HEAT_CAPACITY_WATER E)) u_JCm2).
  - intros h. st.
Qed.
Lemma s_dl v : simt (fun x => x) (tl_set_dl E v) (tl_set_dl env (col_val env k j v)).
Proof.
  unfold tl_set_dl. st. eapply sim_bind.
  - eapply (sim_read _ at_j). intros s. unfold tl_heat_capacity_lower. cbn [tl_dl col_tl].
    exact (col_to_mag (qmul E (qmul E (tl_dl E s) (DENSITY_WATER E)) (HEAT_CAPACITY_WATER E)) u_JCm2).
  - intros h. st.
Qed.
Lemma s_lambda0 v : simt (fun x => x) (tl_set_lambda0 E v) (tl_set_lambda0 env (col_val env k j v)).
Proof. unfold tl_set_lambda0. st. Qed.
Lemma s_a v : simt (fun x => x) (tl_set_a E v) (tl_set_a env (col_val env k j v)).
Proof. unfold tl_set_a. st. Qed.
Lemma s_eff v : simt (fun x => x) (tl_set_efficacy E v) (tl_set_efficacy env (col_val env k j v)).
Proof. unfold tl_set_efficacy. st. Qed.
Lemma s_eta v : simt (fun x => x) (tl_set_eta E v) (tl_set_eta env (col_val env k j v)).
Proof. unfold tl_set_eta. st. Qed.
Lemma s_dt v : simt (fun x => x) (tl_set_delta_t E v) (tl_set_delta_t env (col_val env k j v)).
Proof. unfold tl_set_delta_t. st. Qed.
Lemma s_erf q : simt (fun x => x) (tl_set_erf E (Some q)) (tl_set_erf env (Some (cd q))).
Proof.
  unfold tl_set_erf. eapply sim_bind; [eapply sim_read; intros s; apply col_assert_arr|intros a; cbv beta].
  eapply sim_bind; [apply sim_mod; intros s; reflexivity|intros b; cbv beta].
  eapply sim_bind; [eapply sim_read; intros s; apply col_to_mags|intros c; cbv beta]. apply sim_mod. intros s. reflexivity.
Qed.
Lemma s_put_upper i v : simt (fun x => x) (tl_put_upper E i v) (tl_put_upper env i (v j)).
Proof.
  unfold tl_put_upper. eapply sim_bind; [eapply sim_read; intros s; cbn [tl_temp_upper col_tl]; apply col_lset|intros a; cbv beta].
  apply sim_mod. intros s. reflexivity.
Qed.
Lemma s_put_lower i v : simt (fun x => x) (tl_put_lower E i v) (tl_put_lower env i (v j)).
Proof.
  unfold tl_put_lower. eapply sim_bind; [eapply sim_read; intros s; cbn [tl_temp_lower col_tl]; apply col_lset|intros a; cbv beta].
  apply sim_mod. intros s. reflexivity.
Qed.
Lemma s_put_rndt i v : simt (fun x => x) (tl_put_rndt E i v) (tl_put_rndt env i (v j)).
Proof.
  unfold tl_put_rndt. eapply sim_bind; [eapply sim_read; intros s; cbn [tl_rndt col_tl]; apply col_lset|intros a; cbv beta].
  apply sim_mod. intros s. reflexivity.
Qed.
Lemma col_erf_at s i : tl_erf_at env (col_tl s) i = rmap at_j (tl_erf_at E s i).
Proof. unfold tl_erf_at. cbn [tl_erf_mag col_tl]. destruct (tl_erf_mag E s); [|reflexivity]. apply col_lget. Qed.

Lemma s_step_at i : simt (fun x => x) (tl_step_at E i) (tl_step_at env i).
Proof.
  unfold tl_step_at. destruct i as [|i].
  - eapply sim_bind; [apply (s_put_upper 0 (nQ E 0))|intros a].
    eapply sim_bind; [apply (s_put_lower 0 (nQ E 0))|intros b]. apply (s_put_rndt 0 (nQ E 0)).
  - eapply sim_bind.
    { eapply (sim_read _ at_j). intros s. cbn [tl_temp_upper tl_temp_lower col_tl]. rewrite !col_lget, col_erf_at.
      destruct (lget (tl_temp_upper E s) i); [|reflexivity]. destruct (lget (tl_temp_lower E s) i); [|reflexivity].
      destruct (tl_erf_at E s i); reflexivity. }
    intros tu. eapply sim_bind; [apply s_put_upper|intros b].
    eapply sim_bind.
    { eapply (sim_read _ at_j). intros s. cbn [tl_temp_upper tl_temp_lower col_tl]. rewrite !col_lget.
      destruct (lget (tl_temp_lower E s) i); [|reflexivity]. destruct (lget (tl_temp_upper E s) i); reflexivity. }
    intros tl. eapply sim_bind; [apply s_put_lower|intros c].
    eapply sim_bind.
    { eapply (sim_read _ at_j). intros s. cbn [tl_temp_upper tl_temp_lower col_tl]. rewrite !col_lget.
      destruct (lget (tl_temp_lower E s) (S i)); [|reflexivity]. destruct (lget (tl_temp_lower E s) i); [|reflexivity].
      destruct (lget (tl_temp_upper E s) (S i)); [|reflexivity]. destruct (lget (tl_temp_upper E s) i); reflexivity. }
    intros r. apply s_put_rndt.
Qed.
Lemma s_step : simt (fun x => x) (tl_step E) (tl_step env).
Proof.
  unfold tl_step. eapply sim_bind; [apply sim_mod; intros s; reflexivity|intros a].
  eapply sim_bind; [eapply (sim_read _ (fun x => x)); intros s; cbn [tl_idx col_tl]; destruct (tl_idx E s); reflexivity|intros i].
  apply s_step_at.
Qed.
Lemma s_steps n : simt (fun x => x) (tl_steps E n) (tl_steps env n).
Proof. induction n as [|n IH]; [apply (sim_ret _ (fun x => x) tt)|]. cbn [tl_steps]. eapply sim_bind; [apply s_step|intros a; apply IH]. Qed.
Lemma col_erf_len s : tl_erf_len env (col_tl s) = tl_erf_len E s.
Proof. unfold tl_erf_len. cbn [tl_erf col_tl]. destruct (tl_erf E s); [|reflexivity]. cbn. unfold col_values. apply map_length. Qed.
Lemma s_run : simt (fun x => x) (tl_run E) (tl_run env).
Proof. intros s. unfold tl_run. rewrite col_erf_len. apply s_steps. Qed.

(** [_reset], when no entry is missing in any column. *)
Definition clean (s : TL E) : Prop := match tl_erf E s with None => True | Some q => no_nan env k q end.
Lemma s_reset s : (j <= k)%nat -> clean s -> tl_reset env (col_tl s) = (col_tl (fst (tl_reset E s)), rmap (fun x => x) (snd (tl_reset E s))).
Proof.
  intros Hj Hc. unfold tl_reset, mbind, mread, mmod, mraise. cbn [tl_erf col_tl].
  unfold clean in Hc. destruct (tl_erf E s) as [q|] eqn:He; cbn [option_map]; [|reflexivity].
  destruct (rows_nan q Hc Hj) as (-> & ->). cbn [tl_erf_mag col_tl].
  destruct s. cbn in *. destruct tl_erf_mag as [m|]; cbn; [|reflexivity].
  unfold col_tl. cbn. rewrite !map_map. unfold col_values. rewrite !map_map. reflexivity.
Qed.
Lemma rmap_id {A} (r : Res A) : rmap (fun x => x) r = r. Proof. destruct r; reflexivity. Qed.
Lemma sim_fst m m' (s : TL E) : simt (fun x : unit => x) m m' -> fst (m' (col_tl s)) = col_tl (fst (m s)) /\ snd (m' (col_tl s)) = snd (m s).
Proof. intros H. rewrite (H s). cbn [fst snd]. rewrite rmap_id. auto. Qed.

(** [clean] is kept. *)
Definition keeps {A} (m : Meth (TL E) A) : Prop := forall s, clean s -> clean (fst (m s)).
Lemma keeps_bind {A B} (m : Meth (TL E) A) (h : A -> Meth (TL E) B) : keeps m -> (forall a, keeps (h a)) -> keeps (mbind m h).
Proof. intros H K s Hs. unfold mbind. specialize (H s Hs). destruct (m s) as (s1 & [a|e]); [apply K, H|exact H]. Qed.
Lemma keeps_read {A} (r : TL E -> Res A) : keeps (mread r). Proof. intros s H. exact H. Qed.
Lemma keeps_mod h : (forall s, tl_erf E (h s) = tl_erf E s) -> keeps (mmod h).
Proof. intros H s Hs. unfold clean, mmod in *. cbn [fst]. rewrite H. exact Hs. Qed.
Ltac kp := repeat first [apply keeps_bind; [|intros ?]|apply keeps_read|apply keeps_mod; intros ?; reflexivity].
Lemma k_du v : keeps (tl_set_du E v). Proof. unfold tl_set_du. kp. Qed.
Lemma k_dl v : keeps (tl_set_dl E v). Proof. unfold tl_set_dl. kp. Qed.
Lemma k_lambda0 v : keeps (tl_set_lambda0 E v). Proof. unfold tl_set_lambda0. kp. Qed.
Lemma k_a v : keeps (tl_set_a E v). Proof. unfold tl_set_a. kp. Qed.
Lemma k_eff v : keeps (tl_set_efficacy E v). Proof. unfold tl_set_efficacy. kp. Qed.
Lemma k_eta v : keeps (tl_set_eta E v). Proof. unfold tl_set_eta. kp. Qed.
Lemma k_dt v : keeps (tl_set_delta_t E v). Proof. unfold tl_set_delta_t. kp. Qed.
Lemma k_erf q : no_nan env k q -> keeps (tl_set_erf E (Some q)).
Proof.
  intros Hq. unfold tl_set_erf. intros s Hs. unfold mbind at 1, mread. cbn [assert_quantity_arr].
  destruct (to_mags E q u_Wm2) as [m|[]]; cbn [fst]; try exact Hs.
  unfold mbind, mmod. cbn [fst snd]. destruct (to_mags E q u_Wm2); exact Hq.
Qed.
Lemma k_put_upper i v : keeps (tl_put_upper E i v). Proof. unfold tl_put_upper. kp. Qed.
Lemma k_put_lower i v : keeps (tl_put_lower E i v). Proof. unfold tl_put_lower. kp. Qed.
Lemma k_put_rndt i v : keeps (tl_put_rndt E i v). Proof. unfold tl_put_rndt. kp. Qed.
Lemma k_step : keeps (tl_step E).
Proof.
  unfold tl_step. apply keeps_bind; [apply keeps_mod; intros ?; reflexivity|intros ?].
  apply keeps_bind; [apply keeps_read|intros [|i]]; unfold tl_step_at;
  repeat first [apply k_put_upper|apply k_put_lower|apply k_put_rndt|apply keeps_read|apply keeps_bind; [|intros ?]].
Qed.
Lemma k_steps n : keeps (tl_steps E n).
Proof. induction n as [|n IH]; [intros s H; exact H|]. cbn [tl_steps]. apply keeps_bind; [apply k_step|intros ?; exact IH]. Qed.
Lemma k_run : keeps (tl_run E). Proof. intros s H. unfold tl_run. apply k_steps, H. Qed.
Lemma k_reset : keeps (tl_reset E).
Proof.
  unfold tl_reset. apply keeps_bind; [apply keeps_read|intros [|]]; [intros s H; exact H|]. kp.
Qed.

Section Calls.
Variables (pE : string -> option (Qty E)) (pe : string -> option (Qty env)).
Hypothesis Hj : (j <= k)%nat.
Lemma s_call c s : clean s -> assigns_no_nan env k c ->
  tl_call env pe (on_column env k j c) (col_tl s) =
    (col_tl (fst (tl_call E pE (on_ensemble env k c) s)), snd (tl_call E pE (on_ensemble env k c) s)) /\
  clean (fst (tl_call E pE (on_ensemble env k c) s)).
Proof.
  intros Hc Hn.
  assert (Z : forall m m' , simt (fun x : unit => x) m m' -> keeps m -> m' (col_tl s) = (col_tl (fst (m s)), snd (m s)) /\ clean (fst (m s))).
  { intros m m' H K. split; [|apply K, Hc]. rewrite (H s), rmap_id. reflexivity. }
  destruct c; cbn [on_column on_ensemble tl_call tl_set_drivers].
  - apply Z; [apply s_du|apply k_du].
  - apply Z; [apply s_dl|apply k_dl].
  - apply Z; [apply s_lambda0|apply k_lambda0].
  - apply Z; [apply s_a|apply k_a].
  - apply Z; [apply s_eff|apply k_eff].
  - apply Z; [apply s_eta|apply k_eta].
  - apply Z; [apply s_dt|apply k_dt].
  - apply Z; [apply s_erf|apply k_erf, Hn].
  - split; [|apply k_reset, Hc]. rewrite (s_reset s Hj Hc), rmap_id. reflexivity.
  - apply Z; [apply s_step|apply k_step].
  - apply Z; [apply s_run|apply k_run].
Qed.
Lemma s_calls cs : forall s, clean s -> Forall (assigns_no_nan env k) cs ->
  tl_calls env pe (map (on_column env k j) cs) (col_tl s) = col_tl (tl_calls E pE (map (on_ensemble env k) cs) s) /\
  clean (tl_calls E pE (map (on_ensemble env k) cs) s).
Proof.
  induction cs as [|c cs IH]; intros s Hc H; [split; [reflexivity|exact Hc]|].
  inversion_clear H. unfold tl_calls in *. cbn [map fold_left].
  destruct (s_call c s Hc H0) as (-> & K). cbn [fst]. apply IH; assumption.
Qed.
End Calls.

Lemma s_init g : simt (fun x => x) (tl_init_body E g) (tl_init_body env (col_tl_args env k j g)).
Proof.
  unfold tl_init_body. destruct g.
  eapply sim_bind; [apply s_du|intros ?]. eapply sim_bind; [apply s_dl|intros ?]. eapply sim_bind; [apply s_lambda0|intros ?].
  eapply sim_bind; [apply s_a|intros ?]. eapply sim_bind; [apply s_eff|intros ?]. eapply sim_bind; [apply s_eta|intros ?].
  eapply sim_bind; [apply s_dt|intros ?]. apply sim_mod. intros s. reflexivity.
Qed.
Lemma s_new g : tl_new env (col_tl_args env k j g) = rmap col_tl (tl_new E g).
Proof.
  unfold tl_new. change (tl_blank env) with (col_tl (tl_blank E)). rewrite (s_init g).
  destruct (tl_init_body E g (tl_blank E)) as (s & [u|e]); reflexivity.
Qed.
Lemma col_outs s : tl_outputs env (col_tl s) = col_outputs env k j (tl_outputs E s).
Proof. reflexivity. Qed.
End Col.
