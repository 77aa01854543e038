(** Invariants of [ImpulseResponseModel] over all histories of public calls, for
    every number system. *)
From Coq Require Import List String QArith ZArith Bool Arith Lia.
From RecordUpdate Require Import RecordUpdate.
From Verif Require Import Arith Pint Base TwoLayer Impulse Scm Api Spec GenTL GenTLHist GenIR.
Import ListNotations.

Section IRH.
Variable env : Env.
Notation ir_param_get := (ir_param_get env).
Notation ir_param_set := (ir_param_set env).
Notation ir_arg := (ir_arg env).
Notation ir_coherent := (ir_coherent env).
Notation ir_same_visible := (ir_same_visible env).
Notation ir_nan_inv := (ir_nan_inv env).
Variable parse_unit : string -> option (Qty env).
Notation num := (num env).
Notation IR := (IR env).

Ltac mstep := cbv [mbind mread mmod mret mraise] in *; cbn [bind] in *.

(** ** Coherence of cached magnitudes *)

(** Frames: what a call can change. *)
Definition iframe (m : Meth IR unit) : Prop :=
  forall s, exists i U L R, fst (m s) = iwith_run env s i U L R.
Lemma iframe_bind {A} (m : IR -> Res A) (f : A -> Meth IR unit) :
  (forall a, iframe (f a)) -> iframe (mbind (mread m) f).
Proof.
  intros H s. cbv [mbind mread]. destruct (m s) as [a|e]; [apply H|].
  exists (ir_idx env s), (ir_temp1 env s), (ir_temp2 env s), (ir_rndt env s).
  destruct s; reflexivity.
Qed.
Lemma iframe_seq (m f : Meth IR unit) : iframe m -> iframe f -> iframe (m ;; f).
Proof.
  intros Hm Hf s. cbv [mbind]. specialize (Hm s). destruct (m s) as [s' [[]|e]]; [|exact Hm].
  destruct Hm as (i & U & L & R & E). cbn [fst] in E. subst s'.
  destruct (Hf (iwith_run env s i U L R)) as (i' & U' & L' & R' & E').
  exists i', U', L', R'. exact E'.
Qed.
Lemma iframe_id (m : Meth IR unit) : (forall s, fst (m s) = s) -> iframe m.
Proof.
  intros H s. exists (ir_idx env s), (ir_temp1 env s), (ir_temp2 env s), (ir_rndt env s).
  rewrite H. destruct s; reflexivity.
Qed.

Lemma iframe_put_temp1 i v : iframe (ir_put_temp1 env i v).
Proof.
  apply iframe_bind. intros l s.
  exists (ir_idx env s), l, (ir_temp2 env s), (ir_rndt env s). destruct s; reflexivity.
Qed.
Lemma iframe_put_temp2 i v : iframe (ir_put_temp2 env i v).
Proof.
  apply iframe_bind. intros l s.
  exists (ir_idx env s), (ir_temp1 env s), l, (ir_rndt env s). destruct s; reflexivity.
Qed.
Lemma iframe_put_rndt i v : iframe (ir_put_rndt env i v).
Proof.
  apply iframe_bind. intros l s.
  exists (ir_idx env s), (ir_temp1 env s), (ir_temp2 env s), l. destruct s; reflexivity.
Qed.

Lemma iframe_step : iframe (ir_step env).
Proof.
  unfold ir_step, ir_step_at. apply iframe_seq.
  - intros s. eexists _, (ir_temp1 env s), (ir_temp2 env s), (ir_rndt env s).
    destruct s; reflexivity.
  - apply iframe_bind. intros [|j].
    + repeat apply iframe_seq; auto using iframe_put_temp1, iframe_put_temp2, iframe_put_rndt.
    + apply iframe_bind; intros. apply iframe_seq; [apply iframe_put_temp1|].
      apply iframe_bind; intros. apply iframe_seq; [apply iframe_put_temp2|].
      apply iframe_bind; intros. apply iframe_put_rndt.
Qed.

Lemma iframe_steps k : iframe (ir_steps env k).
Proof.
  induction k; cbn [ir_steps].
  - apply iframe_id. reflexivity.
  - apply iframe_seq; auto using iframe_step.
Qed.

Lemma iframe_run : iframe (ir_run env).
Proof. intros s. apply iframe_steps. Qed.

Lemma iframe_reset : iframe (ir_reset env).
Proof.
  unfold ir_reset. apply iframe_bind. intros [|].
  - apply iframe_id. reflexivity.
  - apply iframe_seq.
    + intros s. eexists None, (ir_temp1 env s), (ir_temp2 env s), (ir_rndt env s).
      destruct s; reflexivity.
    + apply iframe_bind. intros m s.
      exists (ir_idx env s). do 3 eexists. destruct s; reflexivity.
Qed.

Lemma icoherent_iwith_run s i U L R : ir_coherent s -> ir_coherent (iwith_run env s i U L R).
Proof. intros []; constructor; assumption. Qed.

Lemma iframe_coherent m : iframe m -> forall s, ir_coherent s -> ir_coherent (fst (m s)).
Proof.
  intros H s Hs. destruct (H s) as (i & U & L & R & ->). apply icoherent_iwith_run, Hs.
Qed.

(** ** Parameters *)

Lemma ir_set_fail p s v :
  (match v with POther => True | PQ q => ~ same_dim env (units q) (ir_param_unit p) end) ->
  ir_param_set p v s = (s, Err (match v with POther => TypeError | PQ _ => UnitError end)).
Proof.
  intros H. destruct p; cbn [ir_param_set ir_param_unit] in *;
    unfold ir_set_q1, ir_set_q2, ir_set_d1, ir_set_d2, ir_set_efficacy, ir_set_delta_t;
    mstep; rewrite assert_quantity_spec; destruct v as [q|]; try reflexivity;
    match goal with |- context [same_dim_dec ?e ?u ?w] => destruct (same_dim_dec e u w) end;
    try contradiction; reflexivity.
Qed.

(** A successful assignment: the parameter is the assigned value, all other
    parameters, the drivers and the results are as before, and coherence is kept. *)
Lemma ir_set_succ p s q :
  same_dim env (units q) (ir_param_unit p) ->
  exists s', ir_param_set p (PQ q) s = (s', Ok tt) /\
    ir_param_get p s' = q /\
    (forall p', p' <> p -> ir_param_get p' s' = ir_param_get p' s) /\
    ir_erf env s' = ir_erf env s /\ ir_erf_mag env s' = ir_erf_mag env s /\
    ir_temp1 env s' = ir_temp1 env s /\
    ir_temp2 env s' = ir_temp2 env s /\ ir_rndt env s' = ir_rndt env s /\
    ir_idx env s' = ir_idx env s /\
    (ir_coherent s -> ir_coherent s').
Proof.
  intros H.
  assert (E : assert_quantity env (PQ q) (ir_param_unit p) = Ok q).
  { rewrite assert_quantity_spec.
    destruct (same_dim_dec env (units q) (ir_param_unit p)); [reflexivity|contradiction]. }
  destruct (proj2 (to_mag_ok_iff env q _) H) as [m Hm].
  destruct p; cbn [ir_param_set ir_param_unit] in *;
    unfold ir_set_q1, ir_set_q2, ir_set_d1, ir_set_d2, ir_set_efficacy, ir_set_delta_t;
    mstep; rewrite E; cbv beta iota; rewrite Hm; cbv beta iota;
    (eexists; split; [reflexivity|]);
    (split; [reflexivity|]);
    (split; [intros [] Hp; try reflexivity; congruence|]);
    (repeat (split; [reflexivity|]));
    (intros []; constructor; try assumption);
    cbn; try exact Hm.
Qed.

Lemma ir_set_coherent p v s : ir_coherent s -> ir_coherent (fst (ir_param_set p v s)).
Proof.
  intros Hs. destruct v as [q|].
  - destruct (same_dim_dec env (units q) (ir_param_unit p)) as [H|H].
    + destruct (ir_set_succ p s q H) as (s' & E & ?). rewrite E. cbn [fst]. tauto.
    + rewrite ir_set_fail by exact H. exact Hs.
  - rewrite ir_set_fail by exact I. exact Hs.
Qed.

Lemma iset_erf_coherent v s : ir_coherent s -> ir_coherent (fst (ir_set_erf env v s)).
Proof.
  intros Hs. destruct v as [q|]; [|exact Hs].
  destruct (same_dim_dec env (aunits q) u_Wm2) as [H|H].
  - destruct (proj2 (to_mags_ok_iff env q _) H) as [m Hm].
    rewrite (iset_erf_ok env s q m Hm). destruct Hs; constructor; try assumption.
  - rewrite iset_erf_err by assumption. exact Hs.
Qed.

Lemma iset_drivers_coherent e s : ir_coherent s -> ir_coherent (fst (ir_set_drivers env e s)).
Proof.
  intros Hs. destruct e; cbn [ir_set_drivers]; try exact Hs; apply iset_erf_coherent, Hs.
Qed.

Lemma ir_call_coherent o s : ir_coherent s -> ir_coherent (fst (ir_call env parse_unit o s)).
Proof.
  intros Hs. destruct o; cbn [ir_call].
  - apply (ir_set_coherent Pq1), Hs.
  - apply (ir_set_coherent Pq2), Hs.
  - apply (ir_set_coherent Pd1), Hs.
  - apply (ir_set_coherent Pd2), Hs.
  - apply (ir_set_coherent Peff), Hs.
  - apply (ir_set_coherent Pdt), Hs.
  - apply iset_erf_coherent, Hs.
  - apply iset_drivers_coherent, Hs.
  - apply iframe_coherent; auto using iframe_reset.
  - apply iframe_coherent; auto using iframe_step.
  - apply iframe_coherent; auto using iframe_run.
  - rewrite forget_fst. apply (run_scenarios_keep env parse_unit (ir_variant env) ir_coherent).
    + intros v s'. apply (ir_set_coherent Pdt).
    + intros e s'. apply iset_drivers_coherent.
    + intros s'. apply iframe_coherent, iframe_reset.
    + intros s'. apply iframe_coherent, iframe_run.
    + exact Hs.
Qed.

(** ** Construction *)

Lemma iset_cases p v s :
  (exists q s', v = PQ q /\ same_dim env (units q) (ir_param_unit p) /\ ir_param_set p v s = (s', Ok tt)) \/
  ((forall q, v = PQ q -> ~ same_dim env (units q) (ir_param_unit p)) /\
   ir_param_set p v s = (s, Err (match v with POther => TypeError | PQ _ => UnitError end))).
Proof.
  destruct v as [q|].
  - destruct (same_dim_dec env (units q) (ir_param_unit p)) as [H|H].
    + left. destruct (ir_set_succ p s q H) as (s' & E & _). eauto.
    + right. split; [intros q' [= <-]; exact H|]. apply ir_set_fail, H.
  - right. split; [discriminate|]. apply ir_set_fail. exact I.
Qed.

Lemma ir_init_explicit q1 q2 d1 d2 ef dt m1 m2 m3 m4 m5 m6 :
  to_mag env q1 u_CWm2 = Ok m1 -> to_mag env q2 u_CWm2 = Ok m2 ->
  to_mag env d1 u_yr = Ok m3 -> to_mag env d2 u_yr = Ok m4 ->
  to_mag env ef u_none = Ok m5 -> to_mag env dt u_yr = Ok m6 ->
  ir_new env (mkIRArgs env (PQ q1) (PQ q2) (PQ d1) (PQ d2) (PQ ef) (PQ dt)) =
  match qge env d1 d2 with
  | Ok false => Ok (mkIR env q1 q2 d1 d2 ef dt m1 m2 m3 m4 m5 m6 None None
                      [nnan env] [nnan env] [nnan env] None)
  | Ok true => Err ValueError
  | Err e => Err e
  end.
Proof.
  intros H1 H2 H3 H4 H5 H6.
  unfold ir_new, ir_init_body.
  cbn [ia_q1 ia_q2 ia_d1 ia_d2 ia_efficacy ia_delta_t].
  unfold ir_set_q1, ir_set_q2, ir_set_d1, ir_set_d2, ir_set_efficacy, ir_set_delta_t.
  mstep.
  rewrite (aq_ok _ _ _ _ H1), H1. rewrite (aq_ok _ _ _ _ H2), H2.
  rewrite (aq_ok _ _ _ _ H3), H3. rewrite (aq_ok _ _ _ _ H4), H4.
  rewrite (aq_ok _ _ _ _ H5), H5. rewrite (aq_ok _ _ _ _ H6), H6.
  destruct (qge env d1 d2) as [[|]|e]; reflexivity.
Qed.

Lemma ir_new_ok g d1 d2 :
  (forall p, good_arg env (ir_arg g p) (ir_param_unit p)) ->
  ia_d1 env g = PQ d1 -> ia_d2 env g = PQ d2 -> qge env d1 d2 = Ok false ->
  exists s, ir_new env g = Ok s /\ ir_coherent s /\
    (forall p, ir_arg g p = PQ (ir_param_get p s)) /\
    ir_erf env s = None /\ ir_idx env s = None /\
    ir_temp1 env s = [nnan env] /\ ir_temp2 env s = [nnan env] /\
    ir_rndt env s = [nnan env].
Proof.
  intros H Hd1 Hd2 Hge. destruct g as [v1 v2 v3 v4 v5 v6].
  destruct (H Pq1) as (q1 & E1 & D1), (H Pq2) as (q2 & E2 & D2), (H Pd1) as (q3 & E3 & D3),
    (H Pd2) as (q4 & E4 & D4), (H Peff) as (q5 & E5 & D5), (H Pdt) as (q6 & E6 & D6).
  cbn in E1, E2, E3, E4, E5, E6, Hd1, Hd2.
  rewrite E3 in Hd1. injection Hd1 as <-. rewrite E4 in Hd2. injection Hd2 as <-.
  subst v1 v2 v3 v4 v5 v6.
  cbn [ir_param_unit] in *.
  apply to_mag_ok_iff in D1, D2, D3, D4, D5, D6.
  destruct D1 as [m1 D1], D2 as [m2 D2], D3 as [m3 D3], D4 as [m4 D4], D5 as [m5 D5],
    D6 as [m6 D6].
  eexists. split; [erewrite ir_init_explicit by eassumption; rewrite Hge; reflexivity|].
  split; [constructor; try assumption; exact I|].
  split; [intros []; reflexivity|]. repeat split.
Qed.

Lemma ir_new_inv g s : ir_new env g = Ok s ->
  (forall p, good_arg env (ir_arg g p) (ir_param_unit p)) /\
  exists d1 d2, ia_d1 env g = PQ d1 /\ ia_d2 env g = PQ d2 /\ qge env d1 d2 = Ok false.
Proof.
  intros H0. assert (G : forall p, good_arg env (ir_arg g p) (ir_param_unit p)).
  { revert H0. unfold ir_new, ir_init_body. intros H p. revert H. mstep.
  assert (K : forall p v t (k : IR -> IR * Res unit),
    match (match ir_param_set p v t with (s', Ok a) => k s' | (s', Err e) => (s', Err e) end) with
    | (s', Ok _) => Ok s' | (_, Err e) => Err e end = Ok s ->
    good_arg env v (ir_param_unit p) /\
    exists t', match k t' with (s', Ok _) => Ok s' | (_, Err e) => Err e end = Ok s).
  { intros p0 v t k. destruct (iset_cases p0 v t) as [(q & t' & -> & Hd & E)|[_ E]]; rewrite E.
    - intros Hk. split; [exists q; auto|eauto].
    - discriminate. }
  intros H.
  apply (K Pq1) in H as [G1 [t1 H]]. apply (K Pq2) in H as [G2 [t2 H]].
  apply (K Pd1) in H as [G3 [t3 H]]. apply (K Pd2) in H as [G4 [t4 H]].
  apply (K Peff) in H as [G5 [t5 H]]. apply (K Pdt) in H as [G6 [t6 H]].
  destruct p; assumption. }
  split; [exact G|].
  destruct (G Pd1) as (d1 & E1 & _), (G Pd2) as (d2 & E2 & _). cbn in E1, E2.
  exists d1, d2. split; [exact E1|]. split; [exact E2|].
  destruct g as [v1 v2 v3 v4 v5 v6]. cbn in E1, E2. subst v3 v4.
  destruct (G Pq1) as (q1 & A1 & D1), (G Pq2) as (q2 & A2 & D2), (G Pd1) as (q3 & A3 & D3),
    (G Pd2) as (q4 & A4 & D4), (G Peff) as (q5 & A5 & D5), (G Pdt) as (q6 & A6 & D6).
  cbn in *. injection A3 as <-. injection A4 as <-. subst v1 v2 v5 v6.
  apply to_mag_ok_iff in D1, D2, D3, D4, D5, D6.
  destruct D1 as [m1 D1], D2 as [m2 D2], D3 as [m3 D3], D4 as [m4 D4], D5 as [m5 D5],
    D6 as [m6 D6].
  erewrite ir_init_explicit in H0 by eassumption.
  destruct (qge env d1 d2) as [[|]|e]; [discriminate|reflexivity|discriminate].
Qed.

Lemma ir_new_coherent g s : ir_new env g = Ok s -> ir_coherent s.
Proof.
  intros H. destruct (ir_new_inv g s H) as (G & d1 & d2 & G1 & G2 & G3).
  destruct (ir_new_ok g d1 d2 G G1 G2 G3) as (s' & E & C & _).
  rewrite H in E. injection E as ->. exact C.
Qed.

Lemma ir_calls_inv (P : IR -> Prop) :
  (forall o s, P s -> P (fst (ir_call env parse_unit o s))) ->
  forall ops s, P s -> P (ir_calls env parse_unit ops s).
Proof.
  intros H ops. induction ops as [|o ops IH]; intros s Hs; [exact Hs|].
  cbn [ir_calls fold_left]. apply IH, H, Hs.
Qed.

Theorem ir_reachable_coherent s : ir_reachable env parse_unit s -> ir_coherent s.
Proof.
  intros (g & s0 & ops & H & ->). apply ir_calls_inv.
  - exact ir_call_coherent.
  - eapply ir_new_coherent, H.
Qed.

(** ** History independence *)

Lemma icoherent_mags s1 s2 :
  ir_coherent s1 -> ir_coherent s2 -> ir_same_visible s1 s2 ->
  s2 = iwith_run env (iwith_erf env s1 (ir_erf env s2) (ir_erf_mag env s2)) (ir_idx env s2)
         (ir_temp1 env s2) (ir_temp2 env s2) (ir_rndt env s2).
Proof.
  intros C1 C2 V.
  pose proof (V Pq1) as V1. pose proof (V Pq2) as V2. pose proof (V Pd1) as V3.
  pose proof (V Pd2) as V4. pose proof (V Peff) as V5. pose proof (V Pdt) as V6.
  destruct C1, C2.
  cbn [ir_param_get] in *.
  rewrite <- ?V1, <- ?V2, <- ?V3, <- ?V4, <- ?V5, <- ?V6 in *.
  destruct s1, s2. cbn in *. unfold iwith_run, iwith_erf; cbn. subst.
  f_equal; congruence.
Qed.

Lemma ir_drive_indep s1 s2 e :
  ir_coherent s1 -> ir_coherent s2 -> ir_same_visible s1 s2 ->
  snd (ir_drive env e s1) = snd (ir_drive env e s2) /\
  (snd (ir_drive env e s1) = Ok tt -> fst (ir_drive env e s1) = fst (ir_drive env e s2)).
Proof.
  intros C1 C2 V. rewrite (icoherent_mags s1 s2 C1 C2 V). generalize (ir_erf env s2), (ir_erf_mag env s2),
    (ir_idx env s2), (ir_temp1 env s2), (ir_temp2 env s2), (ir_rndt env s2).
  intros e' m' i U L R.
  destruct (same_dim_dec env (aunits e) u_Wm2) as [H|H].
  - apply to_mags_ok_iff in H as [m Hm].
    destruct (existsb (nisnan env) (mags e)) eqn:Hn.
    + rewrite !(idrive_nan env _ e m Hm Hn). split; [reflexivity|discriminate].
    + destruct (le_lt_dec (List.length m) 1) as [Hl|Hl].
      * set (hp := (nnan env, @None (num * num * num))).
        rewrite !(idrive_ok env _ e m hp Hm Hn (or_introl Hl)). split; reflexivity.
      * destruct (step_status env s1) as [hp|x] eqn:Hst.
        { rewrite (idrive_ok env s1 e m hp Hm Hn (or_intror Hst)).
          rewrite (idrive_ok env (iwith_run env (iwith_erf env s1 e' m') i U L R) e m hp Hm Hn (or_intror Hst)).
          split; reflexivity. }
        { rewrite (idrive_err env s1 e m x Hm Hn Hl Hst).
          rewrite (idrive_err env (iwith_run env (iwith_erf env s1 e' m') i U L R) e m x Hm Hn Hl Hst).
          split; [reflexivity|discriminate]. }
  - rewrite !idrive_unit by assumption. split; [reflexivity|discriminate].
Qed.

(** ** Uncomputed entries are NaN *)

(** Every store in a step is at the (already advanced) current index. *)
Definition istores_at (k : nat) (m : Meth IR unit) : Prop :=
  forall s, ir_idx env s = Some k -> ir_nan_inv s -> 
    ir_idx env (fst (m s)) = Some k /\ ir_nan_inv (fst (m s)).

Lemma istores_bind {A} k (m : IR -> Res A) f : (forall a, istores_at k (f a)) -> istores_at k (mbind (mread m) f).
Proof.
  intros H s Hi Hs. cbv [mbind mread]. destruct (m s) as [a|e]; [apply H|]; auto.
Qed.
Lemma istores_seq k (m f : Meth IR unit) : istores_at k m -> istores_at k f -> istores_at k (m ;; f).
Proof.
  intros Hm Hf s Hi Hs. cbv [mbind]. specialize (Hm s Hi Hs).
  destruct (m s) as [s' [[]|e]]; cbn [fst] in Hm; [apply Hf; tauto|exact Hm].
Qed.
Lemma istores_put_temp1 k v : istores_at k (ir_put_temp1 env k v).
Proof.
  intros s Hi Hs. unfold ir_put_temp1. mstep. unfold lset.
  destruct (Nat.ltb k _); [|auto].
  destruct s; cbn in *. subst. unfold ir_nan_inv in *; cbn in *. rewrite !upd_length.
  intuition auto using upd_nan_inv.
Qed.
Lemma istores_put_temp2 k v : istores_at k (ir_put_temp2 env k v).
Proof.
  intros s Hi Hs. unfold ir_put_temp2. mstep. unfold lset.
  destruct (Nat.ltb k _); [|auto].
  destruct s; cbn in *. subst. unfold ir_nan_inv in *; cbn in *. rewrite !upd_length.
  intuition auto using upd_nan_inv.
Qed.
Lemma istores_put_rndt k v : istores_at k (ir_put_rndt env k v).
Proof.
  intros s Hi Hs. unfold ir_put_rndt. mstep. unfold lset.
  destruct (Nat.ltb k _); [|auto].
  destruct s; cbn in *. subst. unfold ir_nan_inv in *; cbn in *. rewrite !upd_length.
  intuition auto using upd_nan_inv.
Qed.

Lemma istores_step_at k : istores_at k (ir_step_at env k).
Proof.
  unfold ir_step_at. destruct k as [|j].
  - repeat apply istores_seq; auto using istores_put_temp1, istores_put_temp2, istores_put_rndt.
  - apply istores_bind; intros. apply istores_seq; [apply istores_put_temp1|].
    apply istores_bind; intros. apply istores_seq; [apply istores_put_temp2|].
    apply istores_bind; intros. apply istores_put_rndt.
Qed.

Lemma istep_nan s : ir_nan_inv s -> ir_nan_inv (fst (ir_step env s)).
Proof.
  intros Hs. unfold ir_step. cbv [mbind mmod mread].
  set (i := match ir_idx env s with None => 0%nat | Some i => S i end).
  replace (match ir_idx env s with None => Some 0%nat | Some i => Some (S i) end) with (Some i)
    by (subst i; destruct (ir_idx env s); reflexivity).
  set (s1 := s <| ir_idx env := Some i |>).
  assert (H1 : ir_idx env s1 = Some i /\ ir_nan_inv s1).
  { subst s1 i. destruct s; cbn in *. split; [reflexivity|].
    unfold ir_nan_inv in *; cbn in *.
    destruct ir_idx as [i|]; intuition eauto using all_nan_mono. }
  destruct H1 as [H1 H2]. rewrite H1. apply istores_step_at; assumption.
Qed.

Lemma isteps_nan k : forall s, ir_nan_inv s -> ir_nan_inv (fst (ir_steps env k s)).
Proof.
  induction k as [|k IH]; intros s Hs; [exact Hs|].
  cbn [ir_steps]. cbv [mbind]. pose proof (istep_nan s Hs) as H.
  destruct (ir_step env s) as [s' [[]|e]]; [apply IH|]; exact H.
Qed.

Lemma ireset_nan_inv s : ir_coherent s -> ir_nan_inv s -> ir_nan_inv (fst (ir_reset env s)).
Proof.
  intros Hc Hs. destruct (ir_erf env s) as [e|] eqn:He; [|rewrite ireset_none by assumption; exact Hs].
  destruct (existsb (nisnan env) (mags e)) eqn:Hn.
  - rewrite (ireset_nan env s e He Hn). exact Hs.
  - pose proof (ic_erf env s Hc) as Hm. rewrite He in Hm.
    destruct (ir_erf_mag env s) as [m|] eqn:Em; [|contradiction].
    rewrite (ireset_ok env s e m He Em Hn). unfold ir_nan_inv. cbn.
    rewrite !repeat_length. repeat split; apply all_nan_repeat.
Qed.

Lemma iset_nan p v s : ir_nan_inv s -> ir_nan_inv (fst (ir_param_set p v s)).
Proof.
  intros Hs. destruct v as [q|].
  - destruct (same_dim_dec env (units q) (ir_param_unit p)) as [H|H].
    + destruct (ir_set_succ p s q H) as (s' & E & _ & _ & _ & _ & E1 & E2 & E3 & E4 & _).
      rewrite E. unfold ir_nan_inv. cbn [fst]. rewrite E1, E2, E3, E4. exact Hs.
    + rewrite ir_set_fail by exact H. exact Hs.
  - rewrite ir_set_fail by exact I. exact Hs.
Qed.

Lemma iset_erf_nan v s : ir_nan_inv s -> ir_nan_inv (fst (ir_set_erf env v s)).
Proof.
  intros Hs. destruct v as [q|]; [|exact Hs].
  destruct (same_dim_dec env (aunits q) u_Wm2) as [H|H].
  - destruct (proj2 (to_mags_ok_iff env q _) H) as [m Hm].
    rewrite (iset_erf_ok env s q m Hm). exact Hs.
  - rewrite iset_erf_err by assumption. exact Hs.
Qed.

Lemma iset_drivers_nan e s : ir_nan_inv s -> ir_nan_inv (fst (ir_set_drivers env e s)).
Proof. intros Hs. destruct e; cbn [ir_set_drivers]; try exact Hs; apply iset_erf_nan, Hs. Qed.

Definition ir_inv (s : IR) : Prop := ir_coherent s /\ ir_nan_inv s.

Lemma ir_call_inv o s : ir_inv s -> ir_inv (fst (ir_call env parse_unit o s)).
Proof.
  intros [Hc Hs]. split; [apply ir_call_coherent, Hc|].
  destruct o; cbn [ir_call].
  - apply (iset_nan Pq1), Hs.
  - apply (iset_nan Pq2), Hs.
  - apply (iset_nan Pd1), Hs.
  - apply (iset_nan Pd2), Hs.
  - apply (iset_nan Peff), Hs.
  - apply (iset_nan Pdt), Hs.
  - apply iset_erf_nan, Hs.
  - apply iset_drivers_nan, Hs.
  - apply ireset_nan_inv; assumption.
  - apply istep_nan, Hs.
  - apply isteps_nan, Hs.
  - rewrite forget_fst. apply (run_scenarios_keep env parse_unit (ir_variant env) ir_inv).
    + intros v s' []. split; [apply (ir_set_coherent Pdt)|apply (iset_nan Pdt)]; assumption.
    + intros e s' []. split; [apply iset_drivers_coherent|apply iset_drivers_nan]; assumption.
    + intros s' []. split; [apply iframe_coherent; auto using iframe_reset|apply ireset_nan_inv]; assumption.
    + intros s' []. split; [apply iframe_coherent; auto using iframe_run|apply isteps_nan]; assumption.
    + split; assumption.
Qed.

Lemma ir_new_inv_holds g s : ir_new env g = Ok s -> ir_inv s.
Proof.
  intros H. destruct (ir_new_inv g s H) as (G & d1 & d2 & G1 & G2 & G3).
  destruct (ir_new_ok g d1 d2 G G1 G2 G3) as (s' & E & C & _ & _ & E0 & E1 & E2 & E3).
  rewrite H in E. injection E as <-. split; [exact C|].
  unfold ir_nan_inv. rewrite E0, E1, E2, E3. cbn.
  repeat split; apply (all_nan_repeat env 0 1).
Qed.

Theorem ir_reachable_inv s : ir_reachable env parse_unit s -> ir_inv s.
Proof.
  intros (g & s0 & ops & H & ->). apply ir_calls_inv.
  - exact ir_call_inv.
  - eapply ir_new_inv_holds, H.
Qed.

End IRH.
