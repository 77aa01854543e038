(** Invariants of [TwoLayerModel] over all histories of public calls, for every
    number system. *)
From Coq Require Import List String QArith ZArith Bool Arith Lia.
From RecordUpdate Require Import RecordUpdate.
From Verif Require Import Arith Pint Base TwoLayer Impulse Scm Api Spec GenTL.
Import ListNotations.

(** A predicate kept by the calls [run_scenarios] makes is kept by
    [run_scenarios], whatever its outcome. *)
Section Keep.
Context (env : Env) (parse_unit : string -> option (Qty env)) (V : Variant env).
Variable P : v_state env V -> Prop.
Hypothesis Hdt : forall v s, P s -> P (fst (v_set_delta_t env V v s)).
Hypothesis Hdr : forall e s, P s -> P (fst (v_set_drivers env V e s)).
Hypothesis Hre : forall s, P s -> P (fst (v_reset env V s)).
Hypothesis Hru : forall s, P s -> P (fst (v_run env V s)).

Lemma run_row_keep i times r s : P s -> P (fst (run_row env parse_unit V i times r s)).
Proof.
  intros Hs. unfold run_row. cbv [mbind mread].
  destruct (row_unit env parse_unit r) as [u|x]; [|exact Hs].
  match goal with |- context [v_set_drivers env V ?e s] => specialize (Hdr e s Hs);
    destruct (v_set_drivers env V e s) as [s1 [[]|x]]; [|exact Hdr] end.
  cbn [fst] in Hdr. specialize (Hre s1 Hdr).
  destruct (v_reset env V s1) as [s2 [[]|x]]; [|exact Hre].
  cbn [fst] in Hre. specialize (Hru s2 Hre).
  destruct (v_run env V s2) as [s3 [[]|x]]; [|exact Hru].
  cbn [fst] in Hru.
  destruct (create_tss _ _ _ _) as [outs|x]; [|exact Hru].
  destruct (has_dup _ _); exact Hru.
Qed.

Lemma run_rows_keep times rows : forall i s, P s -> P (fst (run_rows env parse_unit V i times rows s)).
Proof.
  induction rows as [|r rows IH]; intros i s Hs; [exact Hs|].
  cbn [run_rows]. cbv [mbind].
  pose proof (run_row_keep i times r s Hs) as H1.
  destruct (run_row env parse_unit V i times r s) as [s1 [x|x]]; [|exact H1].
  cbn [fst] in H1. specialize (IH (S i) s1 H1).
  destruct (run_rows env parse_unit V (S i) times rows s1) as [s2 [y|y]]; exact IH.
Qed.

Lemma run_scenarios_keep sc dv s : P s -> P (fst (run_scenarios env parse_unit V sc dv s)).
Proof.
  intros Hs. unfold run_scenarios. cbv [mbind mread].
  destruct (Nat.eqb _ 0); [exact Hs|].
  destruct (select_timestep env (s_times env sc)) as [ts|x]; [|exact Hs].
  specialize (Hdt (PQ ts) s Hs).
  destruct (v_set_delta_t env V (PQ ts) s) as [s1 [[]|x]]; [|exact Hdt].
  cbn [fst] in Hdt.
  destruct (has_dup _ _); [exact Hdt|].
  match goal with |- context [run_rows env parse_unit V 0 ?t ?r s1] =>
    pose proof (run_rows_keep t r 0 s1 Hdt) as H1;
    destruct (run_rows env parse_unit V 0 t r s1) as [s2 [y|y]]; [|exact H1] end.
  destruct (has_dup _ _); exact H1.
Qed.
End Keep.

Section TLH.
Variable env : Env.
Notation same_dim := (same_dim).
Notation tl_param_get := (tl_param_get env).
Notation tl_param_set := (tl_param_set env).
Notation tl_arg := (tl_arg env).
Notation good_arg := (good_arg env).
Notation tl_coherent := (tl_coherent env).
Notation tl_args_of := (tl_args_of env).
Notation tl_same_visible := (tl_same_visible env).
Notation all_nan_from := (all_nan_from env).
Notation tl_nan_inv := (tl_nan_inv env).
Variable parse_unit : string -> option (Qty env).
Notation num := (num env).
Notation TL := (TL env).

Ltac mstep := cbv [mbind mread mmod mret mraise] in *; cbn [bind] in *.

(** ** Coherence of cached magnitudes *)

(** Frames: what a call can change. *)
Definition frame (m : Meth TL unit) : Prop :=
  forall s, exists i U L R, fst (m s) = with_run env s i U L R.
Lemma frame_bind {A} (m : TL -> Res A) (f : A -> Meth TL unit) :
  (forall a, frame (f a)) -> frame (mbind (mread m) f).
Proof.
  intros H s. cbv [mbind mread]. destruct (m s) as [a|e]; [apply H|].
  exists (tl_idx env s), (tl_temp_upper env s), (tl_temp_lower env s), (tl_rndt env s).
  destruct s; reflexivity.
Qed.
Lemma frame_seq (m f : Meth TL unit) : frame m -> frame f -> frame (m ;; f).
Proof.
  intros Hm Hf s. cbv [mbind]. specialize (Hm s). destruct (m s) as [s' [[]|e]]; [|exact Hm].
  destruct Hm as (i & U & L & R & E). cbn [fst] in E. subst s'.
  destruct (Hf (with_run env s i U L R)) as (i' & U' & L' & R' & E').
  exists i', U', L', R'. exact E'.
Qed.
Lemma frame_id (m : Meth TL unit) : (forall s, fst (m s) = s) -> frame m.
Proof.
  intros H s. exists (tl_idx env s), (tl_temp_upper env s), (tl_temp_lower env s), (tl_rndt env s).
  rewrite H. destruct s; reflexivity.
Qed.

Lemma frame_put_upper i v : frame (tl_put_upper env i v).
Proof.
  apply frame_bind. intros l s.
  exists (tl_idx env s), l, (tl_temp_lower env s), (tl_rndt env s). destruct s; reflexivity.
Qed.
Lemma frame_put_lower i v : frame (tl_put_lower env i v).
Proof.
  apply frame_bind. intros l s.
  exists (tl_idx env s), (tl_temp_upper env s), l, (tl_rndt env s). destruct s; reflexivity.
Qed.
Lemma frame_put_rndt i v : frame (tl_put_rndt env i v).
Proof.
  apply frame_bind. intros l s.
  exists (tl_idx env s), (tl_temp_upper env s), (tl_temp_lower env s), l. destruct s; reflexivity.
Qed.

Lemma frame_step : frame (tl_step env).
Proof.
  unfold tl_step, tl_step_at. apply frame_seq.
  - intros s. eexists _, (tl_temp_upper env s), (tl_temp_lower env s), (tl_rndt env s).
    destruct s; reflexivity.
  - apply frame_bind. intros [|j].
    + repeat apply frame_seq; auto using frame_put_upper, frame_put_lower, frame_put_rndt.
    + apply frame_bind; intros. apply frame_seq; [apply frame_put_upper|].
      apply frame_bind; intros. apply frame_seq; [apply frame_put_lower|].
      apply frame_bind; intros. apply frame_put_rndt.
Qed.

Lemma frame_steps k : frame (tl_steps env k).
Proof.
  induction k; cbn [tl_steps].
  - apply frame_id. reflexivity.
  - apply frame_seq; auto using frame_step.
Qed.

Lemma frame_run : frame (tl_run env).
Proof. intros s. apply frame_steps. Qed.

Lemma frame_reset : frame (tl_reset env).
Proof.
  unfold tl_reset. apply frame_bind. intros [|].
  - apply frame_id. reflexivity.
  - apply frame_seq.
    + intros s. eexists None, (tl_temp_upper env s), (tl_temp_lower env s), (tl_rndt env s).
      destruct s; reflexivity.
    + apply frame_bind. intros m s.
      exists (tl_idx env s). do 3 eexists. destruct s; reflexivity.
Qed.

Lemma coherent_with_run s i U L R : tl_coherent s -> tl_coherent (with_run env s i U L R).
Proof. intros []; constructor; assumption. Qed.

Lemma frame_coherent m : frame m -> forall s, tl_coherent s -> tl_coherent (fst (m s)).
Proof.
  intros H s Hs. destruct (H s) as (i & U & L & R & ->). apply coherent_with_run, Hs.
Qed.

(** ** Parameters *)

Lemma tl_set_fail p s v :
  (match v with POther => True | PQ q => ~ same_dim env (units q) (tl_param_unit p) end) ->
  tl_param_set p v s = (s, Err (match v with POther => TypeError | PQ _ => UnitError end)).
Proof.
  intros H. destruct p; cbn [tl_param_set tl_param_unit] in *;
    unfold tl_set_du, tl_set_dl, tl_set_lambda0, tl_set_a, tl_set_efficacy, tl_set_eta, tl_set_delta_t;
    mstep; rewrite assert_quantity_spec; destruct v as [q|]; try reflexivity;
    match goal with |- context [same_dim_dec ?e ?u ?w] => destruct (same_dim_dec e u w) end;
    try contradiction; reflexivity.
Qed.

(** A successful assignment: the parameter is the assigned value, all other
    parameters, the drivers and the results are as before, and coherence is kept. *)
Lemma tl_set_succ p s q :
  same_dim env (units q) (tl_param_unit p) ->
  exists s', tl_param_set p (PQ q) s = (s', Ok tt) /\
    tl_param_get p s' = q /\
    (forall p', p' <> p -> tl_param_get p' s' = tl_param_get p' s) /\
    tl_erf env s' = tl_erf env s /\ tl_erf_mag env s' = tl_erf_mag env s /\
    tl_temp_upper env s' = tl_temp_upper env s /\
    tl_temp_lower env s' = tl_temp_lower env s /\ tl_rndt env s' = tl_rndt env s /\
    tl_idx env s' = tl_idx env s /\
    (tl_coherent s -> tl_coherent s').
Proof.
  intros H.
  assert (E : assert_quantity env (PQ q) (tl_param_unit p) = Ok q).
  { rewrite assert_quantity_spec.
    destruct (same_dim_dec env (units q) (tl_param_unit p)); [reflexivity|contradiction]. }
  destruct (proj2 (to_mag_ok_iff env q _) H) as [m Hm].
  assert (HC : forall u, u = u_m -> same_dim env (units q) u -> exists h,
             to_mag env (qmul env (qmul env q (DENSITY_WATER env)) (HEAT_CAPACITY_WATER env)) u_JCm2 = Ok h).
  { intros u -> Hd. apply to_mag_ok_iff, heat_capacity_dim, Hd. }
  destruct p; cbn [tl_param_set tl_param_unit] in *;
    unfold tl_set_du, tl_set_dl, tl_set_lambda0, tl_set_a, tl_set_efficacy, tl_set_eta, tl_set_delta_t;
    mstep; rewrite E; cbv beta iota; rewrite Hm; cbv beta iota;
    try (destruct (HC _ eq_refl H) as [h Hh];
         unfold tl_heat_capacity_upper, tl_heat_capacity_lower; cbn [tl_du tl_dl set]; rewrite Hh);
    (eexists; split; [reflexivity|]);
    (split; [reflexivity|]);
    (split; [intros [] Hp; try reflexivity; congruence|]);
    (repeat (split; [reflexivity|]));
    (intros []; constructor; try assumption);
    cbn; try exact Hm; try exact Hh.
Qed.

Lemma tl_set_coherent p v s : tl_coherent s -> tl_coherent (fst (tl_param_set p v s)).
Proof.
  intros Hs. destruct v as [q|].
  - destruct (same_dim_dec env (units q) (tl_param_unit p)) as [H|H].
    + destruct (tl_set_succ p s q H) as (s' & E & ?). rewrite E. cbn [fst]. tauto.
    + rewrite tl_set_fail by exact H. exact Hs.
  - rewrite tl_set_fail by exact I. exact Hs.
Qed.

Lemma set_erf_coherent v s : tl_coherent s -> tl_coherent (fst (tl_set_erf env v s)).
Proof.
  intros Hs. destruct v as [q|]; [|exact Hs].
  destruct (same_dim_dec env (aunits q) u_Wm2) as [H|H].
  - destruct (proj2 (to_mags_ok_iff env q _) H) as [m Hm].
    rewrite (set_erf_ok env s q m Hm). destruct Hs; constructor; try assumption.
  - rewrite set_erf_err by assumption. exact Hs.
Qed.

Lemma set_drivers_coherent e s : tl_coherent s -> tl_coherent (fst (tl_set_drivers env e s)).
Proof.
  intros Hs. destruct e; cbn [tl_set_drivers]; try exact Hs; apply set_erf_coherent, Hs.
Qed.

Lemma forget_fst {S A} (m : Meth S A) s : fst (forget m s) = fst (m s).
Proof. unfold forget, mbind. destruct (m s) as [s' [a|e]]; reflexivity. Qed.

Lemma tl_call_coherent o s : tl_coherent s -> tl_coherent (fst (tl_call env parse_unit o s)).
Proof.
  intros Hs. destruct o; cbn [tl_call].
  - apply (tl_set_coherent Pdu), Hs.
  - apply (tl_set_coherent Pdl), Hs.
  - apply (tl_set_coherent Plambda0), Hs.
  - apply (tl_set_coherent Pa), Hs.
  - apply (tl_set_coherent Pefficacy), Hs.
  - apply (tl_set_coherent Peta), Hs.
  - apply (tl_set_coherent Pdelta_t), Hs.
  - apply set_erf_coherent, Hs.
  - apply set_drivers_coherent, Hs.
  - apply frame_coherent; auto using frame_reset.
  - apply frame_coherent; auto using frame_step.
  - apply frame_coherent; auto using frame_run.
  - rewrite forget_fst. apply (run_scenarios_keep env parse_unit (tl_variant env) tl_coherent).
    + intros v s'. apply (tl_set_coherent Pdelta_t).
    + intros e s'. apply set_drivers_coherent.
    + intros s'. apply frame_coherent, frame_reset.
    + intros s'. apply frame_coherent, frame_run.
    + exact Hs.
Qed.

(** ** Construction *)

Lemma set_cases p v s :
  (exists q s', v = PQ q /\ same_dim env (units q) (tl_param_unit p) /\ tl_param_set p v s = (s', Ok tt)) \/
  ((forall q, v = PQ q -> ~ same_dim env (units q) (tl_param_unit p)) /\
   tl_param_set p v s = (s, Err (match v with POther => TypeError | PQ _ => UnitError end))).
Proof.
  destruct v as [q|].
  - destruct (same_dim_dec env (units q) (tl_param_unit p)) as [H|H].
    + left. destruct (tl_set_succ p s q H) as (s' & E & _). eauto.
    + right. split; [intros q' [= <-]; exact H|]. apply tl_set_fail, H.
  - right. split; [discriminate|]. apply tl_set_fail. exact I.
Qed.

Lemma aq_ok q u m : to_mag env q u = Ok m -> assert_quantity env (PQ q) u = Ok q.
Proof. intros H. unfold assert_quantity. rewrite H. reflexivity. Qed.

Lemma tl_new_explicit du dl l0 a ef et dt m1 m2 m3 m4 m5 m6 m7 h1 h2 :
  to_mag env du u_m = Ok m1 -> to_mag env dl u_m = Ok m2 ->
  to_mag env l0 u_Wm2C = Ok m3 -> to_mag env a u_Wm2C2 = Ok m4 ->
  to_mag env ef u_none = Ok m5 -> to_mag env et u_Wm2C = Ok m6 ->
  to_mag env dt u_s = Ok m7 ->
  to_mag env (qmul env (qmul env du (DENSITY_WATER env)) (HEAT_CAPACITY_WATER env)) u_JCm2 = Ok h1 ->
  to_mag env (qmul env (qmul env dl (DENSITY_WATER env)) (HEAT_CAPACITY_WATER env)) u_JCm2 = Ok h2 ->
  tl_new env (mkTLArgs env (PQ du) (PQ dl) (PQ l0) (PQ a) (PQ ef) (PQ et) (PQ dt)) =
  Ok (mkTL env du dl l0 a ef et dt m1 m2 m3 m4 m5 m6 m7 h1 h2 None None
        [nnan env] [nnan env] [nnan env] None).
Proof.
  intros H1 H2 H3 H4 H5 H6 H7 H8 H9.
  unfold tl_new, tl_init_body.
  cbn [ta_du ta_dl ta_lambda0 ta_a ta_efficacy ta_eta ta_delta_t].
  unfold tl_set_du, tl_set_dl, tl_set_lambda0, tl_set_a, tl_set_efficacy, tl_set_eta, tl_set_delta_t.
  mstep.
  rewrite (aq_ok _ _ _ H1), H1. unfold tl_heat_capacity_upper. cbn [tl_du set]. rewrite H8.
  rewrite (aq_ok _ _ _ H2), H2. unfold tl_heat_capacity_lower. cbn [tl_dl set]. rewrite H9.
  rewrite (aq_ok _ _ _ H3), H3. rewrite (aq_ok _ _ _ H4), H4.
  rewrite (aq_ok _ _ _ H5), H5. rewrite (aq_ok _ _ _ H6), H6.
  rewrite (aq_ok _ _ _ H7), H7. reflexivity.
Qed.

Lemma tl_new_ok g :
  (forall p, good_arg (tl_arg g p) (tl_param_unit p)) ->
  exists s, tl_new env g = Ok s /\ tl_coherent s /\
    (forall p, tl_arg g p = PQ (tl_param_get p s)) /\
    tl_erf env s = None /\ tl_idx env s = None /\
    tl_temp_upper env s = [nnan env] /\ tl_temp_lower env s = [nnan env] /\
    tl_rndt env s = [nnan env].
Proof.
  intros H. destruct g as [v1 v2 v3 v4 v5 v6 v7].
  destruct (H Pdu) as (q1 & E1 & D1), (H Pdl) as (q2 & E2 & D2), (H Plambda0) as (q3 & E3 & D3),
    (H Pa) as (q4 & E4 & D4), (H Pefficacy) as (q5 & E5 & D5), (H Peta) as (q6 & E6 & D6),
    (H Pdelta_t) as (q7 & E7 & D7).
  cbn in E1, E2, E3, E4, E5, E6, E7. subst v1 v2 v3 v4 v5 v6 v7.
  cbn [tl_param_unit] in *.
  pose proof (heat_capacity_dim env q1 D1) as D8. pose proof (heat_capacity_dim env q2 D2) as D9.
  apply to_mag_ok_iff in D1, D2, D3, D4, D5, D6, D7, D8, D9.
  destruct D1 as [m1 D1], D2 as [m2 D2], D3 as [m3 D3], D4 as [m4 D4], D5 as [m5 D5],
    D6 as [m6 D6], D7 as [m7 D7], D8 as [m8 D8], D9 as [m9 D9].
  eexists. split; [eapply tl_new_explicit; eassumption|].
  split; [constructor; try assumption; exact I|].
  split; [intros []; reflexivity|]. repeat split.
Qed.

Lemma tl_new_inv g s : tl_new env g = Ok s -> forall p, good_arg (tl_arg g p) (tl_param_unit p).
Proof.
  unfold tl_new, tl_init_body. intros H p. revert H. mstep.
  assert (K : forall p v t (k : TL -> TL * Res unit),
    match (match tl_param_set p v t with (s', Ok a) => k s' | (s', Err e) => (s', Err e) end) with
    | (s', Ok _) => Ok s' | (_, Err e) => Err e end = Ok s ->
    good_arg v (tl_param_unit p) /\
    exists t', match k t' with (s', Ok _) => Ok s' | (_, Err e) => Err e end = Ok s).
  { intros p0 v t k. destruct (set_cases p0 v t) as [(q & t' & -> & Hd & E)|[_ E]]; rewrite E.
    - intros Hk. split; [exists q; auto|eauto].
    - discriminate. }
  intros H.
  apply (K Pdu) in H as [G1 [t1 H]]. apply (K Pdl) in H as [G2 [t2 H]].
  apply (K Plambda0) in H as [G3 [t3 H]]. apply (K Pa) in H as [G4 [t4 H]].
  apply (K Pefficacy) in H as [G5 [t5 H]]. apply (K Peta) in H as [G6 [t6 H]].
  apply (K Pdelta_t) in H as [G7 [t7 H]].
  destruct p; assumption.
Qed.

Lemma tl_new_coherent g s : tl_new env g = Ok s -> tl_coherent s.
Proof.
  intros H. destruct (tl_new_ok g (tl_new_inv g s H)) as (s' & E & C & _).
  rewrite H in E. injection E as ->. exact C.
Qed.

Lemma tl_calls_inv (P : TL -> Prop) :
  (forall o s, P s -> P (fst (tl_call env parse_unit o s))) ->
  forall ops s, P s -> P (tl_calls env parse_unit ops s).
Proof.
  intros H ops. induction ops as [|o ops IH]; intros s Hs; [exact Hs|].
  cbn [tl_calls fold_left]. apply IH, H, Hs.
Qed.

Theorem tl_reachable_coherent s : tl_reachable env parse_unit s -> tl_coherent s.
Proof.
  intros (g & s0 & ops & H & ->). apply tl_calls_inv.
  - exact tl_call_coherent.
  - eapply tl_new_coherent, H.
Qed.

(** ** History independence *)

Lemma tl_rebuild s : tl_coherent s ->
  exists s0, tl_new env (tl_args_of s) = Ok s0 /\
    s0 = with_run env (with_erf env s None None) None [nnan env] [nnan env] [nnan env].
Proof.
  intros []. eexists. split; [eapply tl_new_explicit; eassumption|]. reflexivity.
Qed.

Lemma coherent_mags s1 s2 :
  tl_coherent s1 -> tl_coherent s2 -> tl_same_visible s1 s2 ->
  s2 = with_run env (with_erf env s1 (tl_erf env s2) (tl_erf_mag env s2)) (tl_idx env s2)
         (tl_temp_upper env s2) (tl_temp_lower env s2) (tl_rndt env s2).
Proof.
  intros C1 C2 V.
  pose proof (V Pdu) as V1. pose proof (V Pdl) as V2. pose proof (V Plambda0) as V3.
  pose proof (V Pa) as V4. pose proof (V Pefficacy) as V5. pose proof (V Peta) as V6.
  pose proof (V Pdelta_t) as V7. destruct C1, C2.
  cbn [tl_param_get] in *.
  unfold tl_heat_capacity_upper, tl_heat_capacity_lower in *.
  rewrite <- ?V1, <- ?V2, <- ?V3, <- ?V4, <- ?V5, <- ?V6, <- ?V7 in *.
  destruct s1, s2. cbn in *. unfold with_run, with_erf; cbn. subst.
  f_equal; congruence.
Qed.

Lemma tl_drive_indep s1 s2 e :
  tl_coherent s1 -> tl_coherent s2 -> tl_same_visible s1 s2 ->
  snd (tl_drive env e s1) = snd (tl_drive env e s2) /\
  (snd (tl_drive env e s1) = Ok tt -> fst (tl_drive env e s1) = fst (tl_drive env e s2)).
Proof.
  intros C1 C2 V. rewrite (coherent_mags s1 s2 C1 C2 V). generalize (tl_erf env s2), (tl_erf_mag env s2),
    (tl_idx env s2), (tl_temp_upper env s2), (tl_temp_lower env s2), (tl_rndt env s2).
  intros e' m' i U L R.
  destruct (same_dim_dec env (aunits e) u_Wm2) as [H|H].
  - apply to_mags_ok_iff in H as [m Hm].
    destruct (existsb (nisnan env) (mags e)) eqn:Hn.
    + rewrite !(drive_nan env _ e m Hm Hn). split; [reflexivity|discriminate].
    + rewrite !(drive_ok env _ e m Hm Hn). split; [reflexivity|]. intros _. cbn [fst].
      rewrite filled_forget. reflexivity.
  - rewrite !drive_unit by assumption. split; [reflexivity|discriminate].
Qed.

(** ** Uncomputed entries are NaN *)

Lemma all_nan_upd k l v : all_nan_from k l -> all_nan_from (S k) (upd l k v).
Proof.
  intros H i x Hi. rewrite nth_error_upd. destruct (Nat.eqb_spec k i); [lia|].
  apply H. lia.
Qed.

Lemma all_nan_mono k k' l : (k <= k')%nat -> all_nan_from k l -> all_nan_from k' l.
Proof. intros Hk H i x Hi. apply H. lia. Qed.

Lemma all_nan_repeat k n : all_nan_from k (repeat (nnan env) n).
Proof.
  intros i x _ H. apply nth_error_In, repeat_spec in H. subst x. apply nisnan_nan.
Qed.

(** Every store in a step is at the (already advanced) current index. *)
Definition stores_at (k : nat) (m : Meth TL unit) : Prop :=
  forall s, tl_idx env s = Some k -> tl_nan_inv s -> 
    tl_idx env (fst (m s)) = Some k /\ tl_nan_inv (fst (m s)).

Lemma stores_bind {A} k (m : TL -> Res A) f : (forall a, stores_at k (f a)) -> stores_at k (mbind (mread m) f).
Proof.
  intros H s Hi Hs. cbv [mbind mread]. destruct (m s) as [a|e]; [apply H|]; auto.
Qed.
Lemma stores_seq k (m f : Meth TL unit) : stores_at k m -> stores_at k f -> stores_at k (m ;; f).
Proof.
  intros Hm Hf s Hi Hs. cbv [mbind]. specialize (Hm s Hi Hs).
  destruct (m s) as [s' [[]|e]]; cbn [fst] in Hm; [apply Hf; tauto|exact Hm].
Qed.
Lemma upd_nan_inv k l v : all_nan_from (S k) l -> all_nan_from (S k) (upd l k v).
Proof.
  intros H i x Hi. rewrite nth_error_upd. destruct (Nat.eqb_spec k i); [lia|]. apply H; lia.
Qed.
Lemma stores_put_upper k v : stores_at k (tl_put_upper env k v).
Proof.
  intros s Hi Hs. unfold tl_put_upper. mstep. unfold lset.
  destruct (Nat.ltb k _); [|auto].
  destruct s; cbn in *. subst. unfold tl_nan_inv in *; cbn in *. rewrite !upd_length.
  intuition auto using upd_nan_inv.
Qed.
Lemma stores_put_lower k v : stores_at k (tl_put_lower env k v).
Proof.
  intros s Hi Hs. unfold tl_put_lower. mstep. unfold lset.
  destruct (Nat.ltb k _); [|auto].
  destruct s; cbn in *. subst. unfold tl_nan_inv in *; cbn in *. rewrite !upd_length.
  intuition auto using upd_nan_inv.
Qed.
Lemma stores_put_rndt k v : stores_at k (tl_put_rndt env k v).
Proof.
  intros s Hi Hs. unfold tl_put_rndt. mstep. unfold lset.
  destruct (Nat.ltb k _); [|auto].
  destruct s; cbn in *. subst. unfold tl_nan_inv in *; cbn in *. rewrite !upd_length.
  intuition auto using upd_nan_inv.
Qed.

Lemma stores_step_at k : stores_at k (tl_step_at env k).
Proof.
  unfold tl_step_at. destruct k as [|j].
  - repeat apply stores_seq; auto using stores_put_upper, stores_put_lower, stores_put_rndt.
  - apply stores_bind; intros. apply stores_seq; [apply stores_put_upper|].
    apply stores_bind; intros. apply stores_seq; [apply stores_put_lower|].
    apply stores_bind; intros. apply stores_put_rndt.
Qed.

Lemma step_nan s : tl_nan_inv s -> tl_nan_inv (fst (tl_step env s)).
Proof.
  intros Hs. unfold tl_step. cbv [mbind mmod mread].
  set (i := match tl_idx env s with None => 0%nat | Some i => S i end).
  replace (match tl_idx env s with None => Some 0%nat | Some i => Some (S i) end) with (Some i)
    by (subst i; destruct (tl_idx env s); reflexivity).
  set (s1 := s <| tl_idx env := Some i |>).
  assert (H1 : tl_idx env s1 = Some i /\ tl_nan_inv s1).
  { subst s1 i. destruct s; cbn in *. split; [reflexivity|].
    unfold tl_nan_inv in *; cbn in *.
    destruct tl_idx as [i|]; intuition eauto using all_nan_mono. }
  destruct H1 as [H1 H2]. rewrite H1. apply stores_step_at; assumption.
Qed.

Lemma steps_nan k : forall s, tl_nan_inv s -> tl_nan_inv (fst (tl_steps env k s)).
Proof.
  induction k as [|k IH]; intros s Hs; [exact Hs|].
  cbn [tl_steps]. cbv [mbind]. pose proof (step_nan s Hs) as H.
  destruct (tl_step env s) as [s' [[]|e]]; [apply IH|]; exact H.
Qed.

Lemma reset_nan_inv s : tl_coherent s -> tl_nan_inv s -> tl_nan_inv (fst (tl_reset env s)).
Proof.
  intros Hc Hs. destruct (tl_erf env s) as [e|] eqn:He; [|rewrite reset_none by assumption; exact Hs].
  destruct (existsb (nisnan env) (mags e)) eqn:Hn.
  - rewrite (reset_nan env s e He Hn). exact Hs.
  - pose proof (tc_erf env s Hc) as Hm. rewrite He in Hm.
    destruct (tl_erf_mag env s) as [m|] eqn:Em; [|contradiction].
    rewrite (reset_ok env s e m He Em Hn). unfold tl_nan_inv. cbn.
    rewrite !repeat_length. auto using all_nan_repeat.
Qed.

Lemma set_nan p v s : tl_nan_inv s -> tl_nan_inv (fst (tl_param_set p v s)).
Proof.
  intros Hs. destruct v as [q|].
  - destruct (same_dim_dec env (units q) (tl_param_unit p)) as [H|H].
    + destruct (tl_set_succ p s q H) as (s' & E & _ & _ & _ & _ & E1 & E2 & E3 & E4 & _).
      rewrite E. unfold tl_nan_inv. cbn [fst]. rewrite E1, E2, E3, E4. exact Hs.
    + rewrite tl_set_fail by exact H. exact Hs.
  - rewrite tl_set_fail by exact I. exact Hs.
Qed.

Lemma set_erf_nan v s : tl_nan_inv s -> tl_nan_inv (fst (tl_set_erf env v s)).
Proof.
  intros Hs. destruct v as [q|]; [|exact Hs].
  destruct (same_dim_dec env (aunits q) u_Wm2) as [H|H].
  - destruct (proj2 (to_mags_ok_iff env q _) H) as [m Hm].
    rewrite (set_erf_ok env s q m Hm). exact Hs.
  - rewrite set_erf_err by assumption. exact Hs.
Qed.

Lemma set_drivers_nan e s : tl_nan_inv s -> tl_nan_inv (fst (tl_set_drivers env e s)).
Proof. intros Hs. destruct e; cbn [tl_set_drivers]; try exact Hs; apply set_erf_nan, Hs. Qed.

Definition tl_inv (s : TL) : Prop := tl_coherent s /\ tl_nan_inv s.

Lemma tl_call_inv o s : tl_inv s -> tl_inv (fst (tl_call env parse_unit o s)).
Proof.
  intros [Hc Hs]. split; [apply tl_call_coherent, Hc|].
  destruct o; cbn [tl_call].
  - apply (set_nan Pdu), Hs.
  - apply (set_nan Pdl), Hs.
  - apply (set_nan Plambda0), Hs.
  - apply (set_nan Pa), Hs.
  - apply (set_nan Pefficacy), Hs.
  - apply (set_nan Peta), Hs.
  - apply (set_nan Pdelta_t), Hs.
  - apply set_erf_nan, Hs.
  - apply set_drivers_nan, Hs.
  - apply reset_nan_inv; assumption.
  - apply step_nan, Hs.
  - apply steps_nan, Hs.
  - rewrite forget_fst. apply (run_scenarios_keep env parse_unit (tl_variant env) tl_inv).
    + intros v s' []. split; [apply (tl_set_coherent Pdelta_t)|apply (set_nan Pdelta_t)]; assumption.
    + intros e s' []. split; [apply set_drivers_coherent|apply set_drivers_nan]; assumption.
    + intros s' []. split; [apply frame_coherent; auto using frame_reset|apply reset_nan_inv]; assumption.
    + intros s' []. split; [apply frame_coherent; auto using frame_run|apply steps_nan]; assumption.
    + split; assumption.
Qed.

Lemma tl_new_inv_holds g s : tl_new env g = Ok s -> tl_inv s.
Proof.
  intros H. destruct (tl_new_ok g (tl_new_inv g s H)) as (s' & E & C & _ & _ & E0 & E1 & E2 & E3).
  rewrite H in E. injection E as <-. split; [exact C|].
  unfold tl_nan_inv. rewrite E0, E1, E2, E3. cbn.
  repeat split; apply (all_nan_repeat 0 1).
Qed.

Theorem tl_reachable_inv s : tl_reachable env parse_unit s -> tl_inv s.
Proof.
  intros (g & s0 & ops & H & ->). apply tl_calls_inv.
  - exact tl_call_inv.
  - eapply tl_new_inv_holds, H.
Qed.

End TLH.
