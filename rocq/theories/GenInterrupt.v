(** Sessions with interrupted calls: what is not in doubt is as in sessions without. *)
From Coq Require Import List String QArith ZArith Bool Arith Lia.
From RecordUpdate Require Import RecordUpdate.
From Verif Require Import Arith Pint Base TwoLayer Impulse Scm Api Spec GenTL GenTLHist GenIR GenIRHist
  GenScm GenMeta GenRun GenRunInst GenLayout GenModel Interrupt SpecInterrupt InterruptProof.
Import ListNotations.

(** ** What holds when [run_scenarios] returns *)
Section Reach.
Context (env : Env) (pu : string -> option (Qty env)) (V : Variant env).
Variable P : v_state env V -> Prop.
Hypothesis Hre : forall s, P s -> P (fst (v_reset env V s)).
Hypothesis Hru : forall s, P s -> P (fst (v_run env V s)).
Hypothesis Hdr : forall e s, P s -> P (fst (v_set_drivers env V e s)).

Lemma reach_dt sc dv s s' out :
  (forall v s1, v_set_delta_t env V v s = (s1, Ok tt) -> P s1) ->
  run_scenarios env pu V sc dv s = (s', Ok out) -> P s'.
Proof.
  intros H. unfold run_scenarios. cbv [mbind mread].
  destruct (Nat.eqb _ 0); [discriminate|].
  destruct (select_timestep env (s_times env sc)) as [ts|x]; [|discriminate].
  destruct (v_set_delta_t env V (PQ ts) s) as [s1 [[]|x]] eqn:E; [|discriminate].
  apply H in E.
  destruct (has_dup _ _); [discriminate|].
  match goal with |- context [run_rows env pu V 0 ?t ?r s1] =>
    pose proof (run_rows_keep env pu V P Hdr Hre Hru t r 0 s1 E) as K;
    destruct (run_rows env pu V 0 t r s1) as [s2 [y|y]]; [|discriminate] end.
  destruct (has_dup _ _); [discriminate|]. intros [= <- _]. exact K.
Qed.

Lemma reach_drivers sc dv s s' out :
  (forall e s0 s1, v_set_drivers env V e s0 = (s1, Ok tt) -> P s1) ->
  run_scenarios env pu V sc dv s = (s', Ok out) -> P s'.
Proof.
  intros H. unfold run_scenarios. cbv [mbind mread].
  destruct (filter _ _) as [|r rs]; [discriminate|]. cbn [List.length Nat.eqb].
  destruct (select_timestep env (s_times env sc)) as [ts|x]; [|discriminate].
  destruct (v_set_delta_t env V (PQ ts) s) as [s1 [[]|x]] eqn:E; [|discriminate].
  destruct (has_dup _ _); [discriminate|]. cbn [map run_rows]. cbv [mbind].
  match goal with |- context [run_row env pu V 0 ?t ?r s1] => set (rr := r) end.
  assert (K : forall s2 x, run_row env pu V 0 (s_times env sc) rr s1 = (s2, Ok x) -> P s2).
  { intros s2 x. unfold run_row. cbv [mbind mread].
    destruct (row_unit env pu rr) as [u|?]; [|discriminate].
    destruct (v_set_drivers env V _ s1) as [t1 [[]|?]] eqn:E1; [|discriminate].
    apply H in E1. pose proof (Hre t1 E1) as E2. destruct (v_reset env V t1) as [t2 [[]|?]]; [|discriminate].
    pose proof (Hru t2 E2) as E3. destruct (v_run env V t2) as [t3 [[]|?]]; [|discriminate].
    destruct (create_tss _ _ _ _); [|discriminate]. destruct (has_dup _ _); [discriminate|].
    intros [= <- _]. exact E3. }
  destruct (run_row env pu V 0 (s_times env sc) rr s1) as [s2 [x|x]]; [|discriminate].
  specialize (K s2 x eq_refl).
  match goal with |- context [run_rows env pu V 1 ?t ?r s2] =>
    pose proof (run_rows_keep env pu V P Hdr Hre Hru t r 1 s2 K) as K2;
    destruct (run_rows env pu V 1 t r s2) as [s3 [y|y]]; [|discriminate] end.
  cbv [mret]. destruct (has_dup _ _); [discriminate|]. intros [= <- _]. exact K2.
Qed.
End Reach.

(** ** Two-layer model *)
Section TLI.
Variable env : Env.
Variable pu : string -> option (Qty env).
Notation TL := (TL env).
Notation tl_set p := (tl_param_set env p).

(** The cached values of one attribute. *)
Definition tl_at (x : option tl_param) (s : TL) : Prop :=
  match x with
  | Some Pdu => to_mag env (tl_du env s) u_m = Ok (tl_du_mag env s) /\
                to_mag env (tl_heat_capacity_upper env s) u_JCm2 = Ok (tl_hcu_mag env s)
  | Some Pdl => to_mag env (tl_dl env s) u_m = Ok (tl_dl_mag env s) /\
                to_mag env (tl_heat_capacity_lower env s) u_JCm2 = Ok (tl_hcl_mag env s)
  | Some Plambda0 => to_mag env (tl_lambda0 env s) u_Wm2C = Ok (tl_lambda0_mag env s)
  | Some Pa => to_mag env (tl_a env s) u_Wm2C2 = Ok (tl_a_mag env s)
  | Some Pefficacy => to_mag env (tl_efficacy env s) u_none = Ok (tl_efficacy_mag env s)
  | Some Peta => to_mag env (tl_eta env s) u_Wm2C = Ok (tl_eta_mag env s)
  | Some Pdelta_t => to_mag env (tl_delta_t env s) u_s = Ok (tl_delta_t_mag env s)
  | None => match tl_erf env s, tl_erf_mag env s with
            | None, None => True
            | Some q, Some m => to_mags env q u_Wm2 = Ok m
            | _, _ => False
            end
  end.
Lemma tl_at_all s : tl_coherent env s <-> forall x, tl_at x s.
Proof.
  split.
  - intros [] [[]|]; cbn; auto.
  - intros H. pose proof (H (Some Pdu)) as [? ?]. pose proof (H (Some Pdl)) as [? ?].
    constructor; auto.
    + apply (H (Some Plambda0)).
    + apply (H (Some Pa)).
    + apply (H (Some Pefficacy)).
    + apply (H (Some Peta)).
    + apply (H (Some Pdelta_t)).
    + apply (H None).
Qed.
Lemma tl_at_run x s i U L R : tl_at x s -> tl_at x (with_run env s i U L R).
Proof. destruct x as [[]|]; exact (fun H => H). Qed.
Lemma tl_at_frame x m : frame env m -> forall s, tl_at x s -> tl_at x (fst (m s)).
Proof. intros F s H. destruct (F s) as (i & U & L & R & ->). apply tl_at_run, H. Qed.

(** Calls that do not assign [x] keep it wherever they stop. *)
Lemma itl_set_keep p v x : x <> Some p -> ikept (tl_at x) (match p with
    | Pdu => itl_set_du env | Pdl => itl_set_dl env | Plambda0 => itl_set_lambda0 env
    | Pa => itl_set_a env | Pefficacy => itl_set_efficacy env | Peta => itl_set_eta env
    | Pdelta_t => itl_set_delta_t env end v).
Proof.
  intros N. destruct p, x as [[]|]; try congruence; ikept_auto; match goal with H : tl_at _ ?s |- _ => exact H end.
Qed.
Lemma itl_set_erf_keep v p : ikept (tl_at (Some p)) (itl_set_erf env v).
Proof. destruct p; ikept_auto; match goal with H : tl_at _ ?s |- _ => exact H end. Qed.
Lemma itl_set_drivers_keep e p : ikept (tl_at (Some p)) (itl_set_drivers env e).
Proof. destruct e; cbn [itl_set_drivers]; try apply ikept_raise; apply itl_set_erf_keep. Qed.
Lemma itl_reset_keep x : ikept (tl_at x) (itl_reset env).
Proof.
  unfold itl_reset. apply ikept_bind; [apply ikept_read|]. intros [|]; [apply ikept_raise|].
  destruct x as [[]|]; cbv zeta; ikept_auto; match goal with H : tl_at _ ?s |- _ => exact H end.
Qed.
Lemma itl_step_keep x : ikept (tl_at x) (itl_step env).
Proof.
  assert (W : forall f, (forall s, exists i U L R, f s = with_run env s i U L R) -> ikept (tl_at x) (iwrite f)).
  { intros f F. apply ikept_write. intros s H. destruct (F s) as (i & U & L & R & ->). apply tl_at_run, H. }
  assert (PU : forall i v, ikept (tl_at x) (itl_put_upper env i v)).
  { intros i v. apply ikept_bind; [apply ikept_read|]. intros l. apply W. intros s.
    exists (tl_idx env s), l, (tl_temp_lower env s), (tl_rndt env s). destruct s; reflexivity. }
  assert (PL : forall i v, ikept (tl_at x) (itl_put_lower env i v)).
  { intros i v. apply ikept_bind; [apply ikept_read|]. intros l. apply W. intros s.
    exists (tl_idx env s), (tl_temp_upper env s), l, (tl_rndt env s). destruct s; reflexivity. }
  assert (PR : forall i v, ikept (tl_at x) (itl_put_rndt env i v)).
  { intros i v. apply ikept_bind; [apply ikept_read|]. intros l. apply W. intros s.
    exists (tl_idx env s), (tl_temp_upper env s), (tl_temp_lower env s), l. destruct s; reflexivity. }
  unfold itl_step. apply ikept_bind.
  { apply W. intros s. eexists _, (tl_temp_upper env s), (tl_temp_lower env s), (tl_rndt env s). destruct s; reflexivity. }
  intros _. apply ikept_bind; [apply ikept_read|]. intros [|j]; cbn [itl_step_at].
  - apply ikept_bind; [apply PU|intros _]. apply ikept_bind; [apply PL|intros _]. apply PR.
  - apply ikept_bind; [apply ikept_read|intros ?]. apply ikept_bind; [apply PU|intros _].
    apply ikept_bind; [apply ikept_read|intros ?]. apply ikept_bind; [apply PL|intros _].
    apply ikept_bind; [apply ikept_read|intros ?]. apply PR.
Qed.
Lemma itl_run_keep x : ikept (tl_at x) (itl_run env).
Proof.
  intros k s. unfold itl_run. generalize (tl_erf_len env s). intros n. revert k s.
  induction n as [|n IH]; [apply ikept_ret|]. apply ikept_bind; [apply itl_step_keep|]. intros _. exact IH.
Qed.
Lemma iforget_keep {S A} (P : S -> Prop) (m : IMeth S A) : ikept P m -> ikept P (iforget m).
Proof. intros H. apply ikept_bind; [exact H|]. intros a. apply ikept_ret. Qed.
Lemma itl_call_keep o x : tl_assigns o x = false -> ikept (tl_at x) (itl_call env pu o).
Proof.
  intros H. destruct o; cbn [itl_call].
  - apply (itl_set_keep Pdu). intros ->. discriminate H.
  - apply (itl_set_keep Pdl). intros ->. discriminate H.
  - apply (itl_set_keep Plambda0). intros ->. discriminate H.
  - apply (itl_set_keep Pa). intros ->. discriminate H.
  - apply (itl_set_keep Pefficacy). intros ->. discriminate H.
  - apply (itl_set_keep Peta). intros ->. discriminate H.
  - apply (itl_set_keep Pdelta_t). intros ->. discriminate H.
  - destruct x as [p|]; [apply itl_set_erf_keep|discriminate].
  - destruct x as [p|]; [apply itl_set_drivers_keep|discriminate].
  - apply itl_reset_keep.
  - apply itl_step_keep.
  - apply itl_run_keep.
  - destruct x as [p|]; [|discriminate]. apply iforget_keep.
    apply (ikept_run_scenarios env pu (tl_variant env) (tl_at (Some p))).
    + intros v. apply (itl_set_keep Pdelta_t). intros [= ->]. discriminate H.
    + intros e. apply itl_set_drivers_keep.
    + apply itl_reset_keep.
    + apply itl_run_keep.
Qed.
Lemma tl_call_keep_other o x s : tl_assigns o x = false -> tl_at x s -> tl_at x (fst (tl_call env pu o s)).
Proof.
  intros H Hs. pose proof (itl_call_keep o x H None s Hs) as K.
  rewrite (proj1 (counted_itl_call env pu o)) in K. exact K.
Qed.

(** Calls that end by themselves keep everything, and settle what they assign. *)
Lemma tl_set_at p v s s' : tl_set p v s = (s', Ok tt) -> tl_at (Some p) s'.
Proof.
  intros H. destruct (set_cases env p v s) as [(q & s1 & -> & D & E)|[_ E]]; [|rewrite E in H; discriminate].
  assert (EA : assert_quantity env (PQ q) (tl_param_unit p) = Ok q).
  { rewrite assert_quantity_spec. destruct (same_dim_dec env (units q) (tl_param_unit p)); [reflexivity|contradiction]. }
  destruct (proj2 (to_mag_ok_iff env q _) D) as [m Hm].
  assert (HC : forall u, u = u_m -> same_dim env (units q) u -> exists h,
             to_mag env (qmul env (qmul env q (DENSITY_WATER env)) (HEAT_CAPACITY_WATER env)) u_JCm2 = Ok h).
  { intros u -> Hd. apply to_mag_ok_iff, heat_capacity_dim, Hd. }
  clear E. revert H. destruct p; cbn [tl_param_set tl_param_unit] in *;
    unfold tl_set_du, tl_set_dl, tl_set_lambda0, tl_set_a, tl_set_efficacy, tl_set_eta, tl_set_delta_t;
    cbv [mbind mread mmod mret mraise]; cbn [bind]; rewrite EA; cbv beta iota; rewrite Hm; cbv beta iota;
    try (destruct (HC _ eq_refl D) as [h Hh];
         unfold tl_heat_capacity_upper, tl_heat_capacity_lower; cbn [tl_du tl_dl set]; rewrite Hh);
    intros [= <-]; cbn; auto.
Qed.
Lemma tl_set_at_keep p v x s : tl_at x s -> tl_at x (fst (tl_set p v s)).
Proof.
  intros Hs. destruct (set_cases env p v s) as [(q & s1 & -> & D & E)|[_ E]].
  - assert (Dx : {x = Some p} + {x <> Some p}) by (decide equality; decide equality).
    destruct Dx as [->|N].
    + rewrite E. cbn [fst]. eapply tl_set_at, E.
    + pose proof (itl_set_keep p (PQ q) x N None s Hs) as K.
      rewrite (proj1 (counted_itl_set env p (PQ q))) in K. exact K.
  - rewrite E. exact Hs.
Qed.
Lemma tl_erf_at_ok v s s' : tl_set_erf env v s = (s', Ok tt) -> tl_at None s'.
Proof.
  destruct v as [q|]; [|discriminate].
  destruct (same_dim_dec env (aunits q) u_Wm2) as [H|H].
  - destruct (proj2 (to_mags_ok_iff env q _) H) as [m Hm].
    rewrite (set_erf_ok env s q m Hm). intros [= <-]. exact Hm.
  - rewrite set_erf_err by assumption. discriminate.
Qed.
Lemma tl_erf_at_keep v x s : tl_at x s -> tl_at x (fst (tl_set_erf env v s)).
Proof.
  intros Hs. destruct x as [p|].
  - pose proof (itl_set_erf_keep v p None s Hs) as K. rewrite (proj1 (counted_itl_set_erf env v)) in K. exact K.
  - destruct (tl_set_erf env v s) as [s' [[]|e]] eqn:E; [eapply tl_erf_at_ok, E|].
    destruct v as [q|]; [|injection E as <- _; exact Hs].
    destruct (same_dim_dec env (aunits q) u_Wm2) as [H|H].
    + destruct (proj2 (to_mags_ok_iff env q _) H) as [m Hm]. rewrite (set_erf_ok env s q m Hm) in E. discriminate.
    + rewrite set_erf_err in E by assumption. injection E as <- _. exact Hs.
Qed.
Lemma tl_drivers_at_ok e s s' : tl_set_drivers env e s = (s', Ok tt) -> tl_at None s'.
Proof. destruct e; cbn [tl_set_drivers]; try discriminate; apply tl_erf_at_ok. Qed.
Lemma tl_drivers_at_keep e x s : tl_at x s -> tl_at x (fst (tl_set_drivers env e s)).
Proof. intros H. destruct e; cbn [tl_set_drivers]; try exact H; apply tl_erf_at_keep, H. Qed.

Lemma tl_call_keep o x s : tl_at x s -> tl_at x (fst (tl_call env pu o s)).
Proof.
  intros Hs. destruct o; cbn [tl_call].
  - apply (tl_set_at_keep Pdu), Hs.
  - apply (tl_set_at_keep Pdl), Hs.
  - apply (tl_set_at_keep Plambda0), Hs.
  - apply (tl_set_at_keep Pa), Hs.
  - apply (tl_set_at_keep Pefficacy), Hs.
  - apply (tl_set_at_keep Peta), Hs.
  - apply (tl_set_at_keep Pdelta_t), Hs.
  - apply tl_erf_at_keep, Hs.
  - apply tl_drivers_at_keep, Hs.
  - apply tl_at_frame; auto using frame_reset.
  - apply tl_at_frame; auto using frame_step.
  - apply tl_at_frame; auto using frame_run.
  - rewrite forget_fst. apply (run_scenarios_keep env pu (tl_variant env) (tl_at x)).
    + intros v s'. apply (tl_set_at_keep Pdelta_t).
    + intros e s'. apply tl_drivers_at_keep.
    + intros s'. apply tl_at_frame, frame_reset.
    + intros s'. apply tl_at_frame, frame_run.
    + exact Hs.
Qed.
Lemma tl_call_settles o x s s' : tl_assigns o x = true -> tl_call env pu o s = (s', Ok tt) -> tl_at x s'.
Proof.
  intros A H. destruct o, x as [[]|]; try discriminate A; cbn [tl_call] in H;
    [eapply (tl_set_at Pdu), H | eapply (tl_set_at Pdl), H | eapply (tl_set_at Plambda0), H
    | eapply (tl_set_at Pa), H | eapply (tl_set_at Pefficacy), H | eapply (tl_set_at Peta), H
    | eapply (tl_set_at Pdelta_t), H | eapply tl_erf_at_ok, H | eapply tl_drivers_at_ok, H | | ].
  - cbv [forget mbind mret] in H. destruct (run_scenarios env pu (tl_variant env) _ _ s) as [s1 [out|e]] eqn:E; [|discriminate].
    injection H as <-. eapply (reach_dt env pu (tl_variant env)); [..|exact E].
    + intros t. apply tl_at_frame, frame_reset.
    + intros t. apply tl_at_frame, frame_run.
    + intros e t. apply tl_drivers_at_keep.
    + intros v t K. eapply (tl_set_at Pdelta_t), K.
  - cbv [forget mbind mret] in H. destruct (run_scenarios env pu (tl_variant env) _ _ s) as [s1 [out|e]] eqn:E; [|discriminate].
    injection H as <-. eapply (reach_drivers env pu (tl_variant env)); [..|exact E].
    + intros t. apply tl_at_frame, frame_reset.
    + intros t. apply tl_at_frame, frame_run.
    + intros e t. apply tl_drivers_at_keep.
    + intros e t t'. apply tl_drivers_at_ok.
Qed.

Theorem tl_session_at s D : tl_session env pu s D -> forall x, D x = false -> tl_at x s.
Proof.
  induction 1 as [g s H|s D o s' _ IH H|s D o s' e _ IH H|s D o k s' _ IH H]; intros x Hx.
  - apply tl_at_all. eapply tl_new_coherent, H.
  - apply andb_false_iff in Hx as [Hx|Hx].
    + pose proof (tl_call_keep o x s (IH x Hx)) as K. rewrite H in K. exact K.
    + apply negb_false_iff in Hx. eapply tl_call_settles; eassumption.
  - pose proof (tl_call_keep o x s (IH x Hx)) as K. rewrite H in K. exact K.
  - apply orb_false_iff in Hx as [Hx Ho]. destruct H as [<- _].
    exact (itl_call_keep o x Ho (Some k) s (IH x Hx)).
Qed.

(** Driving does not look at the driver and the results there were. *)
Definition tl_clear (s : TL) : TL := with_erf env s None None.
Lemma tl_clear_coherent s : (forall p, tl_at (Some p) s) -> tl_coherent env (tl_clear s).
Proof. intros H. apply tl_at_all. intros [p|]; [|exact I]. specialize (H p). destruct p; exact H. Qed.
Lemma tl_drive_clear s e :
  snd (tl_drive env e s) = snd (tl_drive env e (tl_clear s)) /\ (snd (tl_drive env e s) = Ok tt -> fst (tl_drive env e s) = fst (tl_drive env e (tl_clear s))).
Proof.
  destruct (same_dim_dec env (aunits e) u_Wm2) as [H|H].
  - apply to_mags_ok_iff in H as [m Hm].
    destruct (existsb (nisnan env) (mags e)) eqn:Hn.
    + rewrite !(drive_nan env _ e m Hm Hn). split; [reflexivity|discriminate].
    + rewrite !(drive_ok env _ e m Hm Hn). split; reflexivity.
  - rewrite !drive_unit by assumption. split; [reflexivity|discriminate].
Qed.
Definition tl_Rel' (s s0 : TL) : Prop := tl_Rel env (tl_clear s) (tl_clear s0).
Lemma tl_Rel'_drive s s0 e : tl_Rel' s s0 ->
  snd (tl_drive env e s) = snd (tl_drive env e s0) /\ (snd (tl_drive env e s) = Ok tt -> fst (tl_drive env e s) = fst (tl_drive env e s0)).
Proof.
  intros (C & C0 & V). destruct (tl_drive_indep env _ _ e C C0 V) as [A B].
  destruct (tl_drive_clear s e) as [A1 B1], (tl_drive_clear s0 e) as [A2 B2]. split; [congruence|].
  intros K. rewrite (B1 K). rewrite A1 in K. rewrite (B K). symmetry. apply B2. congruence.
Qed.
Lemma tl_at_clear p s : tl_at (Some p) (tl_clear s) <-> tl_at (Some p) s.
Proof. destruct p; split; exact (fun H => H). Qed.
Lemma tl_Rel'_after s s0 e : tl_Rel' s s0 -> tl_Rel' (fst (tl_drive env e s)) s0.
Proof.
  intros (C & C0 & V). split; [|split; [exact C0|]].
  - apply tl_clear_coherent. intros p.
    pose proof (proj1 (tl_at_clear p s) (proj1 (tl_at_all _) C (Some p))) as H.
    destruct (tl_drive_cases env s e) as [[_ ->]|[(m & Hm & _ & ->)|(m & Hm & _ & ->)]];
      destruct p; exact H.
  - intros p. pose proof (tl_drive_visible env e s p) as K. specialize (V p). destruct p; cbn in *; congruence.
Qed.
End TLI.

(** ** Impulse-response model *)
Section IRI.
Variable env : Env.
Variable pu : string -> option (Qty env).
Notation IR := (IR env).
Notation ir_set p := (ir_param_set env p).

(** The cached values of one attribute. *)
Definition ir_at (x : option ir_param) (s : IR) : Prop :=
  match x with
  | Some Pq1 => to_mag env (ir_q1 env s) u_CWm2 = Ok (ir_q1_mag env s)
  | Some Pq2 => to_mag env (ir_q2 env s) u_CWm2 = Ok (ir_q2_mag env s)
  | Some Pd1 => to_mag env (ir_d1 env s) u_yr = Ok (ir_d1_mag env s)
  | Some Pd2 => to_mag env (ir_d2 env s) u_yr = Ok (ir_d2_mag env s)
  | Some Peff => to_mag env (ir_efficacy env s) u_none = Ok (ir_efficacy_mag env s)
  | Some Pdt => to_mag env (ir_delta_t env s) u_yr = Ok (ir_delta_t_mag env s)
  | None => match ir_erf env s, ir_erf_mag env s with
            | None, None => True
            | Some q, Some m => to_mags env q u_Wm2 = Ok m
            | _, _ => False
            end
  end.
Lemma ir_at_all s : ir_coherent env s <-> forall x, ir_at x s.
Proof.
  split.
  - intros [] [[]|]; cbn; auto.
  - intros H. constructor.
    + apply (H (Some Pq1)).
    + apply (H (Some Pq2)).
    + apply (H (Some Pd1)).
    + apply (H (Some Pd2)).
    + apply (H (Some Peff)).
    + apply (H (Some Pdt)).
    + apply (H None).
Qed.
Lemma ir_at_run x s i U L R : ir_at x s -> ir_at x (iwith_run env s i U L R).
Proof. destruct x as [[]|]; exact (fun H => H). Qed.
Lemma ir_at_frame x m : iframe env m -> forall s, ir_at x s -> ir_at x (fst (m s)).
Proof. intros F s H. destruct (F s) as (i & U & L & R & ->). apply ir_at_run, H. Qed.

(** Calls that do not assign [x] keep it wherever they stop. *)
Lemma iir_set_keep p v x : x <> Some p -> ikept (ir_at x) (match p with
    | Pq1 => iir_set_q1 env | Pq2 => iir_set_q2 env | Pd1 => iir_set_d1 env
    | Pd2 => iir_set_d2 env | Peff => iir_set_efficacy env | Pdt => iir_set_delta_t env end v).
Proof.
  intros N. destruct p, x as [[]|]; try congruence; ikept_auto; match goal with H : ir_at _ ?s |- _ => exact H end.
Qed.
Lemma iir_set_erf_keep v p : ikept (ir_at (Some p)) (iir_set_erf env v).
Proof. destruct p; ikept_auto; match goal with H : ir_at _ ?s |- _ => exact H end. Qed.
Lemma iir_set_drivers_keep e p : ikept (ir_at (Some p)) (iir_set_drivers env e).
Proof. destruct e; cbn [iir_set_drivers]; try apply ikept_raise; apply iir_set_erf_keep. Qed.
Lemma iir_reset_keep x : ikept (ir_at x) (iir_reset env).
Proof.
  unfold iir_reset. apply ikept_bind; [apply ikept_read|]. intros [|]; [apply ikept_raise|].
  destruct x as [[]|]; cbv zeta; ikept_auto; match goal with H : ir_at _ ?s |- _ => exact H end.
Qed.
Lemma iir_step_keep x : ikept (ir_at x) (iir_step env).
Proof.
  assert (W : forall f, (forall s, exists i U L R, f s = iwith_run env s i U L R) -> ikept (ir_at x) (iwrite f)).
  { intros f F. apply ikept_write. intros s H. destruct (F s) as (i & U & L & R & ->). apply ir_at_run, H. }
  assert (PU : forall i v, ikept (ir_at x) (iir_put_temp1 env i v)).
  { intros i v. apply ikept_bind; [apply ikept_read|]. intros l. apply W. intros s.
    exists (ir_idx env s), l, (ir_temp2 env s), (ir_rndt env s). destruct s; reflexivity. }
  assert (PL : forall i v, ikept (ir_at x) (iir_put_temp2 env i v)).
  { intros i v. apply ikept_bind; [apply ikept_read|]. intros l. apply W. intros s.
    exists (ir_idx env s), (ir_temp1 env s), l, (ir_rndt env s). destruct s; reflexivity. }
  assert (PR : forall i v, ikept (ir_at x) (iir_put_rndt env i v)).
  { intros i v. apply ikept_bind; [apply ikept_read|]. intros l. apply W. intros s.
    exists (ir_idx env s), (ir_temp1 env s), (ir_temp2 env s), l. destruct s; reflexivity. }
  unfold iir_step. apply ikept_bind.
  { apply W. intros s. eexists _, (ir_temp1 env s), (ir_temp2 env s), (ir_rndt env s). destruct s; reflexivity. }
  intros _. apply ikept_bind; [apply ikept_read|]. intros [|j]; cbn [iir_step_at].
  - apply ikept_bind; [apply PU|intros _]. apply ikept_bind; [apply PL|intros _]. apply PR.
  - apply ikept_bind; [apply ikept_read|intros ?]. apply ikept_bind; [apply PU|intros _].
    apply ikept_bind; [apply ikept_read|intros ?]. apply ikept_bind; [apply PL|intros _].
    apply ikept_bind; [apply ikept_read|intros ?]. apply PR.
Qed.
Lemma iir_run_keep x : ikept (ir_at x) (iir_run env).
Proof.
  intros k s. unfold iir_run. generalize (ir_erf_len env s). intros n. revert k s.
  induction n as [|n IH]; [apply ikept_ret|]. apply ikept_bind; [apply iir_step_keep|]. intros _. exact IH.
Qed.
Lemma iir_call_keep o x : ir_assigns o x = false -> ikept (ir_at x) (iir_call env pu o).
Proof.
  intros H. destruct o; cbn [iir_call].
  - apply (iir_set_keep Pq1). intros ->. discriminate H.
  - apply (iir_set_keep Pq2). intros ->. discriminate H.
  - apply (iir_set_keep Pd1). intros ->. discriminate H.
  - apply (iir_set_keep Pd2). intros ->. discriminate H.
  - apply (iir_set_keep Peff). intros ->. discriminate H.
  - apply (iir_set_keep Pdt). intros ->. discriminate H.
  - destruct x as [p|]; [apply iir_set_erf_keep|discriminate].
  - destruct x as [p|]; [apply iir_set_drivers_keep|discriminate].
  - apply iir_reset_keep.
  - apply iir_step_keep.
  - apply iir_run_keep.
  - destruct x as [p|]; [|discriminate]. apply iforget_keep.
    apply (ikept_run_scenarios env pu (ir_variant env) (ir_at (Some p))).
    + intros v. apply (iir_set_keep Pdt). intros [= ->]. discriminate H.
    + intros e. apply iir_set_drivers_keep.
    + apply iir_reset_keep.
    + apply iir_run_keep.
Qed.
Lemma ir_call_keep_other o x s : ir_assigns o x = false -> ir_at x s -> ir_at x (fst (ir_call env pu o s)).
Proof.
  intros H Hs. pose proof (iir_call_keep o x H None s Hs) as K.
  rewrite (proj1 (counted_iir_call env pu o)) in K. exact K.
Qed.

(** Calls that end by themselves keep everything, and settle what they assign. *)
Lemma ir_set_at p v s s' : ir_set p v s = (s', Ok tt) -> ir_at (Some p) s'.
Proof.
  intros H. destruct (iset_cases env p v s) as [(q & s1 & -> & D & E)|[_ E]]; [|rewrite E in H; discriminate].
  assert (EA : assert_quantity env (PQ q) (ir_param_unit p) = Ok q).
  { rewrite assert_quantity_spec. destruct (same_dim_dec env (units q) (ir_param_unit p)); [reflexivity|contradiction]. }
  destruct (proj2 (to_mag_ok_iff env q _) D) as [m Hm].
  clear E. revert H. destruct p; cbn [ir_param_set ir_param_unit] in *;
    unfold ir_set_q1, ir_set_q2, ir_set_d1, ir_set_d2, ir_set_efficacy, ir_set_delta_t;
    cbv [mbind mread mmod mret mraise]; cbn [bind]; rewrite EA; cbv beta iota; rewrite Hm; cbv beta iota;
    intros [= <-]; cbn; auto.
Qed.
Lemma ir_set_at_keep p v x s : ir_at x s -> ir_at x (fst (ir_set p v s)).
Proof.
  intros Hs. destruct (iset_cases env p v s) as [(q & s1 & -> & D & E)|[_ E]].
  - assert (Dx : {x = Some p} + {x <> Some p}) by (decide equality; decide equality).
    destruct Dx as [->|N].
    + rewrite E. cbn [fst]. eapply ir_set_at, E.
    + pose proof (iir_set_keep p (PQ q) x N None s Hs) as K.
      rewrite (proj1 (counted_iir_set env p (PQ q))) in K. exact K.
  - rewrite E. exact Hs.
Qed.
Lemma ir_erf_at_ok v s s' : ir_set_erf env v s = (s', Ok tt) -> ir_at None s'.
Proof.
  destruct v as [q|]; [|discriminate].
  destruct (same_dim_dec env (aunits q) u_Wm2) as [H|H].
  - destruct (proj2 (to_mags_ok_iff env q _) H) as [m Hm].
    rewrite (iset_erf_ok env s q m Hm). intros [= <-]. exact Hm.
  - rewrite iset_erf_err by assumption. discriminate.
Qed.
Lemma ir_erf_at_keep v x s : ir_at x s -> ir_at x (fst (ir_set_erf env v s)).
Proof.
  intros Hs. destruct x as [p|].
  - pose proof (iir_set_erf_keep v p None s Hs) as K. rewrite (proj1 (counted_iir_set_erf env v)) in K. exact K.
  - destruct (ir_set_erf env v s) as [s' [[]|e]] eqn:E; [eapply ir_erf_at_ok, E|].
    destruct v as [q|]; [|injection E as <- _; exact Hs].
    destruct (same_dim_dec env (aunits q) u_Wm2) as [H|H].
    + destruct (proj2 (to_mags_ok_iff env q _) H) as [m Hm]. rewrite (iset_erf_ok env s q m Hm) in E. discriminate.
    + rewrite iset_erf_err in E by assumption. injection E as <- _. exact Hs.
Qed.
Lemma ir_drivers_at_ok e s s' : ir_set_drivers env e s = (s', Ok tt) -> ir_at None s'.
Proof. destruct e; cbn [ir_set_drivers]; try discriminate; apply ir_erf_at_ok. Qed.
Lemma ir_drivers_at_keep e x s : ir_at x s -> ir_at x (fst (ir_set_drivers env e s)).
Proof. intros H. destruct e; cbn [ir_set_drivers]; try exact H; apply ir_erf_at_keep, H. Qed.

Lemma ir_call_keep o x s : ir_at x s -> ir_at x (fst (ir_call env pu o s)).
Proof.
  intros Hs. destruct o; cbn [ir_call].
  - apply (ir_set_at_keep Pq1), Hs.
  - apply (ir_set_at_keep Pq2), Hs.
  - apply (ir_set_at_keep Pd1), Hs.
  - apply (ir_set_at_keep Pd2), Hs.
  - apply (ir_set_at_keep Peff), Hs.
  - apply (ir_set_at_keep Pdt), Hs.
  - apply ir_erf_at_keep, Hs.
  - apply ir_drivers_at_keep, Hs.
  - apply ir_at_frame; auto using iframe_reset.
  - apply ir_at_frame; auto using iframe_step.
  - apply ir_at_frame; auto using iframe_run.
  - rewrite forget_fst. apply (run_scenarios_keep env pu (ir_variant env) (ir_at x)).
    + intros v s'. apply (ir_set_at_keep Pdt).
    + intros e s'. apply ir_drivers_at_keep.
    + intros s'. apply ir_at_frame, iframe_reset.
    + intros s'. apply ir_at_frame, iframe_run.
    + exact Hs.
Qed.
Lemma ir_call_settles o x s s' : ir_assigns o x = true -> ir_call env pu o s = (s', Ok tt) -> ir_at x s'.
Proof.
  intros A H. destruct o, x as [[]|]; try discriminate A; cbn [ir_call] in H;
    [eapply (ir_set_at Pq1), H | eapply (ir_set_at Pq2), H | eapply (ir_set_at Pd1), H
    | eapply (ir_set_at Pd2), H | eapply (ir_set_at Peff), H | eapply (ir_set_at Pdt), H | eapply ir_erf_at_ok, H | eapply ir_drivers_at_ok, H | | ].
  - cbv [forget mbind mret] in H. destruct (run_scenarios env pu (ir_variant env) _ _ s) as [s1 [out|e]] eqn:E; [|discriminate].
    injection H as <-. eapply (reach_dt env pu (ir_variant env)); [..|exact E].
    + intros t. apply ir_at_frame, iframe_reset.
    + intros t. apply ir_at_frame, iframe_run.
    + intros e t. apply ir_drivers_at_keep.
    + intros v t K. eapply (ir_set_at Pdt), K.
  - cbv [forget mbind mret] in H. destruct (run_scenarios env pu (ir_variant env) _ _ s) as [s1 [out|e]] eqn:E; [|discriminate].
    injection H as <-. eapply (reach_drivers env pu (ir_variant env)); [..|exact E].
    + intros t. apply ir_at_frame, iframe_reset.
    + intros t. apply ir_at_frame, iframe_run.
    + intros e t. apply ir_drivers_at_keep.
    + intros e t t'. apply ir_drivers_at_ok.
Qed.

Theorem ir_session_at s D : ir_session env pu s D -> forall x, D x = false -> ir_at x s.
Proof.
  induction 1 as [g s H|s D o s' _ IH H|s D o s' e _ IH H|s D o k s' _ IH H]; intros x Hx.
  - apply ir_at_all. eapply ir_new_coherent, H.
  - apply andb_false_iff in Hx as [Hx|Hx].
    + pose proof (ir_call_keep o x s (IH x Hx)) as K. rewrite H in K. exact K.
    + apply negb_false_iff in Hx. eapply ir_call_settles; eassumption.
  - pose proof (ir_call_keep o x s (IH x Hx)) as K. rewrite H in K. exact K.
  - apply orb_false_iff in Hx as [Hx Ho]. destruct H as [<- _].
    exact (iir_call_keep o x Ho (Some k) s (IH x Hx)).
Qed.

(** Driving does not look at the driver and the results there were. *)
Definition ir_clear (s : IR) : IR := iwith_erf env s None None.
Lemma ir_clear_coherent s : (forall p, ir_at (Some p) s) -> ir_coherent env (ir_clear s).
Proof. intros H. apply ir_at_all. intros [p|]; [|exact I]. specialize (H p). destruct p; exact H. Qed.
Lemma ir_drive_clear s e :
  snd (ir_drive env e s) = snd (ir_drive env e (ir_clear s)) /\
  (snd (ir_drive env e s) = Ok tt -> fst (ir_drive env e s) = fst (ir_drive env e (ir_clear s))).
Proof.
  destruct (same_dim_dec env (aunits e) u_Wm2) as [H|H].
  - apply to_mags_ok_iff in H as [m Hm].
    destruct (existsb (nisnan env) (mags e)) eqn:Hn.
    + rewrite !(idrive_nan env _ e m Hm Hn). split; [reflexivity|discriminate].
    + destruct (le_lt_dec (List.length m) 1) as [Hl|Hl].
      * set (hp := (nnan env, @None (num env * num env * num env))).
        rewrite !(idrive_ok env _ e m hp Hm Hn (or_introl Hl)). split; reflexivity.
      * destruct (step_status env s) as [hp|x] eqn:Hst.
        { rewrite (idrive_ok env s e m hp Hm Hn (or_intror Hst)).
          rewrite (idrive_ok env (ir_clear s) e m hp Hm Hn (or_intror Hst)).
          split; reflexivity. }
        { rewrite (idrive_err env s e m x Hm Hn Hl Hst).
          rewrite (idrive_err env (ir_clear s) e m x Hm Hn Hl Hst).
          split; [reflexivity|discriminate]. }
  - rewrite !idrive_unit by assumption. split; [reflexivity|discriminate].
Qed.
Definition ir_Rel' (s s0 : IR) : Prop := ir_Rel env (ir_clear s) (ir_clear s0).
Lemma ir_Rel'_drive s s0 e : ir_Rel' s s0 ->
  snd (ir_drive env e s) = snd (ir_drive env e s0) /\ (snd (ir_drive env e s) = Ok tt -> fst (ir_drive env e s) = fst (ir_drive env e s0)).
Proof.
  intros (C & C0 & V). destruct (ir_drive_indep env _ _ e C C0 V) as [A B].
  destruct (ir_drive_clear s e) as [A1 B1], (ir_drive_clear s0 e) as [A2 B2]. split; [congruence|].
  intros K. rewrite (B1 K). rewrite A1 in K. rewrite (B K). symmetry. apply B2. congruence.
Qed.
Lemma ir_at_clear p s : ir_at (Some p) (ir_clear s) <-> ir_at (Some p) s.
Proof. destruct p; split; exact (fun H => H). Qed.
Lemma ir_Rel'_after s s0 e : ir_Rel' s s0 -> ir_Rel' (fst (ir_drive env e s)) s0.
Proof.
  intros (C & C0 & V). split; [|split; [exact C0|]].
  - apply ir_clear_coherent. intros p.
    pose proof (proj1 (ir_at_clear p s) (proj1 (ir_at_all _) C (Some p))) as H.
    apply (ir_drive_keep env (ir_at (Some p))); [..|exact H]; intros s'.
    + apply ir_drivers_at_keep.
    + apply ir_at_frame, iframe_reset.
    + apply ir_at_frame, iframe_run.
  - intros p. pose proof (ir_drive_visible env e s p) as K. specialize (V p). destruct p; cbn in *; congruence.
Qed.
End IRI.

(** ** Both models: scenarios *)
Section GI.
Context (env : Env) (pu : string -> option (Qty env)).
Definition mclear (m : model) : state env m -> state env m :=
  match m return state env m -> state env m with Mtl => tl_clear env | Mir => ir_clear env end.
Definition mRel' (m : model) (s s0 : state env m) : Prop := mRel env m (mclear m s) (mclear m s0).
Lemma mRel'_drive m : forall s s0 e, mRel' m s s0 ->
  snd (v_drive env (variant env m) e s) = snd (v_drive env (variant env m) e s0) /\
  (snd (v_drive env (variant env m) e s) = Ok tt ->
   fst (v_drive env (variant env m) e s) = fst (v_drive env (variant env m) e s0)).
Proof. destruct m; [apply tl_Rel'_drive|apply ir_Rel'_drive]. Qed.
Lemma mRel'_after m : forall s s0 e, mRel' m s s0 -> mRel' m (fst (v_drive env (variant env m) e s)) s0.
Proof. destruct m; [apply tl_Rel'_after|apply ir_Rel'_after]. Qed.
Lemma mclear_sbd m s : same_but_delta_t env m (mclear m s) s.
Proof. destruct m; intros p _; destruct p; reflexivity. Qed.
Lemma mclear_dt m s : delta_t_of env m (mclear m s) = delta_t_of env m s.
Proof. destruct m; reflexivity. Qed.

Definition msettled (m : model) (s : state env m) : Prop :=
  forall q s1, v_set_delta_t env (variant env m) (PQ q) s = (s1, Ok tt) -> mcoh env m (mclear m s1).

Lemma scenarios_settled m (s s' : state env m) sc dv :
  msettled m s -> msettled m s' -> same_but_delta_t env m s s' ->
  snd (run_scn env pu m sc dv s) = snd (run_scn env pu m sc dv s').
Proof.
  intros H H' P. unfold run_scn.
  destruct (selected env dv sc) as [|r0 l0] eqn:Es.
  { rewrite !run_scenarios_eq, Es. reflexivity. }
  destruct (select_timestep env (s_times env sc)) as [ts|e] eqn:Et.
  2:{ rewrite !run_scenarios_eq, Es, Et. reflexivity. }
  destruct (same_dim_dec env (units ts) (mdt_unit m)) as [D|D].
  - destruct (mset_dt_ok env m s ts D) as (s1 & E1 & G1 & O1 & _).
    destruct (mset_dt_ok env m s' ts D) as (s1' & E1' & G1' & O1' & _).
    pose proof (H _ _ E1) as C1. pose proof (H' _ _ E1') as C1'.
    eapply (indep env pu (variant env m) (mRel' m) (mRel'_drive m) (mRel'_after m)).
    + rewrite Es. discriminate.
    + apply chosen_select, Et.
    + apply msave_same, P.
    + exact E1.
    + exact E1'.
    + apply mRel_refl; auto.
    + apply mRel_refl; auto.
    + apply mRel_intro; auto.
      * rewrite !mclear_dt. congruence.
      * eapply sbd_trans; [apply mclear_sbd|]. eapply sbd_trans; [exact O1|]. eapply sbd_trans; [exact P|].
        eapply sbd_trans; [apply sbd_sym, O1'|]. apply sbd_sym, mclear_sbd.
  - rewrite !run_scenarios_eq, Es, Et, !mset_dt_fail by exact D. reflexivity.
Qed.

Lemma tl_at_settled s : (forall p, p <> Pdelta_t -> tl_at env (Some p) s) -> msettled Mtl s.
Proof.
  intros H q s1 E. apply tl_clear_coherent. intros p.
  assert (Dp : {p = Pdelta_t} + {p <> Pdelta_t}) by decide equality.
  destruct Dp as [->|N]; [eapply (tl_set_at env Pdelta_t), E|].
  pose proof (tl_set_at_keep env Pdelta_t (PQ q) (Some p) s (H p N)) as K.
  change (tl_set_delta_t env (PQ q) s = (s1, Ok tt)) in E. cbn [tl_param_set] in K. rewrite E in K. exact K.
Qed.
Lemma ir_at_settled s : (forall p, p <> Pdt -> ir_at env (Some p) s) -> msettled Mir s.
Proof.
  intros H q s1 E. apply ir_clear_coherent. intros p.
  assert (Dp : {p = Pdt} + {p <> Pdt}) by decide equality.
  destruct Dp as [->|N]; [eapply (ir_set_at env Pdt), E|].
  pose proof (ir_set_at_keep env Pdt (PQ q) (Some p) s (H p N)) as K.
  change (ir_set_delta_t env (PQ q) s = (s1, Ok tt)) in E. cbn [ir_param_set] in K. rewrite E in K. exact K.
Qed.
Lemma reach_settled m s : reachable env pu m s -> msettled m s.
Proof.
  intros H. apply mcoh_reach in H. destruct m.
  - apply tl_at_settled. intros p _. apply tl_at_all, H.
  - apply ir_at_settled. intros p _. apply ir_at_all, H.
Qed.
Lemma tl_session_settled s D : tl_session env pu s D -> (forall p, p <> Pdelta_t -> D (Some p) = false) -> msettled Mtl s.
Proof. intros H K. apply tl_at_settled. intros p N. eapply tl_session_at; [exact H|]. apply K, N. Qed.
Lemma ir_session_settled s D : ir_session env pu s D -> (forall p, p <> Pdt -> D (Some p) = false) -> msettled Mir s.
Proof. intros H K. apply ir_at_settled. intros p N. eapply ir_session_at; [exact H|]. apply K, N. Qed.
End GI.
