(** Property C67: interrupted calls. *)
From Coq Require Import List String QArith ZArith Bool Arith Lia.
From RecordUpdate Require Import RecordUpdate.
From Verif Require Import Arith Pint Base TwoLayer Impulse Scm Api Spec Demo GenTL GenTLHist GenIR GenIRHist
  GenScm GenMeta GenRun GenRunInst GenLayout GenModel Interrupt SpecInterrupt InterruptProof InterruptRun GenInterrupt FactsRun.
Import ListNotations.

(** ** Without interruption *)
Lemma counted_spec {S A} (im : IMeth S A) m s : counted im m ->
  (object_after (im None s) = fst (m s) /\ how_ended (im None s) = Fin (snd (m s))) /\
  exists n, forall k,
    ((n <= k)%nat -> object_after (im (Some k) s) = fst (m s) /\ how_ended (im (Some k) s) = Fin (snd (m s))) /\
    ((k < n)%nat -> how_ended (im (Some k) s) = Stopped).
Proof.
  intros [N C]. split; [unfold object_after, how_ended; rewrite N; auto|].
  destruct (C s) as (n & P & Q). exists n. intros k. split; intros H.
  - replace k with (n + (k - n))%nat by lia. unfold object_after, how_ended. rewrite P. auto.
  - destruct (Q k H) as (s' & E). unfold how_ended. rewrite E. reflexivity.
Qed.

(** A call that is not interrupted is the call of the model.  A call makes some number
    of writes; interrupted before the last of them it stops, otherwise it ends by itself. *)
Theorem c67_uninterrupted_two_layer : forall (env : Env) parse_unit (o : TLOp env) s,
  let m := tl_call env parse_unit o in let im := itl_call env parse_unit o in
  (object_after (im None s) = fst (m s) /\ how_ended (im None s) = Fin (snd (m s))) /\
  exists n, forall k,
    ((n <= k)%nat -> object_after (im (Some k) s) = fst (m s) /\ how_ended (im (Some k) s) = Fin (snd (m s))) /\
    ((k < n)%nat -> how_ended (im (Some k) s) = Stopped).
Proof. intros env pu o s. apply counted_spec, counted_itl_call. Qed.
Theorem c67_uninterrupted_impulse_response : forall (env : Env) parse_unit (o : IROp env) s,
  let m := ir_call env parse_unit o in let im := iir_call env parse_unit o in
  (object_after (im None s) = fst (m s) /\ how_ended (im None s) = Fin (snd (m s))) /\
  exists n, forall k,
    ((n <= k)%nat -> object_after (im (Some k) s) = fst (m s) /\ how_ended (im (Some k) s) = Fin (snd (m s))) /\
    ((k < n)%nat -> how_ended (im (Some k) s) = Stopped).
Proof. intros env pu o s. apply counted_spec, counted_iir_call. Qed.

(** ** Nothing in doubt *)

(** If no parameter is in doubt, driving the object gives what it gives on a new
    object with the parameters the object shows. *)
Theorem c67_two_layer_settled : forall (env : Env) parse_unit s D e,
  tl_session env parse_unit s D -> (forall p, D (Some p) = false) ->
  exists s0, tl_new env (tl_args_of env s) = Ok s0 /\
    snd (tl_drive env e s) = snd (tl_drive env e s0) /\
    (snd (tl_drive env e s) = Ok tt -> fst (tl_drive env e s) = fst (tl_drive env e s0)).
Proof.
  intros env pu s D e H K.
  assert (A : forall p, tl_at env (Some p) s) by (intros p; eapply tl_session_at; [exact H|apply K]).
  pose proof (tl_clear_coherent env s A) as C.
  destruct (tl_rebuild env (tl_clear env s) C) as (s0 & E & Es).
  change (tl_args_of env (tl_clear env s)) with (tl_args_of env s) in E.
  exists s0. split; [exact E|]. apply tl_Rel'_drive. split; [exact C|].
  pose proof (tl_new_coherent env _ _ E) as C0. split.
  - apply tl_clear_coherent. intros p. apply tl_at_all, C0.
  - intros p. rewrite Es. destruct p; reflexivity.
Qed.

(** The same for the other class: any object without interrupted calls in its history
    that shows the same parameters (a new one where the constructor accepts them). *)
Theorem c67_impulse_response_settled : forall (env : Env) parse_unit s D s0 e,
  ir_session env parse_unit s D -> (forall p, D (Some p) = false) ->
  ir_reachable env parse_unit s0 -> ir_same_visible env s s0 ->
  snd (ir_drive env e s) = snd (ir_drive env e s0) /\
  (snd (ir_drive env e s) = Ok tt -> fst (ir_drive env e s) = fst (ir_drive env e s0)).
Proof.
  intros env pu s D s0 e H K R V.
  assert (A : forall p, ir_at env (Some p) s) by (intros p; eapply ir_session_at; [exact H|apply K]).
  pose proof (ir_clear_coherent env s A) as C. apply ir_reachable_coherent in R.
  apply ir_Rel'_drive. split; [exact C|]. split.
  - apply ir_clear_coherent. intros p. apply ir_at_all, R.
  - intros p. specialize (V p). destruct p; exact V.
Qed.

(** ** Scenarios *)

(** run_scenarios assigns the timestep and the driver itself: it does not matter
    whether these are in doubt. *)
Theorem c67_two_layer_scenarios : forall (env : Env) parse_unit s D s0 sc dv,
  tl_session env parse_unit s D -> (forall p, p <> Pdelta_t -> D (Some p) = false) ->
  tl_reachable env parse_unit s0 -> same_but_delta_t env Mtl s s0 ->
  snd (run_scn env parse_unit Mtl sc dv s) = snd (run_scn env parse_unit Mtl sc dv s0).
Proof.
  intros env pu s D s0 sc dv H K R P. apply scenarios_settled; [|apply (reach_settled env pu Mtl s0 R)|exact P].
  eapply tl_session_settled; eassumption.
Qed.
Theorem c67_impulse_response_scenarios : forall (env : Env) parse_unit s D s0 sc dv,
  ir_session env parse_unit s D -> (forall p, p <> Pdt -> D (Some p) = false) ->
  ir_reachable env parse_unit s0 -> same_but_delta_t env Mir s s0 ->
  snd (run_scn env parse_unit Mir sc dv s) = snd (run_scn env parse_unit Mir sc dv s0).
Proof.
  intros env pu s D s0 sc dv H K R P. apply scenarios_settled; [|apply (reach_settled env pu Mir s0 R)|exact P].
  eapply ir_session_settled; eassumption.
Qed.

(** An interrupted run_scenarios can be repeated: the next call returns what it would
    have returned before. *)
Lemma tl_reach_session env pu s : tl_reachable env pu s -> exists D, tl_session env pu s D /\ forall x, D x = false.
Proof.
  intros (g & s0 & os & E & ->).
  enough (G : forall os s D, tl_session env pu s D -> (forall x, D x = false) ->
            exists D', tl_session env pu (tl_calls env pu os s) D' /\ forall x, D' x = false).
  { eapply G; [eapply tls_new, E|reflexivity]. }
  clear. intros os. induction os as [|o os IH]; intros s D H K; [exists D; auto|]. cbn.
  destruct (tl_call env pu o s) as [s' [[]|e]] eqn:E; cbn [fst].
  - eapply IH; [eapply tls_returned; eassumption|]. intros x. cbv beta. rewrite K. reflexivity.
  - eapply IH; [eapply tls_raised; eassumption|]. exact K.
Qed.
Lemma ir_reach_session env pu s : ir_reachable env pu s -> exists D, ir_session env pu s D /\ forall x, D x = false.
Proof.
  intros (g & s0 & os & E & ->).
  enough (G : forall os s D, ir_session env pu s D -> (forall x, D x = false) ->
            exists D', ir_session env pu (ir_calls env pu os s) D' /\ forall x, D' x = false).
  { eapply G; [eapply irs_new, E|reflexivity]. }
  clear. intros os. induction os as [|o os IH]; intros s D H K; [exists D; auto|]. cbn.
  destruct (ir_call env pu o s) as [s' [[]|e]] eqn:E; cbn [fst].
  - eapply IH; [eapply irs_returned; eassumption|]. intros x. cbv beta. rewrite K. reflexivity.
  - eapply IH; [eapply irs_raised; eassumption|]. exact K.
Qed.

Section KeepTL.
Context (env : Env) (pu : string -> option (Qty env)) (P : TL env -> Prop).
Hypothesis Hrun : forall s i U L R, P s -> P (with_run env s i U L R).
Hypothesis Herf : forall s e m, P s -> P (with_erf env s e m).
Hypothesis Hdt : forall v, ikept P (itl_set_delta_t env v).
Lemma tlw (f : TL env -> TL env) : (forall s, exists i U L R, f s = with_run env s i U L R) -> ikept P (iwrite f).
Proof. intros F. apply ikept_write. intros s H. destruct (F s) as (i & U & L & R & ->). apply Hrun, H. Qed.
Lemma tlp_upper i v : ikept P (itl_put_upper env i v).
Proof.
  apply ikept_bind; [apply ikept_read|]. intros l. apply tlw. intros s.
  exists (tl_idx env s), l, (tl_temp_lower env s), (tl_rndt env s). destruct s; reflexivity.
Qed.
Lemma tlp_lower i v : ikept P (itl_put_lower env i v).
Proof.
  apply ikept_bind; [apply ikept_read|]. intros l. apply tlw. intros s.
  exists (tl_idx env s), (tl_temp_upper env s), l, (tl_rndt env s). destruct s; reflexivity.
Qed.
Lemma tlp_rndt i v : ikept P (itl_put_rndt env i v).
Proof.
  apply ikept_bind; [apply ikept_read|]. intros l. apply tlw. intros s.
  exists (tl_idx env s), (tl_temp_upper env s), (tl_temp_lower env s), l. destruct s; reflexivity.
Qed.
Lemma tlk_step : ikept P (itl_step env).
Proof.
  unfold itl_step. apply ikept_bind.
  { apply tlw. intros s. eexists _, (tl_temp_upper env s), (tl_temp_lower env s), (tl_rndt env s). destruct s; reflexivity. }
  intros _. apply ikept_bind; [apply ikept_read|]. intros [|j]; cbn [itl_step_at].
  - apply ikept_bind; [apply tlp_upper|intros _]. apply ikept_bind; [apply tlp_lower|intros _]. apply tlp_rndt.
  - apply ikept_bind; [apply ikept_read|intros ?]. apply ikept_bind; [apply tlp_upper|intros _].
    apply ikept_bind; [apply ikept_read|intros ?]. apply ikept_bind; [apply tlp_lower|intros _].
    apply ikept_bind; [apply ikept_read|intros ?]. apply tlp_rndt.
Qed.
Lemma tlk_run : ikept P (itl_run env).
Proof.
  intros k s. unfold itl_run. generalize (tl_erf_len env s). intros n. revert k s.
  induction n as [|n IH]; [apply ikept_ret|]. apply ikept_bind; [apply tlk_step|]. intros _. exact IH.
Qed.
Lemma tlk_reset : ikept P (itl_reset env).
Proof.
  unfold itl_reset. apply ikept_bind; [apply ikept_read|]. intros [|]; [apply ikept_raise|].
  apply ikept_bind.
  { apply tlw. intros s. eexists None, (tl_temp_upper env s), (tl_temp_lower env s), (tl_rndt env s). destruct s; reflexivity. }
  intros _. apply ikept_bind; [apply ikept_read|]. intros m. cbv zeta.
  apply ikept_bind.
  { apply tlw. intros s. exists (tl_idx env s), (map (fun _ => nnan env) m), (tl_temp_lower env s), (tl_rndt env s). destruct s; reflexivity. }
  intros _. apply ikept_bind.
  { apply tlw. intros s. exists (tl_idx env s), (tl_temp_upper env s), (map (fun _ => nnan env) m), (tl_rndt env s). destruct s; reflexivity. }
  intros _.
  apply tlw. intros s. exists (tl_idx env s), (tl_temp_upper env s), (tl_temp_lower env s), (map (fun _ => nnan env) m). destruct s; reflexivity.
Qed.
Lemma tlk_erf v : ikept P (itl_set_erf env v).
Proof.
  apply ikept_bind; [apply ikept_read|]. intros q. apply ikept_bind.
  { apply ikept_write. intros s H. apply (Herf s (Some q) (tl_erf_mag env s)) in H. destruct s; exact H. }
  intros _. apply ikept_bind; [apply ikept_read|]. intros m.
  apply ikept_write. intros s H. apply (Herf s (tl_erf env s) (Some m)) in H. destruct s; exact H.
Qed.
Lemma tlk_drivers e : ikept P (itl_set_drivers env e).
Proof. destruct e; cbn [itl_set_drivers]; try apply ikept_raise; apply tlk_erf. Qed.
Lemma tlk_scenarios sc dv : ikept P (itl_run_scenarios env pu sc dv).
Proof.
  apply (ikept_run_scenarios env pu (tl_variant env) P); [exact Hdt|apply tlk_drivers|apply tlk_reset|apply tlk_run].
Qed.
End KeepTL.
Lemma tl_visible_scenarios (env : Env) pu sc dv k s s' : stops (itl_run_scenarios env pu sc dv) k s s' ->
  forall p, p <> Pdelta_t -> tl_param_get env p s' = tl_param_get env p s.
Proof.
  intros [<- _] p N.
  apply (tlk_scenarios env pu (fun t => tl_param_get env p t = tl_param_get env p s)); [..|reflexivity].
  - intros t i U L R H. destruct p; exact H.
  - intros t e m H. destruct p; exact H.
  - intros v. destruct p; try congruence; ikept_auto; assumption.
Qed.
Lemma tl_forget_stops (env : Env) pu sc dv k s s' : stops (itl_run_scenarios env pu sc dv) k s s' ->
  stops (itl_call env pu (TRunScenarios env sc dv)) k s s'.
Proof.
  intros [<- H]. unfold stops, object_after, how_ended in *. cbn [itl_call]. unfold iforget, ibind.
  destruct (itl_run_scenarios env pu sc dv (Some k) s) as [[t k'] [r|]]; [discriminate|]. split; reflexivity.
Qed.

Section KeepIR.
Context (env : Env) (pu : string -> option (Qty env)) (P : IR env -> Prop).
Hypothesis Hrun : forall s i U L R, P s -> P (iwith_run env s i U L R).
Hypothesis Herf : forall s e m, P s -> P (iwith_erf env s e m).
Hypothesis Hdt : forall v, ikept P (iir_set_delta_t env v).
Lemma irw (f : IR env -> IR env) : (forall s, exists i U L R, f s = iwith_run env s i U L R) -> ikept P (iwrite f).
Proof. intros F. apply ikept_write. intros s H. destruct (F s) as (i & U & L & R & ->). apply Hrun, H. Qed.
Lemma irp_upper i v : ikept P (iir_put_temp1 env i v).
Proof.
  apply ikept_bind; [apply ikept_read|]. intros l. apply irw. intros s.
  exists (ir_idx env s), l, (ir_temp2 env s), (ir_rndt env s). destruct s; reflexivity.
Qed.
Lemma irp_lower i v : ikept P (iir_put_temp2 env i v).
Proof.
  apply ikept_bind; [apply ikept_read|]. intros l. apply irw. intros s.
  exists (ir_idx env s), (ir_temp1 env s), l, (ir_rndt env s). destruct s; reflexivity.
Qed.
Lemma irp_rndt i v : ikept P (iir_put_rndt env i v).
Proof.
  apply ikept_bind; [apply ikept_read|]. intros l. apply irw. intros s.
  exists (ir_idx env s), (ir_temp1 env s), (ir_temp2 env s), l. destruct s; reflexivity.
Qed.
Lemma irk_step : ikept P (iir_step env).
Proof.
  unfold iir_step. apply ikept_bind.
  { apply irw. intros s. eexists _, (ir_temp1 env s), (ir_temp2 env s), (ir_rndt env s). destruct s; reflexivity. }
  intros _. apply ikept_bind; [apply ikept_read|]. intros [|j]; cbn [iir_step_at].
  - apply ikept_bind; [apply irp_upper|intros _]. apply ikept_bind; [apply irp_lower|intros _]. apply irp_rndt.
  - apply ikept_bind; [apply ikept_read|intros ?]. apply ikept_bind; [apply irp_upper|intros _].
    apply ikept_bind; [apply ikept_read|intros ?]. apply ikept_bind; [apply irp_lower|intros _].
    apply ikept_bind; [apply ikept_read|intros ?]. apply irp_rndt.
Qed.
Lemma irk_run : ikept P (iir_run env).
Proof.
  intros k s. unfold iir_run. generalize (ir_erf_len env s). intros n. revert k s.
  induction n as [|n IH]; [apply ikept_ret|]. apply ikept_bind; [apply irk_step|]. intros _. exact IH.
Qed.
Lemma irk_reset : ikept P (iir_reset env).
Proof.
  unfold iir_reset. apply ikept_bind; [apply ikept_read|]. intros [|]; [apply ikept_raise|].
  apply ikept_bind.
  { apply irw. intros s. eexists None, (ir_temp1 env s), (ir_temp2 env s), (ir_rndt env s). destruct s; reflexivity. }
  intros _. apply ikept_bind; [apply ikept_read|]. intros m. cbv zeta.
  apply ikept_bind.
  { apply irw. intros s. exists (ir_idx env s), (map (fun _ => nnan env) m), (ir_temp2 env s), (ir_rndt env s). destruct s; reflexivity. }
  intros _. apply ikept_bind.
  { apply irw. intros s. exists (ir_idx env s), (ir_temp1 env s), (map (fun _ => nnan env) m), (ir_rndt env s). destruct s; reflexivity. }
  intros _.
  apply irw. intros s. exists (ir_idx env s), (ir_temp1 env s), (ir_temp2 env s), (map (fun _ => nnan env) m). destruct s; reflexivity.
Qed.
Lemma irk_erf v : ikept P (iir_set_erf env v).
Proof.
  apply ikept_bind; [apply ikept_read|]. intros q. apply ikept_bind.
  { apply ikept_write. intros s H. apply (Herf s (Some q) (ir_erf_mag env s)) in H. destruct s; exact H. }
  intros _. apply ikept_bind; [apply ikept_read|]. intros m.
  apply ikept_write. intros s H. apply (Herf s (ir_erf env s) (Some m)) in H. destruct s; exact H.
Qed.
Lemma irk_drivers e : ikept P (iir_set_drivers env e).
Proof. destruct e; cbn [iir_set_drivers]; try apply ikept_raise; apply irk_erf. Qed.
Lemma irk_scenarios sc dv : ikept P (iir_run_scenarios env pu sc dv).
Proof.
  apply (ikept_run_scenarios env pu (ir_variant env) P); [exact Hdt|apply irk_drivers|apply irk_reset|apply irk_run].
Qed.
End KeepIR.
Lemma ir_visible_scenarios (env : Env) pu sc dv k s s' : stops (iir_run_scenarios env pu sc dv) k s s' ->
  forall p, p <> Pdt -> ir_param_get env p s' = ir_param_get env p s.
Proof.
  intros [<- _] p N.
  apply (irk_scenarios env pu (fun t => ir_param_get env p t = ir_param_get env p s)); [..|reflexivity].
  - intros t i U L R H. destruct p; exact H.
  - intros t e m H. destruct p; exact H.
  - intros v. destruct p; try congruence; ikept_auto; assumption.
Qed.
Lemma ir_forget_stops (env : Env) pu sc dv k s s' : stops (iir_run_scenarios env pu sc dv) k s s' ->
  stops (iir_call env pu (IRunScenarios env sc dv)) k s s'.
Proof.
  intros [<- H]. unfold stops, object_after, how_ended in *. cbn [iir_call]. unfold iforget, ibind.
  destruct (iir_run_scenarios env pu sc dv (Some k) s) as [[t k'] [r|]]; [discriminate|]. split; reflexivity.
Qed.

Theorem c67_two_layer_again : forall (env : Env) parse_unit s sc dv k s' sc' dv',
  tl_reachable env parse_unit s -> stops (itl_run_scenarios env parse_unit sc dv) k s s' ->
  snd (run_scn env parse_unit Mtl sc' dv' s') = snd (run_scn env parse_unit Mtl sc' dv' s).
Proof.
  intros env pu s sc dv k s' sc' dv' R H. destruct (tl_reach_session env pu s R) as (D & HS & HD).
  eapply c67_two_layer_scenarios.
  - eapply tls_interrupted; [exact HS|apply tl_forget_stops, H].
  - intros p N. cbn. rewrite HD. destruct p; try reflexivity. congruence.
  - exact R.
  - intros p N. eapply tl_visible_scenarios; eassumption.
Qed.
Theorem c67_impulse_response_again : forall (env : Env) parse_unit s sc dv k s' sc' dv',
  ir_reachable env parse_unit s -> stops (iir_run_scenarios env parse_unit sc dv) k s s' ->
  snd (run_scn env parse_unit Mir sc' dv' s') = snd (run_scn env parse_unit Mir sc' dv' s).
Proof.
  intros env pu s sc dv k s' sc' dv' R H. destruct (ir_reach_session env pu s R) as (D & HS & HD).
  eapply c67_impulse_response_scenarios.
  - eapply irs_interrupted; [exact HS|apply ir_forget_stops, H].
  - intros p N. cbn. rewrite HD. destruct p; try reflexivity. congruence.
  - exact R.
  - intros p N. eapply ir_visible_scenarios; eassumption.
Qed.

(** ** A run that is interrupted *)
Lemma begun_fill (env : Env) f k n : (k <= n)%nat ->
  begun (env := env) k (fill (nnan env) f n n) (fill (nnan env) f k n).
Proof.
  intros H. split; [rewrite !fill_length; lia|]. rewrite fill_length by lia. intros i. split; intros Hi.
  - rewrite !fill_nth_lt by lia. reflexivity.
  - apply fill_nth_ge. exact Hi.
Qed.
Lemma div4 k n : (k < 4 * n)%nat -> ((k + 2) / 4 <= n /\ (k + 1) / 4 <= n /\ k / 4 <= n)%nat.
Proof. intros H. repeat split; apply Nat.lt_succ_r, Nat.div_lt_upper_bound; lia. Qed.

(** Four writes per step: after [k] writes the series have got as far as this; the
    rest is NaN. *)
Theorem c67_two_layer_partial_run : forall (env : Env) s e s1 s2 k s',
  tl_set_drivers env (EQ1 e) s = (s1, Ok tt) -> tl_reset env s1 = (s2, Ok tt) ->
  stops (itl_run env) k s2 s' ->
  exists s3, tl_run env s2 = (s3, Ok tt) /\ (k < 4 * List.length (mags e))%nat /\
    begun ((k + 2) / 4) (tl_temp_upper env s3) (tl_temp_upper env s') /\
    begun ((k + 1) / 4) (tl_temp_lower env s3) (tl_temp_lower env s') /\
    begun (k / 4) (tl_rndt env s3) (tl_rndt env s').
Proof.
  intros env s e s1 s2 k s' H1 H2 [H3 H4].
  destruct (same_dim_dec env (aunits e) u_Wm2) as [D|D].
  2:{ cbn [tl_set_drivers] in H1. rewrite set_erf_err in H1 by exact D. discriminate. }
  apply to_mags_ok_iff in D as [m Hm].
  destruct (existsb (nisnan env) (mags e)) eqn:Hn.
  { cbn [tl_set_drivers] in H1. rewrite (set_erf_ok env s e m Hm) in H1. injection H1 as <-.
    rewrite (reset_nan env _ e) in H2 by (auto; reflexivity). discriminate. }
  pose proof (set_reset_ok env s e m Hm Hn) as E. unfold mbind in E. rewrite H1, H2 in E. injection E as ->.
  pose proof (to_mags_length env e _ m Hm) as Hl.
  set (t := with_erf env s (Some e) (Some m)) in *.
  assert (Hr : tl_erf_len env (filled env t m 0) = List.length m) by (cbn; lia).
  exists (filled env t m (List.length m)). unfold tl_run. rewrite Hr.
  rewrite steps_filled by (auto; reflexivity || lia). split; [reflexivity|].
  assert (Hk : (k < 4 * List.length m)%nat).
  { destruct (le_lt_dec (4 * List.length m) k) as [L|L]; [|exact L]. exfalso.
    unfold how_ended, itl_run in H4. rewrite Hr in H4. revert H4.
    assert (G : forall n a k, (a + n <= List.length m)%nat -> (4 * n <= k)%nat ->
              snd (itl_steps env n (Some k) (filled env t m a)) = Fin (Ok tt)).
    { intros n. induction n as [|n IH]; intros a k0 Ha Hk; [reflexivity|].
      destruct (itl_step_cut env _ _ (step_filled env t m a eq_refl ltac:(lia))) as [_ Q].
      cbn [itl_steps]. unfold ibind. replace k0 with (4 + (k0 - 4))%nat by lia. rewrite Q. apply IH; lia. }
    rewrite G by lia. discriminate. }
  split; [lia|]. unfold object_after, itl_run in H3. rewrite Hr in H3.
  rewrite (itl_steps_cut env t m eq_refl) in H3 by lia. cbn [fst] in H3. subst s'.
  destruct (div4 k _ Hk) as (B1 & B2 & B3).
  unfold filled, tl_cut, with_run. cbn [tl_temp_upper tl_temp_lower tl_rndt Nat.add].
  repeat split; apply begun_fill; assumption.
Qed.

Theorem c67_impulse_response_partial_run : forall (env : Env) s e s1 s2 k s' s3,
  ir_set_drivers env (EQ1 e) s = (s1, Ok tt) -> ir_reset env s1 = (s2, Ok tt) ->
  stops (iir_run env) k s2 s' -> ir_run env s2 = (s3, Ok tt) ->
  (k < 4 * List.length (mags e))%nat /\
  begun ((k + 2) / 4) (ir_temp1 env s3) (ir_temp1 env s') /\
  begun ((k + 1) / 4) (ir_temp2 env s3) (ir_temp2 env s') /\
  begun (k / 4) (ir_rndt env s3) (ir_rndt env s').
Proof.
  intros env s e s1 s2 k s' s3 H1 H2 [H3 H4] H5.
  assert (Hd : ir_drive env e s = (s3, Ok tt)).
  { unfold ir_drive, mbind. rewrite H1, H2. exact H5. }
  pose proof (idrive_outcome env s e) as O. rewrite Hd in O. cbn [snd] in O.
  destruct O as (m & hp & Hm & Hn & Hst & E3). injection E3 as ->.
  pose proof (iset_reset_ok env s e m hp Hm Hn) as E. unfold mbind in E. rewrite H1, H2 in E. injection E as ->.
  pose proof (to_mags_length env e _ m Hm) as Hl.
  set (t := iwith_erf env s (Some e) (Some m)) in *.
  assert (Hst' : (List.length m <= 1)%nat \/ step_status env t = Ok hp) by exact Hst.
  assert (Hr : ir_erf_len env (ifilled env t hp m 0) = List.length m) by (cbn; lia).
  assert (Hk : (k < 4 * List.length m)%nat).
  { destruct (le_lt_dec (4 * List.length m) k) as [L|L]; [|exact L]. exfalso.
    unfold how_ended, iir_run in H4. rewrite Hr in H4. revert H4.
    assert (G : forall n a k, (a + n <= List.length m)%nat -> (4 * n <= k)%nat ->
              snd (iir_steps env n (Some k) (ifilled env t hp m a)) = Fin (Ok tt)).
    { intros n. induction n as [|n IH]; intros a k0 Ha Hk; [reflexivity|].
      assert (E : ir_step env (ifilled env t hp m a) = (ifilled env t hp m (S a), Ok tt)).
      { destruct a as [|j]; [apply istep_first; lia|].
        destruct Hst' as [Hs|Hs]; [lia|]. apply istep_next; auto; lia. }
      destruct (iir_step_cut env _ _ E) as [_ Q].
      cbn [iir_steps]. unfold ibind. replace k0 with (4 + (k0 - 4))%nat by lia. rewrite Q. apply IH; lia. }
    rewrite G by lia. discriminate. }
  split; [lia|]. unfold object_after, iir_run in H3. rewrite Hr in H3.
  rewrite (iir_steps_cut env t hp m eq_refl Hst') in H3 by lia. cbn [fst] in H3. subst s'.
  destruct (div4 k _ Hk) as (B1 & B2 & B3).
  unfold ifilled, ir_cut, iwith_run. cbn [ir_temp1 ir_temp2 ir_rndt Nat.add].
  repeat split; apply begun_fill; assumption.
Qed.

(** ** An assignment that is interrupted *)

(** Numbers a two-layer run uses. *)
Definition tl_used (env : Env) (s : TL env) :=
  (tl_delta_t_mag env s, tl_lambda0_mag env s, tl_a_mag env s, tl_efficacy_mag env s, tl_eta_mag env s,
   tl_hcu_mag env s, tl_hcl_mag env s).
Lemma tl_used_traj (env : Env) s s' F : tl_used env s = tl_used env s' ->
  (forall n, traj env s F n = traj env s' F n) /\ forall n, trajR env s F n = trajR env s' F n.
Proof.
  unfold tl_used. intros E. injection E as E1 E2 E3 E4 E5 E6 E7.
  assert (T : forall n, traj env s F n = traj env s' F n).
  { apply traj_indep; intros; unfold next_upper, next_lower; congruence. }
  split; [exact T|]. intros [|n]; [reflexivity|]. cbn [trajR].
  unfold trajU, trajL, next_rndt. rewrite !T. congruence.
Qed.
Lemma filled_used (env : Env) s s' m k : tl_used env s = tl_used env s' ->
  tl_outputs env (filled env s m k) = tl_outputs env (filled env s' m k).
Proof.
  intros E. destruct (tl_used_traj env s s' (at_ env m) E) as [T TR].
  unfold tl_outputs, filled, with_run. cbn [tl_temp_upper tl_temp_lower tl_rndt].
  rewrite (fill_ext (nnan env) (trajU env s (at_ env m)) (trajU env s' (at_ env m))) by (intros; unfold trajU; now rewrite T).
  rewrite (fill_ext (nnan env) (trajL env s (at_ env m)) (trajL env s' (at_ env m))) by (intros; unfold trajL; now rewrite T).
  rewrite (fill_ext (nnan env) (trajR env s (at_ env m)) (trajR env s' (at_ env m))) by apply TR.
  reflexivity.
Qed.
Lemma drive_used (env : Env) s s' e : tl_used env s = tl_used env s' ->
  snd (tl_drive env e s) = snd (tl_drive env e s') /\
  (snd (tl_drive env e s) = Ok tt ->
   tl_outputs env (fst (tl_drive env e s)) = tl_outputs env (fst (tl_drive env e s'))).
Proof.
  intros U. destruct (same_dim_dec env (aunits e) u_Wm2) as [H|H].
  - apply to_mags_ok_iff in H as [m Hm].
    destruct (existsb (nisnan env) (mags e)) eqn:Hn.
    + rewrite !(drive_nan env _ e m Hm Hn). split; [reflexivity|discriminate].
    + rewrite !(drive_ok env _ e m Hm Hn). split; [reflexivity|]. intros _. cbn [fst].
      apply filled_used. exact U.
  - rewrite !drive_unit by assumption. split; [reflexivity|discriminate].
Qed.

(** The attribute shows the old or the new value, all others are unchanged; runs are as
    if the assignment had not begun (even if the attribute shows the new value). *)
Theorem c67_two_layer_cut_assignment : forall (env : Env) parse_unit p v k s s',
  stops (itl_call env parse_unit (tl_assign p v)) k s s' ->
  (forall p', p' <> p -> tl_param_get env p' s' = tl_param_get env p' s) /\
  (tl_param_get env p s' = tl_param_get env p s \/ v = PQ (tl_param_get env p s')) /\
  tl_outputs env s' = tl_outputs env s /\
  forall e, snd (tl_drive env e s') = snd (tl_drive env e s) /\
    (snd (tl_drive env e s') = Ok tt ->
     tl_outputs env (fst (tl_drive env e s')) = tl_outputs env (fst (tl_drive env e s))).
Proof.
  intros env pu p v k s s' [H H4].
  assert (G : (forall p', p' <> p -> tl_param_get env p' s' = tl_param_get env p' s) /\
    (tl_param_get env p s' = tl_param_get env p s \/ v = PQ (tl_param_get env p s')) /\
    tl_outputs env s' = tl_outputs env s /\ tl_used env s' = tl_used env s).
  { assert (A : forall u q, assert_quantity env v u = Ok q -> v = PQ q).
    { intros u q K. rewrite assert_quantity_spec in K. destruct v as [x|]; [|discriminate].
      destruct (same_dim_dec env (units x) u); [|discriminate]. injection K as <-. reflexivity. }
    revert H H4. unfold object_after, how_ended.
    destruct p; cbn [itl_call tl_assign];
      unfold itl_set_du, itl_set_dl, itl_set_lambda0, itl_set_a, itl_set_efficacy, itl_set_eta, itl_set_delta_t;
      cbv [ibind iread iwrite];
      (destruct (assert_quantity env v _) as [q|x] eqn:E; [apply A in E|intros _; discriminate]);
      destruct k as [|[|[|k]]]; cbv beta iota;
      repeat (match goal with |- context [to_mag ?a ?b ?c] => destruct (to_mag a b c) end; cbv beta iota);
      try (intros _; discriminate); intros <- _; (split; [intros [] N; try reflexivity; congruence|]); auto. }
  destruct G as (G1 & G2 & G3 & G4). split; [exact G1|]. split; [exact G2|]. split; [exact G3|].
  intros e. apply drive_used, G4.
Qed.

Theorem c67_impulse_response_cut_assignment : forall (env : Env) parse_unit p v k s s',
  stops (iir_call env parse_unit (ir_assign p v)) k s s' ->
  (forall p', p' <> p -> ir_param_get env p' s' = ir_param_get env p' s) /\
  (ir_param_get env p s' = ir_param_get env p s \/ v = PQ (ir_param_get env p s')) /\
  ir_outputs env s' = ir_outputs env s /\
  (forall e t t', ir_drive env e s = (t, Ok tt) -> ir_drive env e s' = (t', Ok tt) ->
     ir_temp1 env t' = ir_temp1 env t /\ ir_temp2 env t' = ir_temp2 env t) /\
  (p = Pdt -> forall e, snd (ir_drive env e s') = snd (ir_drive env e s) /\
    (snd (ir_drive env e s') = Ok tt ->
     ir_outputs env (fst (ir_drive env e s')) = ir_outputs env (fst (ir_drive env e s)))).
Proof.
  intros env pu p v k s s' [H H4].
  set (used := fun s : IR env => (ir_delta_t_mag env s, ir_q1_mag env s, ir_q2_mag env s, ir_d1_mag env s, ir_d2_mag env s, ir_efficacy_mag env s)).
  assert (G : (forall p', p' <> p -> ir_param_get env p' s' = ir_param_get env p' s) /\
    (ir_param_get env p s' = ir_param_get env p s \/ v = PQ (ir_param_get env p s')) /\
    ir_outputs env s' = ir_outputs env s /\ used s' = used s).
  { assert (A : forall u q, assert_quantity env v u = Ok q -> v = PQ q).
    { intros u q K. rewrite assert_quantity_spec in K. destruct v as [x|]; [|discriminate].
      destruct (same_dim_dec env (units x) u); [|discriminate]. injection K as <-. reflexivity. }
    revert H H4. unfold object_after, how_ended.
    destruct p; cbn [iir_call ir_assign];
      unfold iir_set_q1, iir_set_q2, iir_set_d1, iir_set_d2, iir_set_efficacy, iir_set_delta_t;
      cbv [ibind iread iwrite];
      (destruct (assert_quantity env v _) as [q|x] eqn:E; [apply A in E|intros _; discriminate]);
      destruct k as [|[|k]]; cbv beta iota;
      repeat (match goal with |- context [to_mag ?a ?b ?c] => destruct (to_mag a b c) end; cbv beta iota);
      try (intros _; discriminate); intros <- _; (split; [intros [] N; try reflexivity; congruence|]); auto. }
  destruct G as (G1 & G2 & G3 & G4). split; [exact G1|]. split; [exact G2|]. split; [exact G3|].
  unfold used in G4. injection G4 as U1 U2 U3 U4 U5 U6.
  split.
  - intros e t t' E E'. pose proof (idrive_outcome env s e) as O. pose proof (idrive_outcome env s' e) as O'.
    rewrite E in O. rewrite E' in O'. cbn [snd] in O, O'.
    destruct O as (m & hp & Hm & _ & _ & O). destruct O' as (m' & hp' & Hm' & _ & _ & O').
    rewrite Hm in Hm'. injection Hm' as <-. injection O as ->. injection O' as ->.
    unfold ifilled, iwith_run, iwith_erf, iT1, iT2.
    cbn [ir_temp1 ir_temp2 ir_delta_t_mag ir_q1_mag ir_q2_mag ir_d1_mag ir_d2_mag].
    rewrite U1, U2, U3, U4, U5. auto.
  - intros ->. intros e.
    assert (HP : step_status env s' = step_status env s).
    { pose proof (G1 Pq1 ltac:(discriminate)) as V1. pose proof (G1 Pq2 ltac:(discriminate)) as V2.
      pose proof (G1 Pd1 ltac:(discriminate)) as V3. pose proof (G1 Pd2 ltac:(discriminate)) as V4.
      pose proof (G1 Peff ltac:(discriminate)) as V5. cbn [ir_param_get] in *.
      unfold step_status, heat_pars, ir_get_two_layer_parameters. rewrite U4, U5, U6, V1, V2, V3, V4, V5. reflexivity. }
    destruct (same_dim_dec env (aunits e) u_Wm2) as [D|D].
    + apply to_mags_ok_iff in D as [m Hm].
      destruct (existsb (nisnan env) (mags e)) eqn:Hn.
      * rewrite !(idrive_nan env _ e m Hm Hn). split; [reflexivity|discriminate].
      * assert (F : forall hp n, ir_outputs env (ifilled env (iwith_erf env s' (Some e) (Some m)) hp m n) =
                               ir_outputs env (ifilled env (iwith_erf env s (Some e) (Some m)) hp m n)).
        { intros hp n. unfold ir_outputs, ifilled, iwith_run, iwith_erf, iR, iT1, iT2.
          cbn [ir_temp1 ir_temp2 ir_rndt ir_delta_t_mag ir_q1_mag ir_q2_mag ir_d1_mag ir_d2_mag ir_efficacy_mag].
          rewrite U1, U2, U3, U4, U5, U6. reflexivity. }
        destruct (le_lt_dec (List.length m) 1) as [Hl|Hl].
        { set (hp := (nnan env, @None (num env * num env * num env))).
          rewrite !(idrive_ok env _ e m hp Hm Hn (or_introl Hl)). split; [reflexivity|]. intros _. apply F. }
        { destruct (step_status env s) as [hp|x] eqn:Hst.
          - rewrite (idrive_ok env s e m hp Hm Hn (or_intror Hst)), (idrive_ok env s' e m hp Hm Hn (or_intror HP)).
            split; [reflexivity|]. intros _. apply F.
          - rewrite (idrive_err env s e m x Hm Hn Hl Hst), (idrive_err env s' e m x Hm Hn Hl HP). split; [reflexivity|discriminate]. }
    + rewrite !idrive_unit by assumption. split; [reflexivity|discriminate].
Qed.

(** ** An interrupted set_drivers *)

(** On an object that has been run with [e0]: the object is unchanged, or shows the new
    driver and runs with the old one for the length of the new one: a shorter run, or
    IndexError. *)
Theorem c67_two_layer_cut_driver : forall (env : Env) e0 s0 s e k s',
  tl_drive env e0 s0 = (s, Ok tt) -> stops (itl_set_drivers env (EQ1 e)) k s s' -> nan_free env e ->
  s' = s \/
  tl_erf env s' = Some e /\ exists t, tl_reset env s' = (t, Ok tt) /\
  ((List.length (mags e) <= List.length (mags e0))%nat -> exists t', tl_run env t = (t', Ok tt) /\
     begun (List.length (mags e)) (tl_temp_upper env s) (tl_temp_upper env t') /\
     begun (List.length (mags e)) (tl_temp_lower env s) (tl_temp_lower env t') /\
     begun (List.length (mags e)) (tl_rndt env s) (tl_rndt env t')) /\
  ((List.length (mags e0) < List.length (mags e))%nat -> snd (tl_run env t) = Err IndexError).
Proof.
  intros env e0 s0 s e k s' Hd [H H4] Hf. apply nan_free_existsb in Hf.
  destruct (tl_drive_cases env s0 e0) as [[_ E]|[(m & Hm & _ & E)|(m & Hm & Hn0 & E)]]; rewrite E in Hd; try discriminate.
  injection Hd as <-. set (t0 := with_erf env s0 (Some e0) (Some m)) in *.
  revert H H4. unfold object_after, how_ended. cbn [itl_set_drivers]. unfold itl_set_erf. cbv [ibind iread iwrite].
  destruct (assert_quantity_arr env (Some e) u_Wm2) as [q|x] eqn:EA; [|intros _; discriminate].
  rewrite assert_quantity_arr_spec in EA. destruct (same_dim_dec env (aunits e) u_Wm2) as [D|]; [|discriminate].
  injection EA as <-. apply to_mags_ok_iff in D as [me He].
  destruct k as [|[|k]]; cbv beta iota; rewrite ?He; cbv beta iota; intros <- ?; try discriminate; [left; reflexivity|].
  right. split; [reflexivity|].
  pose proof (to_mags_length env e0 _ m Hm) as Hl.
  set (t1 := with_erf env t0 (Some e) (Some m)).
  match goal with |- exists t, tl_reset env ?s1 = _ /\ _ =>
    assert (R : tl_reset env s1 = (filled env t1 m 0, Ok tt));
    [rewrite (reset_ok env s1 e m) by (auto; reflexivity); unfold filled; rewrite !fill_0; reflexivity|] end.
  exists (filled env t1 m 0). split; [exact R|].
  unfold tl_run. change (tl_erf_len env (filled env t1 m 0)) with (List.length (mags e)).
  assert (O : forall j, tl_outputs env (filled env t1 m j) = tl_outputs env (filled env t0 m j)).
  { intros j. apply filled_used. reflexivity. }
  split; intros HL.
  - exists (filled env t1 m (List.length (mags e))). rewrite steps_filled by (try reflexivity; lia).
    split; [reflexivity|].
    specialize (O (List.length (mags e))). unfold tl_outputs in O. injection O as O1 O2 O3.
    unfold filled, with_run. cbn [tl_temp_upper tl_temp_lower tl_rndt]. rewrite O1, O2, O3.
    repeat split; apply begun_fill; lia.
  - replace (List.length (mags e)) with (List.length m + S (List.length (mags e) - List.length m - 1))%nat by lia.
    rewrite steps_app. unfold mbind. rewrite steps_filled by (try reflexivity; lia). cbn [Nat.add tl_steps].
    destruct (step_overrun env t1 m eq_refl) as (i & Eo). unfold mbind. rewrite Eo. reflexivity.
Qed.

(** If there was no driver before, [reset] then raises AttributeError. *)
Theorem c67_two_layer_first_driver : forall (env : Env) g s e k s',
  tl_new env g = Ok s -> stops (itl_set_drivers env (EQ1 e)) k s s' -> nan_free env e ->
  s' = s \/ tl_erf env s' = Some e /\ snd (tl_reset env s') = Err AttributeError.
Proof.
  intros env g s e k s' Hg [H H4] Hf. apply nan_free_existsb in Hf.
  assert (N : tl_erf_mag env s = None).
  { destruct (tl_new_ok env g (tl_new_inv env g s Hg)) as (s1 & E & C & _ & N & _). rewrite E in Hg. injection Hg as <-.
    destruct C. rewrite N in tc_erf. destruct (tl_erf_mag env s1); [contradiction|reflexivity]. }
  revert H H4. unfold object_after, how_ended. cbn [itl_set_drivers]. unfold itl_set_erf. cbv [ibind iread iwrite].
  destruct (assert_quantity_arr env (Some e) u_Wm2) as [q|x] eqn:EA; [|intros _; discriminate].
  rewrite assert_quantity_arr_spec in EA. destruct (same_dim_dec env (aunits e) u_Wm2) as [D|]; [|discriminate].
  injection EA as <-. apply to_mags_ok_iff in D as [me He].
  destruct k as [|[|k]]; cbv beta iota; rewrite ?He; cbv beta iota; intros <- ?; try discriminate; [left; reflexivity|].
  right. split; [reflexivity|]. unfold tl_reset. cbv [mbind mread mmod mret mraise]. cbn [fst tl_erf tl_erf_mag set]. rewrite Hf.
  cbn [tl_erf tl_erf_mag set]. rewrite N. reflexivity.
Qed.

(** ** Cases *)
Ltac vmrefl := match goal with |- _ = ?y => exact_no_check (eq_refl y) end.
Definition demo_short : QArr demo := mkQA (env := demo) [Some 1; Some 2] u_Wm2.
Definition demo_new_du : PyVal demo := PQ (mkQty demo 100 u_m).
Definition demo_cut_du : TL demo := object_after (itl_call demo demo_parse (TSetDu demo demo_new_du) (Some 1%nat) demo_tl).
Definition demo_full_du : TL demo := fst (tl_set_du demo demo_new_du demo_tl).
Definition warmed (s : TL demo) : list (num demo) := tl_temp_upper demo (fst (tl_drive demo demo_short s)).
Definition demo_scn : IMeth (TL demo) (list (OutRow demo)) := itl_run_scenarios demo demo_parse demo_scm "Effective Radiative Forcing".
Notation demo_cut_scn := (object_after (demo_scn (Some 10%nat) demo_tl)).
Notation demo_run1 := (fst (tl_drive demo demo_short demo_tl)).
Definition demo_one : QArr demo := mkQA (env := demo) [Some 7] u_Wm2.
Notation demo_cut_erf := (object_after (itl_set_drivers demo (EQ1 demo_one) (Some 1%nat) demo_run1)).

(** An assignment interrupted after its first write: the attribute shows the new value,
    a run uses the old one. *)
Example c67_cut_assignment_case :
  stops (itl_call demo demo_parse (tl_assign Pdu demo_new_du)) 1 demo_tl demo_cut_du /\
  demo_new_du = PQ (tl_du demo demo_cut_du) /\ mag (tl_du demo demo_cut_du) <> mag (tl_du demo demo_tl) /\
  warmed demo_cut_du = warmed demo_tl /\
  tl_set_du demo demo_new_du demo_tl = (demo_full_du, Ok tt) /\ warmed demo_full_du <> warmed demo_tl.
Proof.
  split; [split; vmrefl|]. split; [vmrefl|].
  assert (E1 : mag (tl_du demo demo_cut_du) = (Some 100 : num demo)) by vmrefl.
  assert (E2 : mag (tl_du demo demo_tl) = (Some (5 # 100) : num demo)) by vmrefl.
  split; [rewrite E1, E2; intros E; injection E; discriminate|].
  assert (E3 : warmed demo_tl = ([Some 0; Some (78894 # 522625)] : list (num demo))) by vmrefl.
  split; [rewrite E3; vmrefl|]. split; [vmrefl|].
  assert (E4 : warmed demo_full_du = ([Some 0; Some (39447 # 522625)] : list (num demo))) by vmrefl.
  rewrite E3, E4. intros E. injection E. discriminate.
Qed.

(** Scenarios interrupted in the first run, when one temperature has been computed: only
    the timestep and the driver are in doubt. *)
Example c67_session_case :
  stops demo_scn 10 demo_tl demo_cut_scn /\
  (exists D, tl_session demo demo_parse demo_cut_scn D /\
    (forall p, p <> Pdelta_t -> D (Some p) = false) /\ D (Some Pdelta_t) = true /\ D None = true) /\
  tl_reachable demo demo_parse demo_tl /\ same_but_delta_t demo Mtl demo_cut_scn demo_tl /\
  tl_temp_upper demo demo_cut_scn = ([Some 0; None; None] : list (num demo)).
Proof.
  assert (ST : stops demo_scn 10 demo_tl demo_cut_scn) by (split; vmrefl).
  split; [exact ST|]. split; [|split; [|split]].
  - eexists. split.
    + eapply (tls_interrupted demo demo_parse demo_tl (fun _ => false) (TRunScenarios demo demo_scm "Effective Radiative Forcing") 10%nat).
      * eapply tls_new. exact demo_tl_new.
      * apply tl_forget_stops, ST.
    + split; [intros [] N; try reflexivity; congruence|]. split; reflexivity.
  - exists demo_args, demo_tl, []. split; [exact demo_tl_new|reflexivity].
  - intros p N. eapply tl_visible_scenarios; [exact ST|exact N].
  - vmrefl.
Qed.

(** A driver of one value over one of two. *)
Example c67_cut_driver_case :
  tl_drive demo demo_short demo_tl = (demo_run1, Ok tt) /\
  stops (itl_set_drivers demo (EQ1 demo_one)) 1 demo_run1 demo_cut_erf /\ nan_free demo demo_one /\
  tl_erf demo demo_cut_erf = Some demo_one /\ (List.length (mags demo_one) <= List.length (mags demo_short))%nat.
Proof.
  assert (H : snd (tl_drive demo demo_short demo_tl) = Ok tt) by vmrefl.
  split; [rewrite <- H; apply surjective_pairing|]. split; [split; [reflexivity|vmrefl]|]. split.
  - intros x [<-|[]]. reflexivity.
  - split; [vmrefl|]. cbn. lia.
Qed.
