(** The conditions of [GenLayout] for both models. *)
From Coq Require Import List String Ascii QArith ZArith Bool Arith Lia.
From Verif Require Import Arith Pint Base TwoLayer Impulse Scm Api Spec GenTL GenTLHist GenIR GenIRHist
  GenScm GenMeta GenRun GenRunInst GenLayout.
Import ListNotations.
Local Open Scope list_scope.

Section GM.
Context (env : Env) (pu : string -> option (Qty env)).

Definition mRel (m : model) : state env m -> state env m -> Prop :=
  match m return state env m -> state env m -> Prop with Mtl => tl_Rel env | Mir => ir_Rel env end.
Definition mcoh (m : model) : state env m -> Prop :=
  match m return state env m -> Prop with Mtl => tl_coherent env | Mir => ir_coherent env end.
Definition mdt_unit (m : model) : Units := match m with Mtl => u_s | Mir => u_yr end.

Lemma mRel_drive m : forall s s0 e, mRel m s s0 ->
  snd (v_drive env (variant env m) e s) = snd (v_drive env (variant env m) e s0) /\
  (snd (v_drive env (variant env m) e s) = Ok tt ->
   fst (v_drive env (variant env m) e s) = fst (v_drive env (variant env m) e s0)).
Proof. destruct m; [apply tl_Rel_drive|apply ir_Rel_drive]. Qed.
Lemma mRel_after m : forall s s0 e, mRel m s s0 -> mRel m (fst (v_drive env (variant env m) e s)) s0.
Proof. destruct m; [apply tl_Rel_after|apply ir_Rel_after]. Qed.
Lemma mOut_len m : forall s e s', v_drive env (variant env m) e s = (s', Ok tt) ->
  forall o, In o (v_outputs env (variant env m) s') -> List.length (snd o) = List.length (mags e).
Proof. destruct m; [apply tl_Out_len|apply ir_Out_len]. Qed.
Lemma mOut_vars m : forall s, vars_distinct env (v_outputs env (variant env m) s).
Proof. destruct m; [apply tl_Out_vars|apply ir_Out_vars]. Qed.
Lemma mPar_nodup m : forall s, NoDup (map fst (v_save_paras env (variant env m) s)).
Proof. destruct m; intros s; cbn; repeat constructor; cbn; intuition discriminate. Qed.
Lemma mcoh_reach m s : reachable env pu m s -> mcoh m s.
Proof. destruct m; [apply tl_reachable_coherent|apply ir_reachable_coherent]. Qed.
Lemma mRel_refl m s : mcoh m s -> mRel m s s.
Proof. destruct m; [apply tl_Rel_refl|apply ir_Rel_refl]. Qed.

Lemma mset_dt_ok m s q : same_dim env (units q) (mdt_unit m) ->
  exists s1, v_set_delta_t env (variant env m) (PQ q) s = (s1, Ok tt) /\
    delta_t_of env m s1 = q /\ same_but_delta_t env m s1 s /\ (mcoh m s -> mcoh m s1).
Proof.
  destruct m; intros H.
  - destruct (tl_set_succ env Pdelta_t s q H) as (s' & E & G & O & _ & _ & _ & _ & _ & _ & C).
    exists s'. auto.
  - destruct (ir_set_succ env Pdt s q H) as (s' & E & G & O & _ & _ & _ & _ & _ & _ & C).
    exists s'. auto.
Qed.
Lemma mset_dt_fail m s q : ~ same_dim env (units q) (mdt_unit m) ->
  v_set_delta_t env (variant env m) (PQ q) s = (s, Err UnitError).
Proof. destruct m; intros H; [exact (tl_set_fail env Pdelta_t s (PQ q) H)|exact (ir_set_fail env Pdt s (PQ q) H)]. Qed.

Lemma mset_dt_inv m s q s1 : v_set_delta_t env (variant env m) (PQ q) s = (s1, Ok tt) ->
  delta_t_of env m s1 = q /\ same_but_delta_t env m s1 s /\ (mcoh m s -> mcoh m s1).
Proof.
  intros H. destruct (same_dim_dec env (units q) (mdt_unit m)) as [D|D].
  - destruct (mset_dt_ok m s q D) as (s' & E & K). rewrite E in H. injection H as <-. exact K.
  - rewrite mset_dt_fail in H by exact D. discriminate.
Qed.

Lemma mRel_dt m s q s1 : mcoh m s -> v_set_delta_t env (variant env m) (PQ q) s = (s1, Ok tt) -> mRel m s1 s1.
Proof. intros C H. apply mRel_refl. apply (mset_dt_inv m s q s1 H), C. Qed.

Lemma mRel_intro m s s' : mcoh m s -> mcoh m s' -> delta_t_of env m s = delta_t_of env m s' ->
  same_but_delta_t env m s s' -> mRel m s s'.
Proof.
  destruct m; intros H H' D P; (split; [exact H|]); (split; [exact H'|]); intros p; destruct p;
    first [exact D|apply P; discriminate].
Qed.

Lemma msave_same m s s' : same_but_delta_t env m s s' ->
  v_save_paras env (variant env m) s = v_save_paras env (variant env m) s'.
Proof.
  destruct m; intros P; cbn; unfold tl_save_paras, ir_save_paras.
  - change (tl_du env s) with (tl_param_get env Pdu s). change (tl_dl env s) with (tl_param_get env Pdl s).
    change (tl_lambda0 env s) with (tl_param_get env Plambda0 s). change (tl_a env s) with (tl_param_get env Pa s).
    change (tl_efficacy env s) with (tl_param_get env Pefficacy s). change (tl_eta env s) with (tl_param_get env Peta s).
    rewrite !P by discriminate. reflexivity.
  - change (ir_q1 env s) with (ir_param_get env Pq1 s). change (ir_q2 env s) with (ir_param_get env Pq2 s).
    change (ir_d1 env s) with (ir_param_get env Pd1 s). change (ir_d2 env s) with (ir_param_get env Pd2 s).
    change (ir_efficacy env s) with (ir_param_get env Peff s).
    rewrite !P by discriminate. reflexivity.
Qed.

Lemma sbd_refl m s : same_but_delta_t env m s s.
Proof. destruct m; intros p _; reflexivity. Qed.
Lemma sbd_sym m s s' : same_but_delta_t env m s s' -> same_but_delta_t env m s' s.
Proof. destruct m; intros H p Hp; symmetry; apply H, Hp. Qed.
Lemma sbd_trans m s s' s2 : same_but_delta_t env m s s' -> same_but_delta_t env m s' s2 -> same_but_delta_t env m s s2.
Proof. destruct m; intros H K p Hp; rewrite H by exact Hp; apply K, Hp. Qed.

Lemma same_dim_trans u v w : same_dim env u v -> same_dim env v w -> same_dim env u w.
Proof. intros H K k Hk. rewrite (H k Hk). apply K, Hk. Qed.
Lemma same_dim_sym u v : same_dim env u v -> same_dim env v u.
Proof. intros H k Hk. symmetry. apply H, Hk. Qed.

Lemma chosen_dim m times ts : time_units env -> chosen_timestep env times ts -> same_dim env (units ts) (mdt_unit m).
Proof.
  intros [Y M] [[_ ->]|(_ & _ & ->)]; destruct m; cbn [units one_year one_month mdt_unit].
  - exact Y.
  - intros k Hk; reflexivity.
  - exact M.
  - eapply same_dim_trans; [exact M|apply same_dim_sym, Y].
Qed.

(** delta_t and the other parameters through a call. *)
Lemma keep_set_drivers m e s :
  same_but_delta_t env m (fst (v_set_drivers env (variant env m) e s)) s /\
    delta_t_of env m (fst (v_set_drivers env (variant env m) e s)) = delta_t_of env m s.
Proof.
  destruct m; cbn [variant v_set_drivers].
  - assert (H : tl_same_visible env (fst (tl_set_drivers env e s)) s).
    { intros p. destruct e as [q| | | |]; cbn [tl_set_drivers]; try reflexivity.
      destruct (same_dim_dec env (aunits q) u_Wm2) as [H|H].
      - apply to_mags_ok_iff in H as [mm Hm]. rewrite (set_erf_ok env s q mm Hm). destruct p; reflexivity.
      - rewrite set_erf_err by assumption. reflexivity. }
    split; [intros p _; apply H|exact (H Pdelta_t)].
  - pose proof (ir_set_drivers_visible env e s) as H. split; [intros p _; apply H|exact (H Pdt)].
Qed.
Lemma keep_reset m s :
  same_but_delta_t env m (fst (v_reset env (variant env m) s)) s /\
  delta_t_of env m (fst (v_reset env (variant env m) s)) = delta_t_of env m s.
Proof.
  destruct m.
  - destruct (frame_reset env s) as (i & U & L & R & E).
    change (fst (v_reset env (variant env Mtl) s)) with (fst (tl_reset env s)). rewrite E.
    split; [intros [] _; reflexivity|reflexivity].
  - destruct (iframe_reset env s) as (i & U & L & R & E).
    change (fst (v_reset env (variant env Mir) s)) with (fst (ir_reset env s)). rewrite E.
    split; [intros [] _; reflexivity|reflexivity].
Qed.
Lemma keep_run m s :
  same_but_delta_t env m (fst (v_run env (variant env m) s)) s /\
  delta_t_of env m (fst (v_run env (variant env m) s)) = delta_t_of env m s.
Proof.
  destruct m.
  - destruct (frame_run env s) as (i & U & L & R & E).
    change (fst (v_run env (variant env Mtl) s)) with (fst (tl_run env s)). rewrite E.
    split; [intros [] _; reflexivity|reflexivity].
  - destruct (iframe_run env s) as (i & U & L & R & E).
    change (fst (v_run env (variant env Mir) s)) with (fst (ir_run env s)). rewrite E.
    split; [intros [] _; reflexivity|reflexivity].
Qed.
End GM.
