(** The conditions of [GenRun] for the two models. *)
From Coq Require Import List String Ascii QArith ZArith Bool Arith Lia.
From Verif Require Import Arith Pint Base TwoLayer Impulse Scm Api Spec GenTL GenTLHist GenIR GenIRHist GenScm GenMeta GenRun.
Import ListNotations.
Local Open Scope list_scope.

Section Inst.
Variable env : Env.
Variable parse_unit : string -> option (Qty env).

(** ** Two-layer model *)
Lemma tl_drive_cases s e :
  (~ same_dim env (aunits e) u_Wm2 /\ tl_drive env e s = (s, Err UnitError)) \/
  (exists m, to_mags env e u_Wm2 = Ok m /\ existsb (nisnan env) (mags e) = true /\
     tl_drive env e s = (with_erf env s (Some e) (Some m), Err ModelStateError)) \/
  (exists m, to_mags env e u_Wm2 = Ok m /\ existsb (nisnan env) (mags e) = false /\
     tl_drive env e s = (filled env (with_erf env s (Some e) (Some m)) m (List.length m), Ok tt)).
Proof.
  destruct (same_dim_dec env (aunits e) u_Wm2) as [H|H].
  - apply to_mags_ok_iff in H as [m Hm]. right.
    destruct (existsb (nisnan env) (mags e)) eqn:Hn.
    + left. exists m. rewrite (drive_nan env s e m Hm Hn). auto.
    + right. exists m. rewrite (drive_ok env s e m Hm Hn). auto.
  - left. rewrite drive_unit by assumption. auto.
Qed.

Definition tl_Rel (s s0 : TL env) : Prop :=
  tl_coherent env s /\ tl_coherent env s0 /\ tl_same_visible env s s0.

Lemma tl_Rel_refl s : tl_coherent env s -> tl_Rel s s.
Proof. intros H. repeat split; try apply H; intros p; reflexivity. Qed.

Lemma tl_drive_coherent e s : tl_coherent env s -> tl_coherent env (fst (tl_drive env e s)).
Proof.
  intros H. destruct (tl_drive_cases s e) as [[_ ->]|[(m & Hm & _ & ->)|(m & Hm & _ & ->)]]; cbn [fst].
  - exact H.
  - destruct H; constructor; try assumption.
  - apply coherent_with_run. destruct H; constructor; try assumption.
Qed.

Lemma tl_drive_visible e s : tl_same_visible env (fst (tl_drive env e s)) s.
Proof.
  intros p. destruct (tl_drive_cases s e) as [[_ ->]|[(m & Hm & _ & ->)|(m & Hm & _ & ->)]];
    destruct p; reflexivity.
Qed.

Lemma tl_Rel_drive s s0 e : tl_Rel s s0 ->
  snd (v_drive env (tl_variant env) e s) = snd (v_drive env (tl_variant env) e s0) /\
  (snd (v_drive env (tl_variant env) e s) = Ok tt ->
   fst (v_drive env (tl_variant env) e s) = fst (v_drive env (tl_variant env) e s0)).
Proof. intros (H1 & H2 & H3). exact (tl_drive_indep env s s0 e H1 H2 H3). Qed.

Lemma tl_Rel_after s s0 e : tl_Rel s s0 -> tl_Rel (fst (v_drive env (tl_variant env) e s)) s0.
Proof.
  intros (H1 & H2 & H3). change (v_drive env (tl_variant env) e s) with (tl_drive env e s).
  split; [apply tl_drive_coherent, H1|]. split; [exact H2|].
  intros p. etransitivity; [exact (tl_drive_visible e s p)|apply H3].
Qed.

Lemma tl_Out_len s e s' : v_drive env (tl_variant env) e s = (s', Ok tt) ->
  forall o, In o (v_outputs env (tl_variant env) s') -> List.length (snd o) = List.length (mags e).
Proof.
  change (v_drive env (tl_variant env) e s) with (tl_drive env e s). intros H.
  destruct (tl_drive_cases s e) as [[_ E]|[(m & Hm & _ & E)|(m & Hm & _ & E)]]; rewrite E in H; try discriminate.
  injection H as <-. rewrite <- (to_mags_length env e _ m Hm).
  cbn [v_outputs tl_variant tl_outputs]. intros o [<-|[<-|[<-|[]]]]; cbn [snd];
    apply fill_length; lia.
Qed.

Lemma tl_Out_vars s : vars_distinct env (v_outputs env (tl_variant env) s).
Proof.
  unfold vars_distinct. cbn.
  repeat constructor; cbn; intuition discriminate.
Qed.

(** ** Impulse-response model *)
Definition ir_Rel (s s0 : IR env) : Prop :=
  ir_coherent env s /\ ir_coherent env s0 /\ ir_same_visible env s s0.

Lemma ir_Rel_refl s : ir_coherent env s -> ir_Rel s s.
Proof. intros H. repeat split; try apply H; intros p; reflexivity. Qed.

Lemma ir_set_drivers_visible e s : ir_same_visible env (fst (ir_set_drivers env e s)) s.
Proof.
  intros p. destruct e as [q| | | |]; cbn [ir_set_drivers]; try reflexivity.
  destruct (same_dim_dec env (aunits q) u_Wm2) as [H|H].
  - apply to_mags_ok_iff in H as [m Hm]. rewrite (iset_erf_ok env s q m Hm). destruct p; reflexivity.
  - rewrite iset_erf_err by assumption. reflexivity.
Qed.
Lemma iframe_visible m : iframe env m -> forall s, ir_same_visible env (fst (m s)) s.
Proof. intros H s p. destruct (H s) as (i & U & L & R & ->). destruct p; reflexivity. Qed.

Lemma ir_drive_keep (P : IR env -> Prop) e s :
  (forall s, P s -> P (fst (ir_set_drivers env (EQ1 e) s))) ->
  (forall s, P s -> P (fst (ir_reset env s))) -> (forall s, P s -> P (fst (ir_run env s))) ->
  P s -> P (fst (ir_drive env e s)).
Proof.
  intros H1 H2 H3 Hs. unfold ir_drive, mbind.
  specialize (H1 s Hs). destruct (ir_set_drivers env (EQ1 e) s) as [s1 [[]|x]]; [|exact H1].
  specialize (H2 s1 H1). destruct (ir_reset env s1) as [s2 [[]|x]]; [|exact H2]. apply H3, H2.
Qed.

Lemma ir_drive_coherent e s : ir_coherent env s -> ir_coherent env (fst (ir_drive env e s)).
Proof.
  apply ir_drive_keep; intros s'.
  - apply iset_drivers_coherent.
  - apply iframe_coherent, iframe_reset.
  - apply iframe_coherent, iframe_run.
Qed.
Lemma ir_drive_visible e s : ir_same_visible env (fst (ir_drive env e s)) s.
Proof.
  apply (ir_drive_keep (fun s' => ir_same_visible env s' s)).
  - intros s' H p. rewrite (ir_set_drivers_visible (EQ1 e) s' p). apply H.
  - intros s' H p. rewrite (iframe_visible _ (iframe_reset env) s' p). apply H.
  - intros s' H p. rewrite (iframe_visible _ (iframe_run env) s' p). apply H.
  - intros p. reflexivity.
Qed.

Lemma ir_Rel_drive s s0 e : ir_Rel s s0 ->
  snd (v_drive env (ir_variant env) e s) = snd (v_drive env (ir_variant env) e s0) /\
  (snd (v_drive env (ir_variant env) e s) = Ok tt ->
   fst (v_drive env (ir_variant env) e s) = fst (v_drive env (ir_variant env) e s0)).
Proof. intros (H1 & H2 & H3). exact (ir_drive_indep env s s0 e H1 H2 H3). Qed.

Lemma ir_Rel_after s s0 e : ir_Rel s s0 -> ir_Rel (fst (v_drive env (ir_variant env) e s)) s0.
Proof.
  intros (H1 & H2 & H3). change (v_drive env (ir_variant env) e s) with (ir_drive env e s).
  split; [apply ir_drive_coherent, H1|]. split; [exact H2|].
  intros p. etransitivity; [exact (ir_drive_visible e s p)|apply H3].
Qed.

Lemma zip_add_length (l1 l2 : list (num env)) : List.length l1 = List.length l2 ->
  List.length (zip_add env l1 l2) = List.length l1.
Proof. revert l2; induction l1; intros [|y l2] H; try discriminate; cbn; auto. Qed.

Lemma ir_Out_len s e s' : v_drive env (ir_variant env) e s = (s', Ok tt) ->
  forall o, In o (v_outputs env (ir_variant env) s') -> List.length (snd o) = List.length (mags e).
Proof.
  change (v_drive env (ir_variant env) e s) with (ir_drive env e s). intros H.
  pose proof (idrive_outcome env s e) as K. rewrite H in K. cbn [snd] in K.
  destruct K as (m & hp & Hm & _ & _ & E). injection E as ->.
  rewrite <- (to_mags_length env e _ m Hm).
  cbn [v_outputs ir_variant ir_outputs]. intros o [<-|[<-|[<-|[<-|[]]]]]; cbn [snd];
    try rewrite zip_add_length; unfold ifilled, iwith_run; cbn [ir_temp1 ir_temp2 ir_rndt];
    rewrite ?fill_length; lia.
Qed.

Lemma ir_Out_vars s : vars_distinct env (v_outputs env (ir_variant env) s).
Proof.
  unfold vars_distinct. cbn.
  repeat constructor; cbn; intuition discriminate.
Qed.

End Inst.
