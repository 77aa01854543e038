(** Property C38: equilibrium climate sensitivity. *)
From Coq Require Import List String QArith Reals Qreals Bool Arith Lra Lia Psatz.
From Verif Require Import Arith Pint Base TwoLayer Impulse Utils Scm Api Spec Exact SpecReal
  GenTL GenTLHist GenIR GenIRHist GenMeta RealUnits RealTL RealGeo RealConv RealIR RealTrace RealModels RealEuler RealBox RealEquiv
  FactsRun FactsTL FactsTL2 FactsIR FactsConv FactsEquiv FactsUnits.
Import ListNotations.
Local Open Scope R_scope.

(** TypeError exactly for non-quantities; the unit of the result (any number
    system); nothing is checked about the dimensions. *)
Theorem c38_type_error : forall (env : Env) (lambda_val f2x : PyVal env),
  convert_lambda_to_ecs env lambda_val f2x = Err TypeError <-> lambda_val = POther \/ f2x = POther.
Proof.
  intros env [l|] [f|]; cbn; split; intros H; try tauto.
  - unfold qdiv in H. destruct (neqb _ _ _); discriminate H.
  - destruct H; discriminate.
Qed.
Theorem c38_unit : forall (env : Env) l f r, convert_lambda_to_ecs env (PQ l) (PQ f) = Ok r -> units r = udiv (units f) (units l).
Proof. intros env l f r H. cbn in H. apply qdiv_units in H. exact H. Qed.

(** The result for [l] = x W/m^2/delta_degC and [f] = F W/m^2, in any units. *)
Theorem c38_value : forall reg l f x F,
  is_qty reg l x u_Wm2C -> is_qty reg f F u_Wm2 ->
  (x = 0 -> convert_lambda_to_ecs (xenv reg) (PQ l) (PQ f) = Err ZeroDivisionError) /\
  (x <> 0 -> exists r, convert_lambda_to_ecs (xenv reg) (PQ l) (PQ f) = Ok r /\ is_qty reg r (- F / x) u_dC).
Proof.
  intros reg l f x F Hl Hf. split.
  - intros ->. cbn. apply (qdiv_zero reg _ _ u_Wm2C Hl).
  - intros Hx. destruct (qdiv_ok reg _ _ _ _ _ _ (is_qty_neg reg _ _ _ Hf) Hl Hx) as (r & Hr & Hq & _).
    exists r. split; [exact Hr|]. eapply is_qty_conv; [exact Hq|dims reg|]. f_equal. sizes reg.
Qed.

(** -lambda0 of a two-layer model: the limit of the warming of every run under
    the constant forcing f2x; lambda0 itself: minus that limit. *)
Theorem c38_limit_of_the_warming : forall reg parse s p F f,
  tl_reachable (xenv reg) parse s -> tl_values reg s p -> positive_tl p -> small_step p -> is_qty reg f F u_Wm2 ->
  exists T TD N ecs ecs' x,
    constant_forcing_response reg p F T TD N /\ Un_cv T x /\
    convert_lambda_to_ecs (xenv reg) (PQ (qneg (xenv reg) (tl_lambda0 _ s))) (PQ f) = Ok ecs /\ is_qty reg ecs x u_dC /\
    convert_lambda_to_ecs (xenv reg) (PQ (tl_lambda0 _ s)) (PQ f) = Ok ecs' /\ is_qty reg ecs' (- x) u_dC.
Proof.
  intros reg parse s p F f Hr Hv Hp Hs Hf. destruct (c17_two_layer_equilibrium reg p F Hp Hs) as (T & TD & N & HR & HT & _ & _).
  assert (Hl : is_qty reg (tl_lambda0 _ s) (p_lambda0 p) u_Wm2C) by apply Hv.
  assert (P : 0 < p_lambda0 p) by apply Hp.
  destruct (proj2 (c38_value reg _ f _ F (is_qty_neg reg _ _ _ Hl) Hf) ltac:(lra)) as (r & H1 & H2).
  destruct (proj2 (c38_value reg _ f _ F Hl Hf) ltac:(lra)) as (r' & H1' & H2').
  exists T, TD, N, r, r', (F / p_lambda0 p). split; [exact HR|]. split; [exact HT|]. split; [exact H1|].
  split; [replace (F / p_lambda0 p) with (- F / - p_lambda0 p) by (field; lra); exact H2|].
  split; [exact H1'|]. replace (- (F / p_lambda0 p)) with (- F / p_lambda0 p) by (field; lra). exact H2'.
Qed.

(** The same for impulse-response models, with lambda0 from
    [get_two_layer_parameters]. *)
Theorem c38_limit_of_the_impulse_response : forall reg parse s p F f T1 T2 T N,
  ir_reachable (xenv reg) parse s -> ir_values reg s p -> convertible_ir p -> 0 < p_idt p -> is_qty reg f F u_Wm2 ->
  ir_constant_forcing_response reg s F T1 T2 T N ->
  exists r ecs x, ir_get_two_layer_parameters (xenv reg) s = Ok r /\
    convert_lambda_to_ecs (xenv reg) (PQ (qneg (xenv reg) (tlp_lambda0 _ r))) (PQ f) = Ok ecs /\ is_qty reg ecs x u_dC /\ Un_cv T x.
Proof.
  intros reg parse s p F f T1 T2 T N Hr Hv HP Hdt Hf HR. pose proof HP as (P1 & P2 & P3 & P4 & P5).
  pose proof (i2t_values reg s p Hv HP) as K. cbn zeta in K. destruct K as (r & Hi & A1 & _).
  destruct (c17_impulse_response_equilibrium reg parse s p F T1 T2 T N Hr Hv P3 ltac:(lra) Hdt HR) as (_ & _ & HT).
  assert (Hl : 0 < hlam (p_q1 p) (p_q2 p)) by (unfold hlam; apply pos_div; lra).
  destruct (proj2 (c38_value reg _ f _ F (is_qty_neg reg _ _ _ A1) Hf) ltac:(lra)) as (e & H1 & H2).
  exists r, e, ((p_q1 p + p_q2 p) * F). split; [exact Hi|]. split; [exact H1|]. split; [|exact HT].
  replace ((p_q1 p + p_q2 p) * F) with (- F / - hlam (p_q1 p) (p_q2 p)) by (unfold hlam; field; lra). exact H2.
Qed.

Theorem c38_linear : forall reg l f1 f2 f3 x F1 F2 c1 c2,
  is_qty reg l x u_Wm2C -> x <> 0 -> is_qty reg f1 F1 u_Wm2 -> is_qty reg f2 F2 u_Wm2 -> is_qty reg f3 (c1 * F1 + c2 * F2) u_Wm2 ->
  exists r1 r2 r3 y1 y2,
    convert_lambda_to_ecs (xenv reg) (PQ l) (PQ f1) = Ok r1 /\ convert_lambda_to_ecs (xenv reg) (PQ l) (PQ f2) = Ok r2 /\
    convert_lambda_to_ecs (xenv reg) (PQ l) (PQ f3) = Ok r3 /\
    is_qty reg r1 y1 u_dC /\ is_qty reg r2 y2 u_dC /\ is_qty reg r3 (c1 * y1 + c2 * y2) u_dC.
Proof.
  intros reg l f1 f2 f3 x F1 F2 c1 c2 Hl Hx H1 H2 H3.
  destruct (proj2 (c38_value reg _ _ _ _ Hl H1) Hx) as (r1 & A1 & B1). destruct (proj2 (c38_value reg _ _ _ _ Hl H2) Hx) as (r2 & A2 & B2).
  destruct (proj2 (c38_value reg _ _ _ _ Hl H3) Hx) as (r3 & A3 & B3).
  exists r1, r2, r3. do 2 eexists. do 3 (split; [assumption|]). split; [exact B1|]. split; [exact B2|].
  replace (c1 * (- F1 / x) + c2 * (- F2 / x)) with (- (c1 * F1 + c2 * F2) / x) by (field; assumption). exact B3.
Qed.

(** Applied to its own result the function returns the lambda it was given. *)
Theorem c38_inverts_itself : forall reg l f x F,
  is_qty reg l x u_Wm2C -> is_qty reg f F u_Wm2 -> x <> 0 -> F <> 0 ->
  exists ecs l', convert_lambda_to_ecs (xenv reg) (PQ l) (PQ f) = Ok ecs /\
    convert_lambda_to_ecs (xenv reg) (PQ ecs) (PQ f) = Ok l' /\ is_qty reg l' x u_Wm2C.
Proof.
  intros reg l f x F Hl Hf Hx HF. destruct (proj2 (c38_value reg _ _ _ _ Hl Hf) Hx) as (r & A & B).
  assert (Hn : - F / x <> 0).
  { unfold Rdiv. apply Rmult_integral_contrapositive. split; [lra|]. apply Rinv_neq_0_compat, Hx. }
  destruct (qdiv_ok reg _ _ _ _ _ _ (is_qty_neg reg _ _ _ Hf) B Hn) as (r' & Hr & Hq & _).
  exists r, r'. split; [exact A|]. split; [exact Hr|]. eapply is_qty_conv; [exact Hq|dims reg|].
  replace (- F / (- F / x)) with x by (field; auto). reflexivity.
Qed.

(** The default f2x is 3.74 W/m^2. *)
Theorem c38_default : forall reg, exists f, f2x_default (xenv reg) = PQ f /\ is_qty reg f (374 / 100) u_Wm2.
Proof.
  intros reg. eexists. split; [reflexivity|]. replace (374 / 100) with (Q2R (374 # 100)) by (unfold Q2R; cbn; lra). apply is_qty_lit.
Qed.

Example c38_case : forall reg parse, exists s f,
  tl_reachable (xenv reg) parse s /\ tl_values reg s ex_tl /\ positive_tl ex_tl /\ small_step ex_tl /\ is_qty reg f (374 / 100) u_Wm2.
Proof.
  intros reg parse. destruct (tl_model reg parse ex_tl) as (s & H1 & H2). destruct (c38_default reg) as (f & _ & Hf).
  exists s, f. split; [exact H1|]. split; [exact H2|]. destruct c17_case as (H3 & H4). auto.
Qed.
