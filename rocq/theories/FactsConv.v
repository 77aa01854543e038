(** Properties C21-C24: conversion of parameters between the two models. *)
From Coq Require Import List String QArith Reals Qreals Bool Arith Lra Lia Psatz.
From Verif Require Import Arith Pint Base TwoLayer Impulse Scm Api Spec Exact SpecReal
  GenTL GenTLHist GenIR GenIRHist GenMeta RealUnits RealTL RealGeo RealConv RealIR RealModels.
Import ListNotations.
Local Open Scope R_scope.

(** ** C21 *)
Lemma relations C CD l e h : 0 < C -> 0 < CD -> 0 < l -> 0 < e -> 0 < h ->
  geoffroy_relations C CD l e h (gb C CD l e h) (gbs C CD l e h) (gdelta C CD l e h)
    (gtau1 C CD l e h) (gtau2 C CD l e h) (gphi1 C CD l e h) (gphi2 C CD l e h) (ga1 C CD l e h) (ga2 C CD l e h).
Proof.
  intros HC HCD Hl He Hh. unfold geoffroy_relations.
  pose proof (gtau1_pos C CD l e h HC HCD Hl He Hh) as T1. pose proof (gtau2_pos C CD l e h HC HCD Hl He Hh) as T2.
  pose proof (ga1_q1 C CD l e h HC HCD Hl He Hh) as A1. pose proof (ga2_q2 C CD l e h HC HCD Hl He Hh) as A2.
  pose proof (gq1_pos C CD l e h HC HCD Hl He Hh) as Q1. pose proof (gq2_pos C CD l e h HC HCD Hl He Hh) as Q2.
  split; [reflexivity|]. split; [reflexivity|]. split; [unfold gdelta, Rdiv; ring|].
  split; [apply gdelta_pos; assumption|]. split; [assumption|]. split; [apply gtau_lt; assumption|].
  split; [apply gphi1_neg; assumption|]. split; [apply gphi2_pos; assumption|].
  split; [rewrite A1; apply pos_mul; assumption|]. split; [rewrite A2; apply pos_mul; assumption|].
  split; [apply tau_prod; assumption|]. split; [apply tau_sum; assumption|].
  split; [apply phi_prod; assumption|]. split; [apply phi_sum; assumption|].
  split; [apply tau_phi1; assumption|]. split; [apply tau_phi2; assumption|].
  rewrite A1, A2.
  split. { rewrite <- Rmult_plus_distr_l, (q_sum C CD l e h) by assumption. field. lra. }
  split. { pose proof (q_rate C CD l e h HC HCD Hl He Hh) as K.
    transitivity (l * (gq1 C CD l e h / gtau1 C CD l e h + gq2 C CD l e h / gtau2 C CD l e h)); [field; lra|].
    rewrite K. reflexivity. }
  split. { pose proof (back_moment C CD l e h HC HCD Hl He Hh) as K.
    transitivity (l * (gq1 C CD l e h * gtau1 C CD l e h + gq2 C CD l e h * gtau2 C CD l e h)); [ring|].
    rewrite K. field. lra. }
  split. { exact (back_cross C CD l e h HC HCD Hl He Hh). }
  split. { pose proof (q_phi_sum C CD l e h HC HCD Hl He Hh) as K.
    transitivity (l * (gphi1 C CD l e h * gq1 C CD l e h + gphi2 C CD l e h * gq2 C CD l e h)); [ring|].
    rewrite K. field. lra. }
  pose proof (q_phi_rate C CD l e h HC HCD Hl He Hh) as K.
  transitivity (l * (gphi1 C CD l e h * (gq1 C CD l e h / gtau1 C CD l e h) + gphi2 C CD l e h * (gq2 C CD l e h / gtau2 C CD l e h)));
    [field; lra|]. rewrite K. ring.
Qed.

(** The helper parameters, whatever the units of the five inputs. *)
Theorem c21_helper_parameters : forall reg du dl lambda0 efficacy eta xu xl l e h,
  is_qty reg du xu u_m -> is_qty reg dl xl u_m -> is_qty reg lambda0 l u_Wm2C ->
  is_qty reg efficacy e u_none -> is_qty reg eta h u_Wm2C ->
  0 < xu -> 0 < xl -> 0 < l -> 0 < e -> 0 < h ->
  exists g b bs delta tau1 tau2 phi1 phi2 a1 a2,
    geoffroy (xenv reg) du dl lambda0 efficacy eta = Ok g /\
    is_qty reg (g_C g) (water_capacity xu) u_JCm2 /\ is_qty reg (g_CD g) (water_capacity xl) u_JCm2 /\
    is_qty reg (g_b g) b [(ss, -1)]%Q /\ is_qty reg (g_bstar g) bs [(ss, -1)]%Q /\
    is_qty reg (g_delta g) delta [(ss, -2)]%Q /\
    is_qty reg (g_tau1 g) tau1 u_s /\ is_qty reg (g_tau2 g) tau2 u_s /\
    is_qty reg (g_phi1 g) phi1 u_none /\ is_qty reg (g_phi2 g) phi2 u_none /\
    is_qty reg (g_a1 g) a1 u_none /\ is_qty reg (g_a2 g) a2 u_none /\
    geoffroy_relations (water_capacity xu) (water_capacity xl) l e h b bs delta tau1 tau2 phi1 phi2 a1 a2.
Proof.
  intros reg du dl lambda0 efficacy eta xu xl l e h H1 H2 H3 H4 H5 P1 P2 P3 P4 P5.
  destruct (geoffroy_ok reg _ _ _ _ _ _ _ _ _ _ H1 H2 H3 H4 H5 P1 P2 P3 P4 P5) as (g & Hg & [V1 V2 V3 V4 V5 V6 V7 V8 V9 V10 V11]).
  exists g. do 9 eexists. split; [exact Hg|].
  do 11 (split; [eassumption|]). apply relations; try assumption; apply cap_pos; assumption.
Qed.

(** The impulse-response parameters computed from a two-layer model. *)
Theorem c21_impulse_response_parameters : forall reg s p,
  tl_values reg s p -> convertible_tl p ->
  exists r d1 d2 q1 q2,
    tl_get_impulse_response_parameters (xenv reg) s = Ok r /\
    is_qty reg (irp_d1 _ r) d1 u_s /\ is_qty reg (irp_d2 _ r) d2 u_s /\
    is_qty reg (irp_q1 _ r) q1 u_CWm2 /\ is_qty reg (irp_q2 _ r) q2 u_CWm2 /\
    irp_efficacy _ r = tl_efficacy _ s /\
    0 < d1 /\ d1 < d2 /\ 0 < q1 /\ 0 < q2 /\
    d1 * d2 = p_C p * p_CD p / (p_lambda0 p * p_eta p) /\
    1 / d1 + 1 / d2 = (p_lambda0 p + p_eps p * p_eta p) / p_C p + p_eta p / p_CD p /\
    q1 + q2 = 1 / p_lambda0 p /\
    q1 / d1 + q2 / d2 = 1 / p_C p /\
    q1 * d1 + q2 * d2 = (p_C p + p_eps p * p_CD p) / (p_lambda0 p * p_lambda0 p) /\
    q1 * d2 + q2 * d1 = p_CD p / (p_lambda0 p * p_eta p).
Proof.
  intros reg s p Hv (P1 & P2 & P3 & Ha & P5 & P6).
  destruct (t2i_ok reg s p Hv Ha P1 P2 P3 P5 P6) as (r & Hr & V1 & V2 & V3 & V4 & V5).
  exists r. do 4 eexists. split; [exact Hr|]. do 5 (split; [eassumption|]).
  assert (HC : 0 < p_C p) by (apply cap_pos; assumption). assert (HCD : 0 < p_CD p) by (apply cap_pos; assumption).
  pose proof (gtau1_pos _ _ _ _ _ HC HCD P3 P5 P6) as T1. pose proof (gtau2_pos _ _ _ _ _ HC HCD P3 P5 P6) as T2.
  pose proof (tau_prod _ _ _ _ _ HC HCD P3 P5 P6) as TP. pose proof (tau_sum _ _ _ _ _ HC HCD P3 P5 P6) as TS.
  split; [exact T1|]. split; [apply gtau_lt; assumption|]. split; [apply gq1_pos; assumption|]. split; [apply gq2_pos; assumption|].
  split; [exact TP|].
  split. { set (t1 := gtau1 _ _ _ _ _) in *. set (t2 := gtau2 _ _ _ _ _) in *.
    replace (1 / t1 + 1 / t2) with ((t1 + t2) / (t1 * t2)) by (field; lra). rewrite TS, TP. unfold gb. field. lra. }
  split. { rewrite q_sum by assumption. field. lra. }
  split. { rewrite q_rate by assumption. field. lra. }
  split. { exact (back_moment _ _ _ _ _ HC HCD P3 P5 P6). }
  pose proof (back_cross _ _ _ _ _ HC HCD P3 P5 P6) as K.
  apply Rmult_eq_reg_l with (p_lambda0 p); [|lra]. rewrite Rmult_plus_distr_l, <- !Rmult_assoc, K. field. lra.
Qed.

Definition ex_conv : TLP := mkTLPhys 50 1200 (5/4) 0 (6/5) (4/5) 31557600.
Lemma ex_conv_ok : convertible_tl ex_conv.
Proof. unfold convertible_tl, ex_conv; cbn; lra. Qed.

Example c21_case : forall reg parse, exists s, tl_reachable (xenv reg) parse s /\ tl_values reg s ex_conv /\ convertible_tl ex_conv.
Proof.
  intros reg parse. destruct (tl_model reg parse ex_conv) as (s & H1 & H2). exists s. auto using ex_conv_ok.
Qed.

(** ** C22 *)
Theorem c22_round_trip_two_layer : forall reg s p,
  tl_values reg s p -> convertible_tl p ->
  exists r, tl_get_impulse_response_parameters (xenv reg) s = Ok r /\
  forall dt x, is_qty reg dt x u_yr ->
  exists s' r', ir_new (xenv reg) (ir_args_of r dt) = Ok s' /\
    ir_get_two_layer_parameters (xenv reg) s' = Ok r' /\
    is_qty reg (tlp_lambda0 _ r') (p_lambda0 p) u_Wm2C /\
    is_qty reg (tlp_du _ r') (p_du p) u_m /\ is_qty reg (tlp_dl _ r') (p_dl p) u_m /\
    is_qty reg (tlp_eta _ r') (p_eta p) u_Wm2C /\
    tlp_efficacy _ r' = tl_efficacy _ s.
Proof.
  intros reg s p Hv (P1 & P2 & P3 & Ha & P5 & P6).
  destruct (t2i_ok reg s p Hv Ha P1 P2 P3 P5 P6) as (r & Hr & V1 & V2 & V3 & V4 & V5).
  exists r. split; [exact Hr|]. intros dt x Hdt.
  assert (HC : 0 < p_C p) by (apply cap_pos; assumption). assert (HCD : 0 < p_CD p) by (apply cap_pos; assumption).
  destruct (back_facts _ _ _ _ _ HC HCD P3 P5 P6) as (T1 & T2 & T12 & X1 & X2 & XS & XR).
  pose proof (year_s_pos reg) as Y.
  assert (Ve : is_qty reg (irp_efficacy _ r) (p_eps p) u_none) by (rewrite V5; apply Hv).
  pose proof (s_to_yr reg _ _ V1) as W1. pose proof (s_to_yr reg _ _ V2) as W2.
  destruct (ir_make reg (fun _ => None) (irp_q1 _ r) (irp_q2 _ r) (irp_d1 _ r) (irp_d2 _ r) (irp_efficacy _ r) dt
    (mkIRPhys _ _ _ _ _ _) V3 V4 W1 W2 Ve Hdt) as (s' & Hs' & _ & _ & E1 & E2 & E3 & E4 & E5 & E6).
  { cbn. apply Rmult_lt_compat_r; [apply Rinv_0_lt_compat; exact Y|exact T12]. }
  exists s'.
  destruct (i2t_ok reg s' (gq1 (p_C p) (p_CD p) (p_lambda0 p) (p_eps p) (p_eta p)) (gq2 (p_C p) (p_CD p) (p_lambda0 p) (p_eps p) (p_eta p))
    (gtau1 (p_C p) (p_CD p) (p_lambda0 p) (p_eps p) (p_eta p)) (gtau2 (p_C p) (p_CD p) (p_lambda0 p) (p_eps p) (p_eta p)) (p_eps p))
    as (r' & Hr' & A1 & A2 & A3 & A4 & A5 & _); rewrite ?E1, ?E2, ?E3, ?E4, ?E5; try assumption; try lra.
  { pose proof (den_pos _ _ _ _ (p_eps p) X1 X2 T1 T2 (Rlt_not_eq _ _ T12) P5). lra. }
  exists r'. split; [exact Hs'|]. split; [exact Hr'|].
  rewrite back_lam in A1 by assumption. rewrite back_C in A2 by assumption. rewrite back_CD in A3 by assumption.
  rewrite back_eta in A4 by assumption.
  replace (p_C p / (1000 * 4181)) with (p_du p) in A2 by (unfold p_C, water_capacity; field).
  replace (p_CD p / (1000 * 4181)) with (p_dl p) in A3 by (unfold p_CD, water_capacity; field).
  do 4 (split; [assumption|]). rewrite A5, E5. exact V5.
Qed.

Example c22_case : forall reg, exists s, tl_values reg s ex_conv /\ convertible_tl ex_conv /\
  is_qty reg (mkQ (env := xenv reg) (Fin 2) u_month) (2 * (rg_size reg smonth / rg_size reg syr)) u_yr.
Proof.
  intros reg. destruct (tl_model reg (fun _ => None) ex_conv) as (s & H1 & H2). exists s.
  split; [exact H2|]. split; [exact ex_conv_ok|].
  eapply is_qty_conv; [apply is_qty_self|dims reg|]. usz. rgpos reg. field. lra.
Qed.

(** ** C23 *)
Lemma i2t_values reg s p : ir_values reg s p -> convertible_ir p ->
  let Y := year_s reg in
  exists r, ir_get_two_layer_parameters (xenv reg) s = Ok r /\
    is_qty reg (tlp_lambda0 _ r) (hlam (p_q1 p) (p_q2 p)) u_Wm2C /\
    is_qty reg (tlp_du _ r) (hC (p_q1 p) (p_q2 p) (Y * p_d1 p) (Y * p_d2 p) / (1000 * 4181)) u_m /\
    is_qty reg (tlp_dl _ r) (hCD (p_q1 p) (p_q2 p) (Y * p_d1 p) (Y * p_d2 p) (p_ieps p) / (1000 * 4181)) u_m /\
    is_qty reg (tlp_eta _ r) (heta (p_q1 p) (p_q2 p) (Y * p_d1 p) (Y * p_d2 p) (p_ieps p)) u_Wm2C /\
    tlp_efficacy _ r = ir_efficacy _ s.
Proof.
  intros (V1 & V2 & V3 & V4 & V5 & V6) (P1 & P2 & P3 & P4 & P5) Y. pose proof (year_s_pos reg) as PY.
  destruct (i2t_ok reg s _ _ _ _ _ V1 V2 (yr_to_s reg _ _ V3) (yr_to_s reg _ _ V4) V5) as (r & Hr & A1 & A2 & A3 & A4 & A5 & _); try lra.
  - assert (0 < p_q1 p * (year_s reg * p_d2 p)) by (apply pos_mul; [|apply pos_mul]; lra).
    assert (0 < p_q2 p * (year_s reg * p_d1 p)) by (apply pos_mul; [|apply pos_mul]; lra). lra.
  - exists r. auto 10.
Qed.

Theorem c23_round_trip_impulse_response : forall reg s p,
  ir_values reg s p -> convertible_ir p ->
  exists r du dl lambda0 eta, ir_get_two_layer_parameters (xenv reg) s = Ok r /\
    is_qty reg (tlp_du _ r) du u_m /\ is_qty reg (tlp_dl _ r) dl u_m /\
    is_qty reg (tlp_lambda0 _ r) lambda0 u_Wm2C /\ is_qty reg (tlp_eta _ r) eta u_Wm2C /\
    0 < du /\ 0 < dl /\ 0 < lambda0 /\ 0 < eta /\ lambda0 = 1 / (p_q1 p + p_q2 p) /\
  forall a dt x, is_qty reg a 0 u_Wm2C2 -> is_qty reg dt x u_s ->
  exists s' r', tl_new (xenv reg) (tl_args_of r a dt) = Ok s' /\
    tl_get_impulse_response_parameters (xenv reg) s' = Ok r' /\
    is_qty reg (irp_d1 _ r') (p_d1 p) u_yr /\ is_qty reg (irp_d2 _ r') (p_d2 p) u_yr /\
    is_qty reg (irp_q1 _ r') (p_q1 p) u_CWm2 /\ is_qty reg (irp_q2 _ r') (p_q2 p) u_CWm2 /\
    irp_efficacy _ r' = ir_efficacy _ s.
Proof.
  intros reg s p Hv HP. pose proof HP as (P1 & P2 & P3 & P4 & P5). pose proof (year_s_pos reg) as PY. set (Y := year_s reg) in *.
  pose proof (i2t_values reg s p Hv HP) as K0. cbn zeta in K0. fold Y in K0. destruct K0 as (r & Hr & A1 & A2 & A3 & A4 & A5).
  assert (D1 : 0 < Y * p_d1 p) by (apply pos_mul; lra). assert (D2 : 0 < Y * p_d2 p) by (apply pos_mul; lra).
  assert (D12 : Y * p_d1 p < Y * p_d2 p) by (apply Rmult_lt_compat_l; lra).
  assert (Dn : Y * p_d1 p <> Y * p_d2 p) by lra.
  pose proof (hlam_pos _ _ _ _ _ P1 P2 D1 D2 Dn P5) as Q1. pose proof (hC_pos _ _ _ _ _ P1 P2 D1 D2 Dn P5) as Q2.
  pose proof (hCD_pos _ _ _ _ _ P1 P2 D1 D2 Dn P5) as Q3. pose proof (heta_pos _ _ _ _ _ P1 P2 D1 D2 Dn P5) as Q4.
  set (l := hlam _ _) in *. set (C := hC _ _ _ _) in *. set (CD := hCD _ _ _ _ _) in *. set (h := heta _ _ _ _ _) in *.
  assert (R1 : 0 < C / (1000 * 4181)) by (apply pos_div; lra). assert (R2 : 0 < CD / (1000 * 4181)) by (apply pos_div; lra).
  exists r. do 4 eexists. split; [exact Hr|]. do 4 (split; [eassumption|]). do 4 (split; [assumption|]). split; [reflexivity|].
  intros a dt x Ha Hdt.
  assert (Ve : is_qty reg (tlp_efficacy _ r) (p_ieps p) u_none) by (rewrite A5; apply Hv).
  destruct (tl_make reg (fun _ => None) _ _ _ _ _ _ _ (mkTLPhys _ _ _ _ _ _ _) A2 A3 A1 Ha Ve A4 Hdt) as (s' & Hs' & _ & Hv').
  exists s'. destruct (t2i_ok reg s' _ Hv') as (r' & Hr' & B); cbn; try assumption; [reflexivity|].
  exists r'. split; [exact Hs'|]. split; [exact Hr'|]. unfold p_C, p_CD in B. cbn [p_du p_dl p_lambda0 p_eps p_eta] in B.
  replace (water_capacity (C / (1000 * 4181))) with C in B by (unfold water_capacity; field).
  replace (water_capacity (CD / (1000 * 4181))) with CD in B by (unfold water_capacity; field).
  destruct B as (B1 & B2 & B3 & B4 & B5).
  unfold C, CD, l, h in B1, B2, B3, B4. rewrite h_tau1 in B1 by assumption. rewrite h_tau2 in B2 by assumption.
  destruct (h_q _ _ _ _ _ P1 P2 D1 D2 Dn P5 D12) as (K1 & K2). rewrite K1 in B3. rewrite K2 in B4.
  apply (s_to_yr reg) in B1. apply (s_to_yr reg) in B2.
  replace (Y * p_d1 p / year_s reg) with (p_d1 p) in B1 by (unfold Y in *; field; lra).
  replace (Y * p_d2 p / year_s reg) with (p_d2 p) in B2 by (unfold Y in *; field; lra).
  do 4 (split; [assumption|]). rewrite B5. rewrite <- A5.
  destruct (tl_new_ok (xenv reg) (tl_args_of r a dt)) as (s2 & Hs2 & _ & Hg & _).
  { intros []; cbn; eapply good_of; eassumption. }
  unfold tl_args_of in Hs2. rewrite Hs' in Hs2. injection Hs2 as <-. pose proof (Hg Pefficacy) as K. cbn in K. injection K as ->. reflexivity.
Qed.

Definition ex_irc : IRP := mkIRPhys (3/10) (4/10) 9 400 (6/5) 1.
Example c23_case : forall reg, exists s, ir_values reg s ex_irc /\ convertible_ir ex_irc /\
  is_qty reg (mkQty (xenv reg) 0 u_Wm2C2) 0 u_Wm2C2.
Proof.
  intros reg. destruct (ir_model reg (fun _ => None) ex_irc) as (s & H1 & H2 & _); [cbn; lra|]. exists s.
  split; [exact H2|]. split; [unfold convertible_ir; cbn; lra|]. rewrite <- Q2R_0 at 1. apply is_qty_lit.
Qed.

(** ** C24 *)
Lemma discriminant_ok p : discriminant p = gdelta (p_C p) (p_CD p) (p_lambda0 p) (p_eps p) (p_eta p).
Proof. unfold discriminant, gdelta, gb, Rdiv. ring. Qed.

Theorem c24_state_dependence_is_refused : forall reg s p,
  tl_values reg s p ->
  (tl_get_impulse_response_parameters (xenv reg) s = Err ValueError <-> p_a p <> 0).
Proof.
  intros reg s p Hv. split; [|apply t2i_a; exact Hv].
  intros H Ha. pose proof (t2i_cases reg s p Hv Ha) as K. rewrite H in K. cbn in K.
  destruct K as [(K & _)|(_ & _ & _ & [(K & _)|(K & _)])]; discriminate K.
Qed.

(** Without state dependence: every outcome for all parameter values. *)
Theorem c24_all_outcomes : forall reg s p,
  tl_values reg s p -> p_a p = 0 ->
  (tl_get_impulse_response_parameters (xenv reg) s = Err ZeroDivisionError <->
     p_du p = 0 \/ p_dl p = 0 \/ p_lambda0 p = 0 \/ p_eta p = 0 \/ p_eps p = 0 \/ discriminant p = 0) /\
  (tl_get_impulse_response_parameters (xenv reg) s = Err ComplexValue <->
     p_du p <> 0 /\ p_dl p <> 0 /\ p_lambda0 p <> 0 /\ p_eta p <> 0 /\ discriminant p < 0) /\
  ((exists r, tl_get_impulse_response_parameters (xenv reg) s = Ok r) <->
     p_du p <> 0 /\ p_dl p <> 0 /\ p_lambda0 p <> 0 /\ p_eta p <> 0 /\ p_eps p <> 0 /\ 0 < discriminant p).
Proof.
  intros reg s p Hv Ha. pose proof (t2i_cases reg s p Hv Ha) as K. cbn zeta in K. rewrite <- discriminant_ok in K.
  assert (LE : p_lambda0 p * p_eta p = 0 <-> p_lambda0 p = 0 \/ p_eta p = 0).
  { split; [apply Rmult_integral|]. intros [-> | ->]; ring. }
  assert (E0 : p_du p <> 0 -> p_dl p <> 0 -> p_eps p = 0 -> 0 <= discriminant p).
  { intros Zu Zl Ze. apply cap_neq in Zu, Zl. fold (p_C p) in Zu. fold (p_CD p) in Zl.
    replace (discriminant p) with (Rsqr (p_lambda0 p / p_C p - p_eta p / p_CD p)); [apply Rle_0_sqr|].
    unfold discriminant, Rsqr. rewrite Ze. field. auto. }
  destruct (tl_get_impulse_response_parameters (xenv reg) s) as [r|x].
  - destruct K as (K1 & K2 & K3 & K4 & K5). rewrite LE in K3.
    split; [|split].
    + split; [discriminate|]. intros H. exfalso. destruct H as [H|[H|[H|[H|[H|H]]]]]; try lra; tauto.
    + split; [discriminate|]. intros H. lra.
    + split; [|eauto]. intros _. tauto.
  - destruct K as [(-> & K)|(K1 & K2 & K3 & [(-> & K)|(-> & K & K')])]; try rewrite LE in K; try rewrite LE in K3.
    + split; [|split]; (split; [try discriminate; try (intros (? & ?); discriminate); tauto|tauto]).
    + split; [|split].
      * split; [discriminate|]. intros H. exfalso.
        destruct H as [H|[H|[H|[H|[H|H]]]]]; try tauto; [specialize (E0 K1 K2 H); lra|lra].
      * tauto.
      * split; [intros (? & ?); discriminate|]. intros H. lra.
    + split; [tauto|]. split; (split; [try discriminate; intros (? & ?); discriminate|]); intros H; exfalso; [lra|].
      destruct K' as [K'|K']; [tauto|lra].
Qed.

(** In particular the documented one-layer setting eta = 0 is refused, and
    positive parameters are accepted. *)
Theorem c24_one_layer_and_positive : forall reg s p,
  tl_values reg s p -> p_a p = 0 ->
  (p_eta p = 0 -> tl_get_impulse_response_parameters (xenv reg) s = Err ZeroDivisionError) /\
  (p_lambda0 p = 0 -> tl_get_impulse_response_parameters (xenv reg) s = Err ZeroDivisionError) /\
  (convertible_tl p -> exists r, tl_get_impulse_response_parameters (xenv reg) s = Ok r).
Proof.
  intros reg s p Hv Ha. destruct (c24_all_outcomes reg s p Hv Ha) as (K1 & _ & _).
  split; [intros H; apply K1; tauto|]. split; [intros H; apply K1; tauto|].
  intros HP. destruct (c21_impulse_response_parameters reg s p Hv HP) as (r & _ & _ & _ & _ & H & _). eauto.
Qed.

Example c24_case : forall reg, exists s1 s2 s3,
  tl_values reg s1 (mkTLPhys 50 1200 (5/4) (1/20) 1 (4/5) 1) /\
  tl_values reg s2 (mkTLPhys 50 1200 (5/4) 0 1 0 1) /\
  tl_values reg s3 ex_conv.
Proof.
  intros reg. destruct (tl_model reg (fun _ => None) (mkTLPhys 50 1200 (5/4) (1/20) 1 (4/5) 1)) as (s1 & _ & H1).
  destruct (tl_model reg (fun _ => None) (mkTLPhys 50 1200 (5/4) 0 1 0 1)) as (s2 & _ & H2).
  destruct (tl_model reg (fun _ => None) ex_conv) as (s3 & _ & H3). eauto 10.
Qed.
