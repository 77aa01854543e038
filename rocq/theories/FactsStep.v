(** Property C58: the sharp step-size limit of the two-layer model. *)
From Coq Require Import List String QArith Reals Qreals Bool Arith Lra Lia Psatz.
From Verif Require Import Arith Pint Base TwoLayer Impulse Scm Api Spec Exact SpecReal SpecStep
  GenTL GenTLHist GenIR GenIRHist GenMeta RealUnits RealTL RealGeo RealConv RealIR RealModels RealEuler RealBox RealEquiv RealStep
  FactsTL FactsTL2 FactsConv.
Import ListNotations.
Local Open Scope R_scope.

Lemma converts_inv reg s p q1 q2 d1 d2 : tl_values reg s p -> positive_tl p -> tl_converts reg s q1 q2 d1 d2 ->
  let gg f := f (p_C p) (p_CD p) (p_lambda0 p) (p_eps p) (p_eta p) : R in
  q1 = gg gq1 /\ q2 = gg gq2 /\ d1 = gg gtau1 /\ d2 = gg gtau2.
Proof.
  intros Hv Hp (r & Hr & A1 & A2 & A3 & A4). pose proof (l_conv p Hp) as (P1 & P2 & P3 & Ha & P5 & P6).
  destruct (t2i_ok reg s p Hv Ha P1 P2 P3 P5 P6) as (r' & Hr' & V1 & V2 & V3 & V4 & _).
  rewrite Hr in Hr'. injection Hr' as <-. cbn zeta.
  rewrite (is_qty_unique reg _ _ _ _ A1 V3), (is_qty_unique reg _ _ _ _ A2 V4),
    (is_qty_unique reg _ _ _ _ A3 V1), (is_qty_unique reg _ _ _ _ A4 V2). auto.
Qed.

(** ** C58 *)
Theorem c58_response_formula : forall reg parse s p e F T TD N q1 q2 d1 d2,
  tl_setup reg parse s p e F -> positive_tl p -> tl_converts reg s q1 q2 d1 d2 ->
  tl_reports reg s e T TD N ->
  forall n, (S n < npoints e)%nat ->
    T (S n) = sum_f_R0 (fun k => p_dt p * F k *
      (q1 / d1 * (1 - p_dt p / d1) ^ (n - k) + q2 / d2 * (1 - p_dt p / d2) ^ (n - k))) n.
Proof.
  intros reg parse s p e F T TD N q1 q2 d1 d2 HS Hp HC HR n Hn.
  destruct (converts_inv _ _ _ _ _ _ _ (proj1 (proj2 HS)) Hp HC) as (-> & -> & -> & ->).
  destruct (setup_inv _ _ _ _ _ _ _ _ _ HS HR) as (_ & HI). destruct (HI (S n) Hn) as (-> & _).
  apply conv_response, Hp.
Qed.

Theorem c58_step_response : forall reg parse s p e F T TD N q1 q2 d1 d2,
  tl_setup reg parse s p e (fun _ => F) -> positive_tl p -> tl_converts reg s q1 q2 d1 d2 ->
  tl_reports reg s e T TD N ->
  forall n, (n < npoints e)%nat ->
    T n = F * (q1 * (1 - (1 - p_dt p / d1) ^ n) + q2 * (1 - (1 - p_dt p / d2) ^ n)).
Proof.
  intros reg parse s p e F T TD N q1 q2 d1 d2 HS Hp HC HR n Hn.
  destruct (converts_inv _ _ _ _ _ _ _ (proj1 (proj2 HS)) Hp HC) as (-> & -> & -> & ->).
  destruct (setup_inv _ _ _ _ _ _ _ _ _ HS HR) as (_ & HI). destruct (HI n Hn) as (-> & _).
  apply step_response, Hp.
Qed.

(** Below the limit: the equilibrium of C17, now for every step up to the limit. *)
Theorem c58_below_the_limit : forall reg s p q1 q2 d1 d2 F T TD N,
  tl_values reg s p -> positive_tl p -> tl_converts reg s q1 q2 d1 d2 ->
  constant_forcing_response reg p F T TD N -> p_dt p < 2 * d1 ->
  Un_cv T (F / p_lambda0 p) /\ Un_cv TD (F / p_lambda0 p) /\ Un_cv N 0.
Proof.
  intros reg s p q1 q2 d1 d2 F T TD N Hv Hp HC HR Hd.
  destruct (converts_inv _ _ _ _ _ _ _ Hv Hp HC) as (-> & -> & -> & ->).
  destruct (response_values _ _ _ _ _ _ HR) as (HV & HZ). destruct (caps p HZ) as (C1 & C2 & C3).
  destruct (step_cv p Hp F Hd) as (U & L).
  split; [eapply cv_ext; [intros i; symmetry; apply HV|exact U]|].
  split; [eapply cv_ext; [intros i; symmetry; apply HV|exact L]|].
  eapply cv_ext; [intros i; symmetry; apply HV|]. apply cv_S.
  pose proof Hp as (P1 & P2 & P3 & Ha & P5 & P6 & P7).
  apply cv_ext with (fun i => F - p_lambda0 p * eu p (fun _ => F) i - (p_eps p - 1) * p_eta p * (eu p (fun _ => F) i - el p (fun _ => F) i)).
  { intros i. rewrite en_balance by assumption. rewrite Ha. ring. }
  apply cv_to with (F - p_lambda0 p * (F / p_lambda0 p) - (p_eps p - 1) * p_eta p * (F / p_lambda0 p - F / p_lambda0 p)); [field; lra|].
  apply CV_minus; [apply CV_minus; [apply cv_const|apply CV_mult; [apply cv_const|exact U]]|].
  apply CV_mult; [apply cv_const|]. apply CV_minus; assumption.
Qed.

(** Beyond it: both temperatures exceed every bound under every constant
    forcing but zero. *)
Theorem c58_beyond_the_limit : forall reg s p q1 q2 d1 d2 F T TD N,
  tl_values reg s p -> positive_tl p -> tl_converts reg s q1 q2 d1 d2 ->
  constant_forcing_response reg p F T TD N -> F <> 0 -> 2 * d1 < p_dt p ->
  cv_infty (fun n => Rabs (T n)) /\ cv_infty (fun n => Rabs (TD n)).
Proof.
  intros reg s p q1 q2 d1 d2 F T TD N Hv Hp HC HR HF Hd.
  destruct (converts_inv _ _ _ _ _ _ _ Hv Hp HC) as (-> & -> & -> & ->).
  destruct (response_values _ _ _ _ _ _ HR) as (HV & _).
  destruct (step_diverges p Hp F HF Hd) as (U & L).
  split; intros M; [destruct (U M) as (n0 & Hn)|destruct (L M) as (n0 & Hn)]; exists n0; intros n K.
  - destruct (HV n) as (-> & _). apply Hn, K.
  - destruct (HV n) as (_ & -> & _). apply Hn, K.
Qed.

(** At the limit it swings for ever, by twice the fast part of the equilibrium. *)
Theorem c58_at_the_limit : forall reg s p q1 q2 d1 d2 F T TD N,
  tl_values reg s p -> positive_tl p -> tl_converts reg s q1 q2 d1 d2 ->
  constant_forcing_response reg p F T TD N -> p_dt p = 2 * d1 ->
  Un_cv (fun n => T (2 * n)%nat) (F / p_lambda0 p - F * q1) /\
  Un_cv (fun n => T (S (2 * n))) (F / p_lambda0 p + F * q1) /\ 0 < q1.
Proof.
  intros reg s p q1 q2 d1 d2 F T TD N Hv Hp HC HR Hd.
  destruct (converts_inv _ _ _ _ _ _ _ Hv Hp HC) as (-> & -> & -> & ->).
  destruct (response_values _ _ _ _ _ _ HR) as (HV & _).
  destruct (step_flips p Hp F Hd) as (U & L).
  split; [|split; [|apply l_q1, Hp]].
  - eapply cv_ext; [intros i; symmetry; apply HV|].
    eapply cv_to; [|exact U]. unfold Rdiv. rewrite <- (l_qs p Hp). ring.
  - eapply cv_ext; [intros i; symmetry; apply HV|].
    eapply cv_to; [|exact L]. unfold Rdiv. rewrite <- (l_qs p Hp). ring.
Qed.

(** So the limit is exactly twice the fast timescale. *)
Theorem c58_converges_iff : forall reg s p q1 q2 d1 d2 F T TD N,
  tl_values reg s p -> positive_tl p -> tl_converts reg s q1 q2 d1 d2 ->
  constant_forcing_response reg p F T TD N -> F <> 0 ->
  ((exists L, Un_cv T L) <-> p_dt p < 2 * d1).
Proof.
  intros reg s p q1 q2 d1 d2 F T TD N Hv Hp HC HR HF. split.
  - intros (L & HL). destruct (Rtotal_order (p_dt p) (2 * d1)) as [H|[H|H]]; [assumption| |]; exfalso.
    + destruct (c58_at_the_limit _ _ _ _ _ _ _ _ _ _ _ Hv Hp HC HR H) as (U & V & Q).
      pose proof (UL_sequence _ _ _ U (cv_sub T L (fun n => (2 * n)%nat) ltac:(intros; cbv beta; lia) HL)).
      pose proof (UL_sequence _ _ _ V (cv_sub T L (fun n => S (2 * n)) ltac:(intros; cbv beta; lia) HL)).
      assert (F * q1 = 0) by lra. apply Rmult_integral in H2. lra.
    + destruct (c58_beyond_the_limit _ _ _ _ _ _ _ _ _ _ _ Hv Hp HC HR HF H) as (U & _).
      exact (infty_not_cv _ _ U HL).
  - intros H. eexists. exact (proj1 (c58_below_the_limit _ _ _ _ _ _ _ _ _ _ _ Hv Hp HC HR H)).
Qed.

(** Every bounded forcing has a bounded response below the limit ... *)
Theorem c58_bounded_below_the_limit : forall reg s p q1 q2 d1 d2,
  tl_values reg s p -> positive_tl p -> tl_converts reg s q1 q2 d1 d2 -> p_dt p < 2 * d1 ->
  exists K, forall parse s' e F M T TD N,
    tl_setup reg parse s' p e F -> tl_reports reg s' e T TD N ->
    (forall i, (i < npoints e)%nat -> Rabs (F i) <= M) ->
    forall i, (i < npoints e)%nat -> Rabs (T i) <= K * M /\ Rabs (TD i) <= K * M.
Proof.
  intros reg s p q1 q2 d1 d2 Hv Hp HC Hd.
  destruct (converts_inv _ _ _ _ _ _ _ Hv Hp HC) as (-> & -> & -> & ->).
  eexists (Rmax _ _). intros parse s' e F M T TD N HS HR HF i Hi.
  destruct (setup_inv _ _ _ _ _ _ _ _ _ HS HR) as (_ & HI). destruct (HI i Hi) as (-> & -> & _).
  assert (HM : 0 <= M) by (eapply Rle_trans; [apply Rabs_pos|apply (HF i Hi)]).
  destruct (bounded_response p Hp F M i Hd HM ltac:(intros; apply HF; lia)) as (B1 & B2).
  split; (eapply Rle_trans; [eassumption|]; apply Rmult_le_compat_r; [assumption|]).
  - apply Rmax_l.
  - apply Rmax_r.
Qed.

(** ... and from the limit on a forcing of alternating sign does not. *)
Theorem c58_resonance : forall reg parse s p q1 q2 d1 d2 B,
  tl_reachable (xenv reg) parse s -> tl_values reg s p -> positive_tl p -> tl_converts reg s q1 q2 d1 d2 -> 2 * d1 <= p_dt p ->
  exists e F T TD N i, is_series reg e F u_Wm2 /\ (forall j, Rabs (F j) = 1) /\
    tl_reports reg s e T TD N /\ (i < npoints e)%nat /\ B < Rabs (T i).
Proof.
  intros reg parse s p q1 q2 d1 d2 B Hr Hv Hp HC Hd.
  destruct (converts_inv _ _ _ _ _ _ _ Hv Hp HC) as (-> & -> & -> & ->).
  pose proof (l_q1 p Hp) as Q. pose proof (l_t1 p Hp) as T1. pose proof (l_dt p Hp) as D.
  set (k := gq1 (p_C p) (p_CD p) (p_lambda0 p) (p_eps p) (p_eta p) * (p_dt p / gtau1 (p_C p) (p_CD p) (p_lambda0 p) (p_eps p) (p_eta p))).
  assert (Hk : 0 < k) by (apply pos_mul; [assumption|apply pos_div; assumption]).
  destruct (nat_above (B / k)) as (i & Hi).
  destruct (a_series reg (fun k => (-1) ^ k) (S i)) as (e & Hn & HF).
  exists e, (fun k => (-1) ^ k). do 3 eexists. exists i.
  split; [exact HF|]. split; [intros j; apply pow_1_abs|].
  split; [apply (run_reports reg parse s p e _ Hr Hv HF); destruct Hp as (P1 & P2 & P3 & P4 & P5 & P6 & P7); lra|].
  split; [lia|]. eapply Rlt_le_trans; [|apply alternating_response; assumption]. fold k.
  apply Rmult_lt_reg_r with (/ k); [apply Rinv_0_lt_compat; assumption|].
  replace (k * INR i * / k) with (INR i) by (field; lra). exact Hi.
Qed.

(** The limit in terms of the parameters, and its relation to the condition of C16. *)
Theorem c58_limit_in_parameters : forall reg s p q1 q2 d1 d2,
  tl_values reg s p -> positive_tl p -> tl_converts reg s q1 q2 d1 d2 ->
  let b := (p_lambda0 p + p_eps p * p_eta p) / p_C p + p_eta p / p_CD p in
  (p_dt p < 2 * d1 <->
   p_dt p * b < 4 /\ 0 < 4 - 2 * (p_dt p * b) + p_dt p * p_dt p * (p_lambda0 p * p_eta p / (p_C p * p_CD p))) /\
  (small_step p -> p_dt p < 2 * d1).
Proof.
  intros reg s p q1 q2 d1 d2 Hv Hp HC b.
  destruct (converts_inv _ _ _ _ _ _ _ Hv Hp HC) as (-> & -> & -> & ->).
  split; [apply limit_params, Hp|apply small_within, Hp].
Qed.

(** The parameters of the examples: with steps of one year the limit is kept,
    with five years too (although not the condition of C16), with ten it is not. *)
Definition ex_step (years : R) : TLP := mkTLPhys 50 1200 (5/4) 0 1 (4/5) (years * 31557600).
Lemma ex_step_pos y : 0 < y -> positive_tl (ex_step y).
Proof. intros H. unfold positive_tl, ex_step. cbn. lra. Qed.
Lemma converts_exists reg s p : tl_values reg s p -> positive_tl p -> exists q1 q2 d1 d2, tl_converts reg s q1 q2 d1 d2.
Proof.
  intros Hv Hp. pose proof (l_conv p Hp) as (P1 & P2 & P3 & Ha & P5 & P6).
  destruct (t2i_ok reg s p Hv Ha P1 P2 P3 P5 P6) as (r & Hr & V1 & V2 & V3 & V4 & _).
  do 4 eexists. exists r. split; [exact Hr|]. eauto.
Qed.
Example c58_case : forall reg parse y, y = 5 \/ y = 10 -> exists s q1 q2 d1 d2 T TD N,
  tl_reachable (xenv reg) parse s /\ tl_values reg s (ex_step y) /\ positive_tl (ex_step y) /\ tl_converts reg s q1 q2 d1 d2 /\
  constant_forcing_response reg (ex_step y) 4 T TD N /\ ~ small_step (ex_step y) /\
  (y = 5 -> p_dt (ex_step y) < 2 * d1) /\ (y = 10 -> 2 * d1 < p_dt (ex_step y)).
Proof.
  intros reg parse y Hy. assert (Hp : positive_tl (ex_step y)) by (apply ex_step_pos; lra).
  destruct (tl_model reg parse (ex_step y)) as (s & Hr & Hv).
  destruct (converts_exists reg s _ Hv Hp) as (q1 & q2 & d1 & d2 & HC).
  exists s, q1, q2, d1, d2. do 3 eexists. do 4 (split; [assumption|]). split; [|split].
  - intros parse' s' e (Hr' & Hv' & HF). destruct Hp as (P1 & P2 & P3 & P4 & P5 & P6 & P7).
    apply (run_reports reg parse' s' _ e _ Hr' Hv' HF); lra.
  - unfold small_step, ex_step, p_C, p_CD, water_capacity. cbn. destruct Hy as [-> | ->]; lra.
  - destruct (c58_limit_in_parameters _ _ _ _ _ _ _ Hv Hp HC) as (HL & _). cbn zeta in HL. split.
    + intros ->. apply HL. unfold ex_step, p_C, p_CD, water_capacity. cbn. split; lra.
    + intros ->. destruct (Rle_lt_dec (p_dt (ex_step 10)) (2 * d1)) as [[H|H]|H]; [| |assumption]; exfalso.
      * apply HL in H. revert H. unfold ex_step, p_C, p_CD, water_capacity. cbn. intros (H1 & H2). lra.
      * assert (positive_tl (ex_step 9)) as Hp9 by (apply ex_step_pos; lra).
        destruct (tl_model reg parse (ex_step 9)) as (s9 & _ & Hv9).
        destruct (converts_exists reg s9 _ Hv9 Hp9) as (a1 & a2 & a3 & a4 & HC9).
        destruct (c58_limit_in_parameters _ _ _ _ _ _ _ Hv9 Hp9 HC9) as (HL9 & _). cbn zeta in HL9.
        destruct (converts_inv _ _ _ _ _ _ _ Hv Hp HC) as (_ & _ & E1 & _).
        destruct (converts_inv _ _ _ _ _ _ _ Hv9 Hp9 HC9) as (_ & _ & E9 & _).
        change (a3 = gtau1 (p_C (ex_step 10)) (p_CD (ex_step 10)) (p_lambda0 (ex_step 10)) (p_eps (ex_step 10)) (p_eta (ex_step 10))) in E9.
        rewrite <- E1 in E9. subst a3.
        assert (K : p_dt (ex_step 9) < 2 * d1) by (rewrite <- H; unfold ex_step; cbn; lra).
        apply HL9 in K. revert K. unfold ex_step, p_C, p_CD, water_capacity. cbn. intros (K1 & K2). lra.
Qed.
