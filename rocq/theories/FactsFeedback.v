(** Property C70: comparisons with state-dependent feedback. *)
From Coq Require Import List String QArith Reals Qreals Bool Arith Lra Lia Psatz.
From Verif Require Import Arith Pint Base TwoLayer Impulse Scm Api Spec Exact SpecReal
  RealUnits RealTL RealGeo RealModels RealEuler FactsRun FactsTL FactsTL2 SpecFeedback.
Import ListNotations.
Local Open Scope R_scope.

(** ** One step *)
Section Step.
Variables (p : TLP) (B : R).
Hypothesis H : feedback_step p B.
Let h := p_dt p / p_C p.
Let g := p_dt p / p_CD p.
Definition upf (F T TD : R) := T + p_dt p * dT_dt p F T TD.
Definition lof (T TD : R) := TD + p_dt p * dTD_dt p T TD.
Lemma caps_pos : 0 < p_C p /\ 0 < p_CD p.
Proof. destruct H as (H1 & H2 & _). split; apply cap_pos; assumption. Qed.
Lemma h_pos : 0 < h. Proof. apply pos_div; [apply H|apply caps_pos]. Qed.
Lemma g_pos' : 0 < g. Proof. apply pos_div; [apply H|apply caps_pos]. Qed.
Lemma h_cond : h * (p_lambda0 p + 2 * Rmax 0 (- p_a p) * B + p_eps p * p_eta p) <= 1.
Proof.
  destruct H as (_ & _ & _ & _ & _ & _ & K & _). destruct caps_pos as (C1 & _). unfold h.
  apply Rmult_le_reg_l with (p_C p); [exact C1|].
  replace (p_C p * (p_dt p / p_C p * (p_lambda0 p + 2 * Rmax 0 (- p_a p) * B + p_eps p * p_eta p)))
    with (p_dt p * (p_lambda0 p + 2 * Rmax 0 (- p_a p) * B + p_eps p * p_eta p)) by (field; lra). lra.
Qed.
Lemma g_cond : g * p_eta p <= 1.
Proof.
  destruct H as (_ & _ & _ & _ & _ & _ & _ & K). destruct caps_pos as (_ & C1). unfold g.
  apply Rmult_le_reg_l with (p_CD p); [exact C1|]. replace (p_CD p * (p_dt p / p_CD p * p_eta p)) with (p_dt p * p_eta p) by (field; lra). lra.
Qed.
Lemma upf_eq F T TD : upf F T TD = (1 - h * (p_lambda0 p + p_eps p * p_eta p)) * T + h * F + h * p_a p * (T * T) + h * (p_eps p * p_eta p) * TD.
Proof. unfold upf, dT_dt, h. destruct caps_pos. field. lra. Qed.
Lemma lof_eq T TD : lof T TD = (1 - g * p_eta p) * TD + g * p_eta p * T.
Proof. unfold lof, dTD_dt, g. destruct caps_pos. field. lra. Qed.
Lemma ee_nonneg : 0 <= p_eps p * p_eta p.
Proof. apply Rmult_le_pos; apply H. Qed.
Lemma lof_mono T TD T' TD' : T <= T' -> TD <= TD' -> lof T TD <= lof T' TD'.
Proof.
  intros. rewrite !lof_eq. pose proof g_cond. pose proof g_pos'. assert (0 <= p_eta p) by apply H.
  apply Rplus_le_compat; apply Rmult_le_compat_l; try lra. apply Rmult_le_pos; lra.
Qed.
(** Two states, both at most [B] if the feedback grows. *)
Lemma upf_mono F F' T TD T' TD' : 0 <= T -> T <= T' -> TD <= TD' -> F <= F' -> (p_a p < 0 -> T' <= B) ->
  upf F T TD <= upf F' T' TD'.
Proof.
  intros H0 H1 H2 H3 H4. rewrite !upf_eq. pose proof h_pos as P. pose proof h_cond as C. pose proof ee_nonneg as E.
  assert (K1 : h * F <= h * F') by (apply Rmult_le_compat_l; lra).
  assert (K2 : h * (p_eps p * p_eta p) * TD <= h * (p_eps p * p_eta p) * TD').
  { apply Rmult_le_compat_l; [apply Rmult_le_pos; lra|assumption]. }
  assert (K3 : 0 <= (T' - T) * (1 - h * (p_lambda0 p + p_eps p * p_eta p) + h * p_a p * (T + T'))).
  { apply Rmult_le_pos; [lra|]. destruct (Rle_lt_dec 0 (p_a p)) as [Ha|Ha].
    - assert (0 <= h * p_a p * (T + T')) by (apply Rmult_le_pos; [apply Rmult_le_pos|]; lra).
      rewrite Rmax_left in C by lra. lra.
    - specialize (H4 Ha). rewrite Rmax_right in C by lra.
      assert (0 <= h * - p_a p * (2 * B - (T + T'))) by (apply Rmult_le_pos; [apply Rmult_le_pos|]; lra).
      nra. }
  lra.
Qed.
(** At most M/lambda0 if the feedback grows. *)
Lemma upf_bound M F T TD : 0 <= T -> T <= B -> TD <= B -> p_a p <= 0 -> F <= M -> B = M / p_lambda0 p -> upf F T TD <= B.
Proof.
  intros H0 H1 H2 Ha HF HB. assert (HL : 0 < p_lambda0 p) by apply H. assert (HM : M = p_lambda0 p * B) by (rewrite HB; field; lra).
  apply Rle_trans with (upf M B B); [apply upf_mono; auto; lra|]. rewrite upf_eq, HM. pose proof h_pos as P.
  assert (0 <= h * - p_a p * (B * B)) by (apply Rmult_le_pos; [apply Rmult_le_pos; lra|apply Rle_0_sqr]). lra.
Qed.
Lemma lof_bound T TD : T <= B -> TD <= B -> lof T TD <= B.
Proof. intros. apply Rle_trans with (lof B B); [apply lof_mono; assumption|]. rewrite lof_eq. lra. Qed.
Lemma lof_nonneg T TD : 0 <= T -> 0 <= TD -> 0 <= lof T TD.
Proof. intros. apply Rle_trans with (lof 0 0); [rewrite lof_eq; lra|apply lof_mono; assumption]. Qed.
Lemma upf_zero F : upf F 0 0 = h * F.
Proof. rewrite upf_eq. ring. Qed.
End Step.

(** ** Runs *)
Lemma eu_upf p F i : eu p F (S i) = upf p (F i) (eu p F i) (el p F i). Proof. apply eu_S. Qed.
Lemma el_lof p F i : el p F (S i) = lof p (eu p F i) (el p F i). Proof. apply el_S. Qed.
Lemma run_range p F M n : feedback_step p (M / p_lambda0 p) -> (forall i, (i < n)%nat -> 0 <= F i <= M) ->
  forall i, (i <= n)%nat -> 0 <= eu p F i /\ 0 <= el p F i /\ (p_a p <= 0 -> (0 < n)%nat -> eu p F i <= M / p_lambda0 p /\ el p F i <= M / p_lambda0 p).
Proof.
  intros H HF. induction i as [|i IH]; intros Hi.
  - change (eu p F 0) with 0. change (el p F 0) with 0. split; [lra|]. split; [lra|]. intros _ Hn. specialize (HF 0%nat Hn).
    assert (0 < p_lambda0 p) by apply H. assert (0 <= M / p_lambda0 p) by (apply Rmult_le_pos; [lra|left; apply Rinv_0_lt_compat; lra]). lra.
  - destruct (IH ltac:(lia)) as (I1 & I2 & I3). specialize (HF i ltac:(lia)). rewrite eu_upf, el_lof. split; [|split].
    + apply Rle_trans with (upf p 0 0 0); [rewrite (upf_zero p _ H); lra|]. apply (upf_mono p _ H); try lra. intros Ha. apply I3; [lra|lia].
    + apply (lof_nonneg p _ H); assumption.
    + intros Ha Hn. destruct (I3 Ha Hn). split; [apply (upf_bound p _ H M); tauto|apply (lof_bound p _ H); assumption].
Qed.
(** [p'] has the weaker feedback, [F'] is the larger forcing. *)
Lemma run_compare p lam a F F' M n : lam <= p_lambda0 p -> p_a p <= a ->
  let p' := with_feedback lam a p in
  feedback_step p (M / lam) -> 0 < lam -> (forall i, (i < n)%nat -> 0 <= F i <= F' i /\ F' i <= M) ->
  forall i, (i <= n)%nat -> eu p F i <= eu p' F' i /\ el p F i <= el p' F' i.
Proof.
  intros Hl Ha p' H Pl HF. destruct n as [|n0].
  { intros i Hi. replace i with 0%nat by lia. change (eu p F 0) with 0. change (el p F 0) with 0.
    change (eu p' F' 0) with 0. change (el p' F' 0) with 0. lra. }
  set (n := S n0) in *.
  assert (HM : 0 <= M) by (specialize (HF 0%nat ltac:(unfold n; lia)); lra).
  assert (HB : 0 <= M / lam) by (apply Rmult_le_pos; [lra|left; apply Rinv_0_lt_compat; lra]).
  assert (H' : feedback_step p' (M / lam)).
  { destruct H as (H1 & H2 & H3 & H4 & H5 & H6 & H7 & H8). unfold feedback_step, p', p_C, p_CD. cbn. repeat (split; [assumption|]). split; [|exact H8].
    eapply Rle_trans; [|exact H7]. apply Rmult_le_compat_l; [lra|]. apply Rplus_le_compat_r. apply Rplus_le_compat; [exact Hl|].
    apply Rmult_le_compat_r; [exact HB|]. apply Rmult_le_compat_l; [lra|]. apply Rle_max_compat_l. lra. }
  assert (HN : feedback_step p (M / p_lambda0 p)).
  { destruct H as (H1 & H2 & H3 & H4 & H5 & H6 & H7 & H8). unfold feedback_step. repeat (split; [assumption|]). split; [|exact H8].
    eapply Rle_trans; [|exact H7]. apply Rmult_le_compat_l; [lra|]. apply Rplus_le_compat_r, Rplus_le_compat_l.
    apply Rmult_le_compat_l; [pose proof (Rmax_l 0 (- p_a p)); lra|]. unfold Rdiv. apply Rmult_le_compat_l; [exact HM|]. apply Rinv_le_contravar; assumption. }
  induction i as [|i IH]; intros Hi.
  - change (eu p F 0) with 0. change (el p F 0) with 0. change (eu p' F' 0) with 0. change (el p' F' 0) with 0. lra.
  - destruct (IH ltac:(lia)) as (I1 & I2). rewrite !eu_upf, !el_lof. destruct (HF i ltac:(lia)) as ((F1 & F2) & F3).
    destruct (run_range p F M n HN ltac:(intros j Hj; specialize (HF j Hj); lra) i ltac:(lia)) as (R1 & R2 & _).
    destruct (run_range p' F' M n H' ltac:(intros j Hj; specialize (HF j Hj); lra) i ltac:(lia)) as (_ & _ & R3).
    split.
    + apply Rle_trans with (upf p' (F i) (eu p F i) (el p F i)).
      * unfold upf. change (p_dt p') with (p_dt p). apply Rplus_le_compat_l, Rmult_le_compat_l; [left; apply H|].
        unfold dT_dt. change (p_C p') with (p_C p). change (p_eps p') with (p_eps p). change (p_eta p') with (p_eta p).
        change (p_lambda0 p') with lam. change (p_a p') with a. unfold Rdiv. apply Rmult_le_compat_r; [left; apply Rinv_0_lt_compat, (caps_pos p _ H)|].
        assert (0 <= (a - p_a p) * (eu p F i * eu p F i)) by (apply Rmult_le_pos; [lra|apply Rmult_le_pos; lra]).
        assert (0 <= (p_lambda0 p - lam) * eu p F i) by (apply Rmult_le_pos; lra). lra.
      * apply (upf_mono p' (M / lam) H'); auto. intros Hn. apply R3; [lra|unfold n; lia].
    + change (lof p (eu p F i) (el p F i)) with (lof p' (eu p F i) (el p F i)). apply (lof_mono p' (M / lam) H'); assumption.
Qed.

(** Sums and multiples of forcings: more than additive when a > 0, less when a < 0. *)
Lemma feedback_step_le p B B' : feedback_step p B -> B' <= B -> feedback_step p B'.
Proof.
  intros (H1 & H2 & H3 & H4 & H5 & H6 & H7 & H8) HB. unfold feedback_step. repeat (split; [assumption|]). split; [|exact H8].
  eapply Rle_trans; [|exact H7]. apply Rmult_le_compat_l; [lra|]. apply Rplus_le_compat_r, Rplus_le_compat_l.
  apply Rmult_le_compat_l; [pose proof (Rmax_l 0 (- p_a p)); lra|exact HB].
Qed.
Lemma div_le_r x y z : 0 < z -> x <= y -> x / z <= y / z.
Proof. intros. unfold Rdiv. apply Rmult_le_compat_r; [left; apply Rinv_0_lt_compat; assumption|assumption]. Qed.
Lemma run_sum p F G M1 M2 n : feedback_step p ((M1 + M2) / p_lambda0 p) ->
  (forall i, (i < n)%nat -> 0 <= F i <= M1 /\ 0 <= G i <= M2) ->
  forall i, (i <= n)%nat ->
    (0 <= p_a p -> eu p F i + eu p G i <= eu p (fun i => F i + G i) i /\ el p F i + el p G i <= el p (fun i => F i + G i) i) /\
    (p_a p <= 0 -> eu p (fun i => F i + G i) i <= eu p F i + eu p G i /\ el p (fun i => F i + G i) i <= el p F i + el p G i).
Proof.
  intros H HF. set (Q := fun i => F i + G i). destruct n as [|n0].
  { intros i Hi. replace i with 0%nat by lia. unfold eu, el. cbn. split; intros; lra. }
  set (n := S n0) in *. assert (PL : 0 < p_lambda0 p) by apply H.
  destruct (HF 0%nat ltac:(unfold n; lia)) as (Z1 & Z2).
  assert (H1 : feedback_step p (M1 / p_lambda0 p)) by (eapply feedback_step_le; [exact H|apply div_le_r; lra]).
  assert (H2 : feedback_step p (M2 / p_lambda0 p)) by (eapply feedback_step_le; [exact H|apply div_le_r; lra]).
  assert (ED : (M1 + M2) / p_lambda0 p = M1 / p_lambda0 p + M2 / p_lambda0 p) by (field; lra).
  induction i as [|i IH]; intros Hi; [unfold eu, el; cbn; split; intros; lra|].
  destruct (IH ltac:(lia)) as (I1 & I2). destruct (HF i ltac:(lia)) as (F1 & F2).
  destruct (run_range p F M1 n H1 ltac:(intros j Hj; apply HF, Hj) i ltac:(lia)) as (R1 & R2 & R3).
  destruct (run_range p G M2 n H2 ltac:(intros j Hj; apply HF, Hj) i ltac:(lia)) as (S1 & S2 & S3).
  assert (HQ : forall j, (j < n)%nat -> 0 <= Q j <= M1 + M2) by (intros j Hj; destruct (HF j Hj); unfold Q; lra).
  destruct (run_range p Q (M1 + M2) n H HQ i ltac:(lia)) as (Q1 & Q2 & Q3).
  rewrite !eu_upf, !el_lof. set (T := eu p F i) in *. set (U := eu p G i) in *. set (V := eu p Q i) in *.
  set (TD := el p F i) in *. set (UD := el p G i) in *. set (VD := el p Q i) in *.
  assert (EU : upf p (Q i) (T + U) (TD + UD) = upf p (F i) T TD + upf p (G i) U UD + 2 * (p_dt p / p_C p) * (p_a p * (T * U))).
  { rewrite !(upf_eq p _ H). unfold Q. ring. }
  assert (EL : lof p (T + U) (TD + UD) = lof p T TD + lof p U UD) by (rewrite !(lof_eq p _ H); ring).
  pose proof (h_pos p _ H) as Ph. assert (TU : 0 <= T * U) by (apply Rmult_le_pos; lra).
  split; intros Ha.
  - destruct (I1 Ha) as (J1 & J2). split.
    + apply Rle_trans with (upf p (Q i) (T + U) (TD + UD)).
      * rewrite EU. assert (0 <= 2 * (p_dt p / p_C p) * (p_a p * (T * U))) by (apply Rmult_le_pos; [lra|apply Rmult_le_pos; lra]). lra.
      * apply (upf_mono p _ H); try lra. 
    + rewrite <- EL. apply (lof_mono p _ H); assumption.
  - destruct (I2 Ha) as (J1 & J2). split.
    + apply Rle_trans with (upf p (Q i) (T + U) (TD + UD)).
      * apply (upf_mono p _ H); try lra. intros _. rewrite ED.
        destruct (R3 Ha ltac:(unfold n; lia)), (S3 Ha ltac:(unfold n; lia)). lra.
      * rewrite EU. assert (0 <= 2 * (p_dt p / p_C p) * (- p_a p * (T * U))) by (apply Rmult_le_pos; [lra|apply Rmult_le_pos; lra]). lra.
    + rewrite <- EL. apply (lof_mono p _ H); assumption.
Qed.
Lemma run_scale p F k M n : 1 <= k -> feedback_step p (k * M / p_lambda0 p) ->
  (forall i, (i < n)%nat -> 0 <= F i <= M) ->
  forall i, (i <= n)%nat ->
    (0 <= p_a p -> k * eu p F i <= eu p (fun i => k * F i) i /\ k * el p F i <= el p (fun i => k * F i) i) /\
    (p_a p <= 0 -> eu p (fun i => k * F i) i <= k * eu p F i /\ el p (fun i => k * F i) i <= k * el p F i).
Proof.
  intros Hk H HF. set (Q := fun i => k * F i). destruct n as [|n0].
  { intros i Hi. replace i with 0%nat by lia. unfold eu, el. cbn. split; intros; lra. }
  set (n := S n0) in *. assert (PL : 0 < p_lambda0 p) by apply H.
  pose proof (HF 0%nat ltac:(unfold n; lia)) as Z1.
  assert (H1 : feedback_step p (M / p_lambda0 p)).
  { eapply feedback_step_le; [exact H|]. apply div_le_r; [exact PL|]. assert (0 <= (k - 1) * M) by (apply Rmult_le_pos; lra). lra. }
  assert (ED : k * M / p_lambda0 p = k * (M / p_lambda0 p)) by (field; lra).
  induction i as [|i IH]; intros Hi; [unfold eu, el; cbn; split; intros; lra|].
  destruct (IH ltac:(lia)) as (I1 & I2). pose proof (HF i ltac:(lia)) as F1.
  destruct (run_range p F M n H1 HF i ltac:(lia)) as (R1 & R2 & R3).
  assert (HQ : forall j, (j < n)%nat -> 0 <= Q j <= k * M).
  { intros j Hj. specialize (HF j Hj). unfold Q. split; [apply Rmult_le_pos; lra|apply Rmult_le_compat_l; lra]. }
  destruct (run_range p Q (k * M) n H HQ i ltac:(lia)) as (Q1 & Q2 & Q3).
  rewrite !eu_upf, !el_lof. set (T := eu p F i) in *. set (V := eu p Q i) in *. set (TD := el p F i) in *. set (VD := el p Q i) in *.
  assert (EU : upf p (Q i) (k * T) (k * TD) = k * upf p (F i) T TD + p_dt p / p_C p * (p_a p * (k * (k - 1) * (T * T)))).
  { rewrite !(upf_eq p _ H). unfold Q. ring. }
  assert (EL : lof p (k * T) (k * TD) = k * lof p T TD) by (rewrite !(lof_eq p _ H); ring).
  pose proof (h_pos p _ H) as Ph.
  assert (TU : 0 <= k * (k - 1) * (T * T)) by (apply Rmult_le_pos; [apply Rmult_le_pos; lra|apply Rmult_le_pos; lra]).
  assert (KT : 0 <= k * T) by (apply Rmult_le_pos; lra).
  split; intros Ha.
  - destruct (I1 Ha) as (J1 & J2). split.
    + apply Rle_trans with (upf p (Q i) (k * T) (k * TD)).
      * rewrite EU. assert (0 <= p_dt p / p_C p * (p_a p * (k * (k - 1) * (T * T)))) by (apply Rmult_le_pos; [lra|apply Rmult_le_pos; lra]). lra.
      * apply (upf_mono p _ H); try lra.
    + rewrite <- EL. apply (lof_mono p _ H); assumption.
  - destruct (I2 Ha) as (J1 & J2). split.
    + apply Rle_trans with (upf p (Q i) (k * T) (k * TD)).
      * apply (upf_mono p _ H); try lra. intros _. rewrite ED. apply Rmult_le_compat_l; [lra|].
        apply (R3 Ha). unfold n; lia.
      * rewrite EU. assert (0 <= p_dt p / p_C p * (- p_a p * (k * (k - 1) * (T * T)))) by (apply Rmult_le_pos; [lra|apply Rmult_le_pos; lra]). lra.
    + rewrite <- EL. apply (lof_mono p _ H); assumption.
Qed.
Lemma run_rising p F M n : feedback_step p (M / p_lambda0 p) -> (forall i, (i < n)%nat -> 0 <= F i <= M) ->
  (forall i, (S i < n)%nat -> F i <= F (S i)) ->
  forall i, (i < n)%nat -> eu p F i <= eu p F (S i) /\ el p F i <= el p F (S i) /\ el p F i <= eu p F i.
Proof.
  intros H HF Up. induction i as [|i IH]; intros Hi.
  - destruct (run_range p F M n H HF 1%nat ltac:(lia)) as (R1 & R2 & _). change (eu p F 0) with 0. change (el p F 0) with 0. lra.
  - destruct (IH ltac:(lia)) as (I1 & I2 & I3). destruct (run_range p F M n H HF i ltac:(lia)) as (R1 & R2 & _).
    destruct (run_range p F M n H HF (S i) ltac:(lia)) as (_ & _ & R3).
    assert (L : el p F (S i) <= eu p F i).
    { rewrite el_lof. apply Rle_trans with (lof p (eu p F i) (eu p F i)); [apply (lof_mono p _ H); lra|]. rewrite (lof_eq p _ H). lra. }
    split; [|split; [|lra]].
    + rewrite (eu_upf p F (S i)), (eu_upf p F i) at 1. apply (upf_mono p _ H); auto. intros Hn. apply R3; [lra|lia].
    + rewrite (el_lof p F (S i)), (el_lof p F i) at 1. apply (lof_mono p _ H); assumption.
Qed.
Lemma run_under_root p F M r n : feedback_step p (M / p_lambda0 p) -> 0 <= p_a p -> 0 <= r ->
  p_a p * (r * r) - p_lambda0 p * r + M <= 0 -> (forall i, (i < n)%nat -> 0 <= F i <= M) ->
  forall i, (i <= n)%nat -> eu p F i <= r /\ el p F i <= r.
Proof.
  intros H Ha Hr Hroot HF. induction i as [|i IH]; intros Hi; [unfold eu, el; cbn; lra|].
  destruct (IH ltac:(lia)) as (I1 & I2). destruct (run_range p F M n H HF i ltac:(lia)) as (R1 & R2 & _).
  pose proof (HF i ltac:(lia)) as F1. rewrite eu_upf, el_lof. split.
  - apply Rle_trans with (upf p M r r); [apply (upf_mono p _ H); lra|]. rewrite (upf_eq p _ H). pose proof (h_pos p _ H) as Ph.
    assert (0 <= p_dt p / p_C p * - (p_a p * (r * r) - p_lambda0 p * r + M)) by (apply Rmult_le_pos; lra). lra.
  - apply Rle_trans with (lof p r r); [apply (lof_mono p _ H); assumption|]. rewrite (lof_eq p _ H). lra.
Qed.

(** ** C70 *)

(** Never negative, and (if the feedback does not weaken with temperature) never above the
    warming the largest forcing would give without state dependence. *)
Theorem c70_range : forall reg parse s p e F T TD N M,
  tl_setup reg parse s p e F -> tl_reports reg s e T TD N -> feedback_step p (M / p_lambda0 p) ->
  (forall i, (i < npoints e)%nat -> 0 <= F i <= M) ->
  forall i, (i < npoints e)%nat -> 0 <= T i /\ 0 <= TD i /\ (p_a p <= 0 -> T i <= M / p_lambda0 p /\ TD i <= M / p_lambda0 p).
Proof.
  intros reg parse s p e F T TD N M HS HR H HF i Hi. destruct (setup_inv _ _ _ _ _ _ _ _ _ HS HR) as (_ & I). destruct (I i Hi) as (-> & -> & _).
  destruct (run_range p F M (npoints e) H HF i ltac:(lia)) as (R1 & R2 & R3). split; [exact R1|]. split; [exact R2|]. intros Ha. apply R3; [exact Ha|lia].
Qed.

(** A larger forcing, a larger a and a smaller lambda0 give nowhere smaller temperatures. *)
Theorem c70_compare : forall reg parse s s' p lam a e e' F F' T TD N T' TD' N' M,
  tl_setup reg parse s p e F -> tl_reports reg s e T TD N ->
  tl_setup reg parse s' (with_feedback lam a p) e' F' -> tl_reports reg s' e' T' TD' N' -> npoints e' = npoints e ->
  0 < lam -> lam <= p_lambda0 p -> p_a p <= a -> feedback_step p (M / lam) ->
  (forall i, (i < npoints e)%nat -> 0 <= F i <= F' i /\ F' i <= M) ->
  forall i, (i < npoints e)%nat -> T i <= T' i /\ TD i <= TD' i.
Proof.
  intros reg parse s s' p lam a e e' F F' T TD N T' TD' N' M HS HR HS' HR' Hn Pl Hl Ha H HF i Hi.
  destruct (setup_inv _ _ _ _ _ _ _ _ _ HS HR) as (_ & I). destruct (I i Hi) as (-> & -> & _).
  destruct (setup_inv _ _ _ _ _ _ _ _ _ HS' HR') as (_ & I'). destruct (I' i ltac:(lia)) as (-> & -> & _).
  apply (run_compare p lam a F F' M (npoints e)); auto; lia.
Qed.

(** Forcings added: the temperatures are at least the sum if a >= 0, at most if a <= 0. *)
Theorem c70_forcings_added : forall reg parse s1 s2 s p e1 e2 e F G T1 TD1 N1 T2 TD2 N2 T TD N M1 M2,
  tl_setup reg parse s1 p e1 F -> tl_reports reg s1 e1 T1 TD1 N1 ->
  tl_setup reg parse s2 p e2 G -> tl_reports reg s2 e2 T2 TD2 N2 ->
  tl_setup reg parse s p e (fun i => F i + G i) -> tl_reports reg s e T TD N ->
  npoints e1 = npoints e -> npoints e2 = npoints e ->
  feedback_step p ((M1 + M2) / p_lambda0 p) -> (forall i, (i < npoints e)%nat -> 0 <= F i <= M1 /\ 0 <= G i <= M2) ->
  forall i, (i < npoints e)%nat ->
    (0 <= p_a p -> T1 i + T2 i <= T i /\ TD1 i + TD2 i <= TD i) /\ (p_a p <= 0 -> T i <= T1 i + T2 i /\ TD i <= TD1 i + TD2 i).
Proof.
  intros reg parse s1 s2 s p e1 e2 e F G T1 TD1 N1 T2 TD2 N2 T TD N M1 M2 HS1 HR1 HS2 HR2 HS HR L1 L2 H HF i Hi.
  destruct (setup_inv _ _ _ _ _ _ _ _ _ HS HR) as (_ & I). destruct (I i Hi) as (-> & -> & _).
  destruct (setup_inv _ _ _ _ _ _ _ _ _ HS1 HR1) as (_ & I1). destruct (I1 i ltac:(lia)) as (-> & -> & _).
  destruct (setup_inv _ _ _ _ _ _ _ _ _ HS2 HR2) as (_ & I2). destruct (I2 i ltac:(lia)) as (-> & -> & _).
  exact (run_sum p F G M1 M2 (npoints e) H HF i ltac:(lia)).
Qed.
(** A forcing multiplied by k >= 1: at least k times the temperatures if a >= 0, at most if a <= 0. *)
Theorem c70_forcing_multiplied : forall reg parse s s' p e e' F k T TD N T' TD' N' M,
  tl_setup reg parse s p e F -> tl_reports reg s e T TD N ->
  tl_setup reg parse s' p e' (fun i => k * F i) -> tl_reports reg s' e' T' TD' N' -> npoints e' = npoints e ->
  1 <= k -> feedback_step p (k * M / p_lambda0 p) -> (forall i, (i < npoints e)%nat -> 0 <= F i <= M) ->
  forall i, (i < npoints e)%nat ->
    (0 <= p_a p -> k * T i <= T' i /\ k * TD i <= TD' i) /\ (p_a p <= 0 -> T' i <= k * T i /\ TD' i <= k * TD i).
Proof.
  intros reg parse s s' p e e' F k T TD N T' TD' N' M HS HR HS' HR' Hn Hk H HF i Hi.
  destruct (setup_inv _ _ _ _ _ _ _ _ _ HS HR) as (_ & I). destruct (I i Hi) as (-> & -> & _).
  destruct (setup_inv _ _ _ _ _ _ _ _ _ HS' HR') as (_ & I'). destruct (I' i ltac:(lia)) as (-> & -> & _).
  exact (run_scale p F k M (npoints e) Hk H HF i ltac:(lia)).
Qed.

(** A forcing that starts at or above zero and never falls: nothing ever cools, the deep
    layer is never warmer than the surface, and heat is taken up. *)
Theorem c70_rising : forall reg parse s p e F T TD N M,
  tl_setup reg parse s p e F -> tl_reports reg s e T TD N -> feedback_step p (M / p_lambda0 p) ->
  (forall i, (i < npoints e)%nat -> 0 <= F i <= M) -> (forall i, (S i < npoints e)%nat -> F i <= F (S i)) ->
  (forall i, (S i < npoints e)%nat -> T i <= T (S i) /\ TD i <= TD (S i)) /\
  forall i, (i < npoints e)%nat -> TD i <= T i /\ 0 <= N i.
Proof.
  intros reg parse s p e F T TD N M HS HR H HF Up. destruct (setup_inv _ _ _ _ _ _ _ _ _ HS HR) as (_ & I).
  pose proof (run_rising p F M (npoints e) H HF Up) as K. split.
  - intros i Hi. destruct (I i ltac:(lia)) as (-> & -> & _). destruct (I (S i) Hi) as (-> & -> & _). destruct (K i ltac:(lia)) as (K1 & K2 & _). auto.
  - intros i Hi. destruct (I i Hi) as (-> & -> & ->). destruct (K i Hi) as (_ & _ & K3). split; [exact K3|].
    destruct i as [|i]; [cbn; lra|]. destruct (K i ltac:(lia)) as (K1 & K2 & _). cbn [en]. destruct (caps_pos p _ H) as (C1 & C2).
    assert (PT : 0 < p_dt p) by apply H. assert (0 <= p_C p / p_dt p) by (left; apply pos_div; lra). assert (0 <= p_CD p / p_dt p) by (left; apply pos_div; lra).
    assert (A1 : 0 <= p_C p / p_dt p * (eu p F (S i) - eu p F i)) by (apply Rmult_le_pos; lra).
    assert (A2 : 0 <= p_CD p / p_dt p * (el p F (S i) - el p F i)) by (apply Rmult_le_pos; lra).
    unfold Rdiv in *. lra.
Qed.

(** No tipping: as long as a forcing, however it varies, stays at or below a level for which
    some temperature r is an equilibrium (or cools), neither layer ever gets warmer than r. *)
Theorem c70_no_tipping : forall reg parse s p e F T TD N M r,
  tl_setup reg parse s p e F -> tl_reports reg s e T TD N -> feedback_step p (M / p_lambda0 p) ->
  0 <= p_a p -> 0 <= r -> p_a p * (r * r) - p_lambda0 p * r + M <= 0 -> (forall i, (i < npoints e)%nat -> 0 <= F i <= M) ->
  forall i, (i < npoints e)%nat -> T i <= r /\ TD i <= r.
Proof.
  intros reg parse s p e F T TD N M r HS HR H Ha Hr Hroot HF i Hi. destruct (setup_inv _ _ _ _ _ _ _ _ _ HS HR) as (_ & I).
  destruct (I i Hi) as (-> & -> & _). exact (run_under_root p F M r (npoints e) H Ha Hr Hroot HF i ltac:(lia)).
Qed.

(** The default parameters but a = 0.05 and -0.05: up to 4 W/m^2 the condition holds with
    one-year steps. *)
Definition ex_warm (a : R) : TLP := mkTLPhys 50 1200 (5/4) a 1 (4/5) 31557600.
Lemma ex_warm_ok a : -5/100 <= a <= 5/100 -> feedback_step (ex_warm a) (8 / (5/4)).
Proof.
  intros H. unfold feedback_step, ex_warm, p_C, p_CD, water_capacity. cbn. repeat (split; [lra|]).
  assert (Rmax 0 (- a) <= 5/100) by (apply Rmax_lub; lra). pose proof (Rmax_l 0 (- a)). split; nra.
Qed.
Example c70_case : forall reg parse a, -5/100 <= a <= 5/100 -> exists s e T TD N s' e' T' TD' N',
  feedback_step (ex_warm a) (8 / p_lambda0 (ex_warm a)) /\
  tl_setup reg parse s (ex_warm a) e (fun i => INR i) /\ npoints e = 4%nat /\ tl_reports reg s e T TD N /\
  tl_setup reg parse s' (ex_warm a) e' (fun i => INR i + INR i) /\ npoints e' = 4%nat /\ tl_reports reg s' e' T' TD' N' /\
  (0 < a -> 2 * T 3%nat < T' 3%nat) /\ (a < 0 -> T' 3%nat < 2 * T 3%nat).
Proof.
  intros reg parse a Ha. set (p := ex_warm a).
  destruct (tl_run_exists reg parse p (fun i => INR i) 4) as (s & e & Hr & Hv & Hn & HF & HR); try (cbn; lra).
  destruct (tl_run_exists reg parse p (fun i => INR i + INR i) 4) as (s' & e' & Hr' & Hv' & Hn' & HF' & HR'); try (cbn; lra).
  assert (H : feedback_step p (8 / p_lambda0 p)) by (apply ex_warm_ok, Ha).
  exists s, e. do 3 eexists. exists s', e'. do 3 eexists. split; [exact H|].
  split; [split; [exact Hr|split; [exact Hv|exact HF]]|]. split; [exact Hn|]. split; [exact HR|].
  split; [split; [exact Hr'|split; [exact Hv'|exact HF']]|]. split; [exact Hn'|]. split; [exact HR'|].
  pose proof (h_pos p _ H) as Ph. set (h := p_dt p / p_C p) in *.
  assert (E : eu p (fun i => INR i + INR i) 3 - 2 * eu p (fun i => INR i) 3 = 2 * h * (a * (h * h))).
  { rewrite !eu_upf, !el_lof. change (eu p _ 0) with 0. change (el p _ 0) with 0. change (eu p (fun i => INR i) 0) with 0. change (el p (fun i => INR i) 0) with 0.
    rewrite !(upf_eq p _ H), !(lof_eq p _ H), !eu_upf, !(upf_eq p _ H). change (eu p _ 0) with 0. change (el p _ 0) with 0.
    change (eu p (fun i => INR i) 0) with 0. change (el p (fun i => INR i) 0) with 0. fold h. cbn [INR]. replace (p_a p) with a by reflexivity. ring. }
  assert (P : 0 < h * h) by (apply Rmult_lt_0_compat; lra).
  split; intros K.
  - assert (0 < 2 * h * (a * (h * h))) by (apply Rmult_lt_0_compat; [lra|apply Rmult_lt_0_compat; lra]). lra.
  - assert (0 < 2 * h * (- a * (h * h))) by (apply Rmult_lt_0_compat; [lra|apply Rmult_lt_0_compat; lra]). lra.
Qed.
