(** The modes of forward Euler: closed forms and the sharp step-size limit. *)
From Coq Require Import Reals Lra Lia Psatz.
From Verif Require Import SpecReal RealTL RealGeo RealEuler RealBox RealEquiv.
Local Open Scope R_scope.

(** ** One mode *)
Lemma ebox_const q d dt F n : d <> 0 -> ebox q d dt (fun _ => F) n = q * F * (1 - (1 - dt / d) ^ n).
Proof. intros Hd. induction n as [|n IH]; cbn [ebox pow]; [ring|]. rewrite IH. field. assumption. Qed.

Lemma ebox_conv q d dt F n : d <> 0 ->
  ebox q d dt F (S n) = sum_f_R0 (fun k => dt * F k * (q / d * (1 - dt / d) ^ (n - k))) n.
Proof.
  intros Hd. induction n as [|n IH]; [cbn; field; assumption|].
  change (ebox q d dt F (S (S n))) with
    (ebox q d dt F (S n) + dt * ((q * F (S n) - ebox q d dt F (S n)) / d)).
  rewrite IH. cbn [sum_f_R0]. rewrite Nat.sub_diag. cbn [pow].
  replace (sum_f_R0 (fun k => dt * F k * (q / d * (1 - dt / d) ^ (S n - k))) n)
    with ((1 - dt / d) * sum_f_R0 (fun k => dt * F k * (q / d * (1 - dt / d) ^ (n - k))) n).
  - field. assumption.
  - rewrite scal_sum. apply sum_eq. intros i Hi. replace (S n - i)%nat with (S (n - i)) by lia. cbn [pow]. ring.
Qed.

(** The gain of a mode for bounded forcings. *)
Lemma ebox_gain q d dt F M n : 0 < q -> 0 < d -> 0 < dt -> dt < 2 * d -> 0 <= M ->
  (forall i, (i < n)%nat -> Rabs (F i) <= M) ->
  Rabs (ebox q d dt F n) <= q * (dt / d / (1 - Rabs (1 - dt / d))) * M.
Proof.
  intros Hq Hd Ht Hs HM HF.
  assert (H0 : 0 < dt / d) by (apply pos_div; assumption).
  assert (H2 : dt / d < 2).
  { apply Rmult_lt_reg_r with d; [assumption|]. unfold Rdiv. rewrite Rmult_assoc, Rinv_l by lra. lra. }
  set (h := dt / d) in *. assert (Hx : Rabs (1 - h) < 1) by (apply Rabs_def1; lra).
  set (x := Rabs (1 - h)) in *. pose proof (Rabs_pos (1 - h)) as Hx0. fold x in Hx0.
  assert (G : 0 < h / (1 - x)) by (apply pos_div; lra).
  induction n as [|n IH].
  - cbn. rewrite Rabs_R0. apply Rmult_le_pos; [|assumption]. apply Rmult_le_pos; lra.
  - cbn [ebox]. replace (ebox q d dt F n + dt * ((q * F n - ebox q d dt F n) / d))
      with ((1 - h) * ebox q d dt F n + h * q * F n) by (unfold h; field; lra).
    eapply Rle_trans; [apply Rabs_triang|]. rewrite !Rabs_mult. fold x. rewrite (Rabs_pos_eq h), (Rabs_pos_eq q) by lra.
    specialize (IH ltac:(intros; apply HF; lia)). pose proof (HF n ltac:(lia)) as Fn.
    apply Rle_trans with (x * (q * (h / (1 - x)) * M) + h * q * M).
    + apply Rplus_le_compat; apply Rmult_le_compat_l; auto. apply Rmult_le_pos; lra.
    + right. field. lra.
Qed.

(** The response to forcing of alternating sign. *)
Lemma ebox_alternating q d dt n : 0 < q -> 0 < d -> 0 < dt ->
  0 <= ebox q d dt (fun k => (-1) ^ k) n * (-1) ^ (S n) /\
  (2 * d <= dt -> q * (dt / d) * INR n <= ebox q d dt (fun k => (-1) ^ k) n * (-1) ^ (S n)).
Proof.
  intros Hq Hd Ht. assert (H0 : 0 < dt / d) by (apply pos_div; assumption).
  set (h := dt / d) in *.
  set (g := fun n => ebox q d dt (fun k => (-1) ^ k) n * (-1) ^ (S n)).
  assert (G0 : g 0%nat = 0) by (unfold g; cbn; ring).
  assert (GS : forall n, g (S n) = (h - 1) * g n + q * h).
  { intros k. unfold g. cbn [ebox].
    replace (ebox q d dt (fun k => (-1) ^ k) k + dt * ((q * (-1) ^ k - ebox q d dt (fun k => (-1) ^ k) k) / d))
      with ((1 - h) * ebox q d dt (fun k => (-1) ^ k) k + q * h * (-1) ^ k) by (unfold h; field; lra).
    assert (E : (-1) ^ k * (-1) ^ k = 1) by (rewrite <- Rpow_mult_distr; replace (-1 * -1) with 1 by ring; apply pow1).
    cbn [pow]. set (w := (-1) ^ k) in *. set (e := ebox q d dt (fun k => (-1) ^ k) k).
    transitivity ((h - 1) * (e * (-1 * w)) + q * h * (w * w)); [ring|]. rewrite E. ring. }
  assert (P : 0 < q * h) by (apply pos_mul; assumption).
  assert (B : h < 1 -> forall n, 0 <= g n <= q * h).
  { intros Hh k. induction k as [|k IH]; [rewrite G0; lra|]. rewrite GS.
    assert (0 <= (1 - h) * g k <= 1 * (q * h)).
    { split; [apply Rmult_le_pos; lra|]. apply Rmult_le_compat; lra. }
    lra. }
  change (0 <= g n /\ (2 * d <= dt -> q * h * INR n <= g n)).
  split.
  - destruct (Rlt_le_dec h 1) as [Hh|Hh]; [apply B, Hh|].
    induction n as [|n IH]; [rewrite G0; lra|]. rewrite GS.
    assert (0 <= (h - 1) * g n) by (apply Rmult_le_pos; lra). lra.
  - intros H2. assert (Hh : 2 <= h).
    { unfold h. apply Rmult_le_reg_r with d; [assumption|]. unfold Rdiv. rewrite Rmult_assoc, Rinv_l by lra. lra. }
    induction n as [|n IH]; [rewrite G0; cbn; lra|]. rewrite GS, S_INR.
    assert (0 <= q * h * INR n) by (apply Rmult_le_pos; [lra|apply pos_INR]).
    assert (0 <= (h - 2) * g n) by (apply Rmult_le_pos; lra). lra.
Qed.

(** ** Sums of two geometric sequences *)
Lemma geo_cv0 x : Rabs x < 1 -> Un_cv (fun n => x ^ n) 0.
Proof.
  intros Hx. apply squeeze_cv with 1 (Rabs x); [split; [apply Rabs_pos|assumption]|].
  intros i. rewrite Rminus_0_r, <- RPow_abs. lra.
Qed.
Lemma geo_sum_cv A B D x y : Rabs x < 1 -> Rabs y < 1 -> Un_cv (fun n => A + B * x ^ n + D * y ^ n) A.
Proof.
  intros Hx Hy. apply cv_to with (A + B * 0 + D * 0); [ring|].
  apply CV_plus; [apply CV_plus; [apply cv_const|]|]; (apply CV_mult; [apply cv_const|apply geo_cv0; assumption]).
Qed.
Lemma geo_infty A B D x y : B <> 0 -> 1 < Rabs x -> Rabs y < Rabs x ->
  cv_infty (fun n => Rabs (A + B * x ^ n + D * y ^ n)).
Proof.
  intros HB Hx Hy M.
  set (r := Rabs y / Rabs x).
  assert (Hr : 0 <= r < 1).
  { unfold r. split; [apply div_nonneg; [apply Rabs_pos|lra]|].
    apply Rmult_lt_reg_r with (Rabs x); [lra|]. unfold Rdiv. rewrite Rmult_assoc, Rinv_l by lra. lra. }
  assert (HB' : 0 < Rabs B) by (apply Rabs_pos_lt; assumption).
  pose proof (Rabs_pos D) as HD.
  destruct (geo_cv0 r ltac:(rewrite Rabs_pos_eq; lra) (Rabs B / (2 * (Rabs D + 1)))) as (N1 & HN1).
  { apply Rdiv_lt_0_compat; lra. }
  destruct (Pow_x_infinity (Rabs x) ltac:(rewrite Rabs_Rabsolu; lra) (2 * (Rabs M + Rabs A + 1) / Rabs B)) as (N2 & HN2).
  exists (Nat.max N1 N2). intros n Hn.
  specialize (HN1 n ltac:(lia)). specialize (HN2 n ltac:(lia)).
  unfold R_dist in HN1. rewrite Rminus_0_r, Rabs_pos_eq in HN1 by (apply pow_le; lra).
  rewrite Rabs_pos_eq in HN2 by (apply pow_le; lra).
  assert (Hxn : 0 < Rabs x ^ n) by (apply pow_lt; lra).
  assert (Hyn : Rabs y ^ n = r ^ n * Rabs x ^ n).
  { rewrite <- Rpow_mult_distr. f_equal. unfold r. field. lra. }
  assert (E1 : Rabs D * r ^ n <= Rabs B / 2).
  { apply Rle_trans with (Rabs D * (Rabs B / (2 * (Rabs D + 1)))); [apply Rmult_le_compat_l; lra|].
    replace (Rabs D * (Rabs B / (2 * (Rabs D + 1)))) with (Rabs B / 2 * (Rabs D / (Rabs D + 1))) by (field; lra).
    rewrite <- (Rmult_1_r (Rabs B / 2)) at 2. apply Rmult_le_compat_l; [lra|].
    apply Rmult_le_reg_r with (Rabs D + 1); [lra|]. unfold Rdiv. rewrite Rmult_assoc, Rinv_l by lra. lra. }
  assert (E2 : Rabs M + Rabs A + 1 <= Rabs B / 2 * Rabs x ^ n).
  { apply Rmult_le_reg_r with (2 / Rabs B); [apply Rdiv_lt_0_compat; lra|].
    replace (Rabs B / 2 * Rabs x ^ n * (2 / Rabs B)) with (Rabs x ^ n) by (field; lra).
    replace ((Rabs M + Rabs A + 1) * (2 / Rabs B)) with (2 * (Rabs M + Rabs A + 1) / Rabs B) by (field; lra). lra. }
  assert (E3 : Rabs (D * y ^ n) <= Rabs B / 2 * Rabs x ^ n).
  { rewrite Rabs_mult, <- RPow_abs, Hyn, <- Rmult_assoc. apply Rmult_le_compat_r; lra. }
  assert (E4 : Rabs (B * x ^ n) = Rabs B * Rabs x ^ n) by (rewrite Rabs_mult, <- RPow_abs; reflexivity).
  pose proof (Rabs_triang_inv (B * x ^ n) (- (A + D * y ^ n))) as T1.
  replace (B * x ^ n - - (A + D * y ^ n)) with (A + B * x ^ n + D * y ^ n) in T1 by ring.
  rewrite Rabs_Ropp in T1. pose proof (Rabs_triang A (D * y ^ n)). pose proof (Rle_abs M). lra.
Qed.

Lemma infty_not_cv (z : nat -> R) L : cv_infty (fun n => Rabs (z n)) -> ~ Un_cv z L.
Proof.
  intros H C. destruct (C 1 ltac:(lra)) as (N1 & H1). destruct (H (Rabs L + 1)) as (N2 & H2).
  specialize (H1 (Nat.max N1 N2) ltac:(lia)). specialize (H2 (Nat.max N1 N2) ltac:(lia)). unfold R_dist in H1.
  pose proof (Rabs_triang (z (Nat.max N1 N2) - L) L) as K.
  replace (z (Nat.max N1 N2) - L + L) with (z (Nat.max N1 N2)) in K by ring. lra.
Qed.

Lemma pow_m1_even n : (-1) ^ (2 * n) = 1.
Proof. apply pow_1_even. Qed.
Lemma cv_sub (z : nat -> R) L (f : nat -> nat) : (forall n, (n <= f n)%nat) -> Un_cv z L -> Un_cv (fun n => z (f n)) L.
Proof. intros Hf H e He. destruct (H e He) as (N & HN). exists N. intros n Hn. apply HN. specialize (Hf n). lia. Qed.

Lemma geo_flip A B D y : Rabs y < 1 ->
  Un_cv (fun n => A + B * (-1) ^ (2 * n) + D * y ^ (2 * n)) (A + B) /\
  Un_cv (fun n => A + B * (-1) ^ (S (2 * n)) + D * y ^ (S (2 * n))) (A - B).
Proof.
  intros Hy. split.
  - apply cv_ext with (fun n => A + B + D * y ^ (2 * n)); [intros; rewrite pow_1_even; ring|].
    apply cv_to with (A + B + D * 0); [ring|]. apply CV_plus; [apply cv_const|]. apply CV_mult; [apply cv_const|].
    apply (cv_sub (fun n => y ^ n) 0 (fun n => (2 * n)%nat)); [intros; lia|apply geo_cv0, Hy].
  - apply cv_ext with (fun n => A - B + D * y ^ (S (2 * n))); [intros; rewrite pow_1_odd; ring|].
    apply cv_to with (A - B + D * 0); [ring|]. apply CV_plus; [apply cv_const|]. apply CV_mult; [apply cv_const|].
    apply (cv_sub (fun n => y ^ n) 0 (fun n => S (2 * n))); [intros; lia|apply geo_cv0, Hy].
Qed.

(** ** The two modes together *)
Section Limit.
Variable p : TLP.
Hypothesis HP : positive_tl p.
Notation gg f := (f (p_C p) (p_CD p) (p_lambda0 p) (p_eps p) (p_eta p)).
Notation tau1 := (gg gtau1). Notation tau2 := (gg gtau2).
Notation phi1 := (gg gphi1). Notation phi2 := (gg gphi2).
Notation q1 := (gg gq1). Notation q2 := (gg gq2).
Notation x1 := (1 - p_dt p / tau1). Notation x2 := (1 - p_dt p / tau2).

Lemma l_conv : convertible_tl p.
Proof. destruct HP as (P1 & P2 & P3 & P4 & P5 & P6 & P7). repeat split; assumption. Qed.
Lemma l_dt : 0 < p_dt p. Proof. apply HP. Qed.
Lemma l_t1 : 0 < tau1. Proof. apply mt1, l_conv. Qed.
Lemma l_t2 : 0 < tau2. Proof. apply mt2, l_conv. Qed.
Lemma l_q1 : 0 < q1. Proof. apply mq1, l_conv. Qed.
Lemma l_q2 : 0 < q2. Proof. apply mq2, l_conv. Qed.
Lemma l_qs : q1 + q2 = / p_lambda0 p. Proof. apply q_sum; try apply HP; apply cap_pos, HP. Qed.
Lemma l_qps : phi1 * q1 + phi2 * q2 = / p_lambda0 p. Proof. apply q_phi_sum; try apply HP; apply cap_pos, HP. Qed.

Lemma l_h1 c : c * tau1 < p_dt p <-> c < p_dt p / tau1.
Proof.
  pose proof l_t1. split; intros H0.
  - apply Rmult_lt_reg_r with tau1; [assumption|]. unfold Rdiv. rewrite Rmult_assoc, Rinv_l by lra. lra.
  - apply Rmult_lt_compat_r with (r := tau1) in H0; [|assumption]. unfold Rdiv in H0. rewrite Rmult_assoc, Rinv_l in H0 by lra. lra.
Qed.
Lemma l_h1' c : p_dt p < c * tau1 <-> p_dt p / tau1 < c.
Proof.
  pose proof l_t1. split; intros H0.
  - apply Rmult_lt_reg_r with tau1; [assumption|]. unfold Rdiv. rewrite Rmult_assoc, Rinv_l by lra. lra.
  - apply Rmult_lt_compat_r with (r := tau1) in H0; [|assumption]. unfold Rdiv in H0. rewrite Rmult_assoc, Rinv_l in H0 by lra. lra.
Qed.
Lemma l_order : x1 < x2 < 1.
Proof.
  pose proof l_t1. pose proof l_t2. pose proof l_dt. pose proof (mt p l_conv).
  assert (0 < p_dt p / tau2) by (apply pos_div; assumption).
  assert (p_dt p / tau2 < p_dt p / tau1).
  { unfold Rdiv. apply Rmult_lt_compat_l; [assumption|]. apply Rinv_lt_contravar; [apply pos_mul; assumption|assumption]. }
  lra.
Qed.

Lemma step_response F n :
  eu p (fun _ => F) n = F * (q1 * (1 - x1 ^ n) + q2 * (1 - x2 ^ n)) /\
  el p (fun _ => F) n = F * (phi1 * q1 * (1 - x1 ^ n) + phi2 * q2 * (1 - x2 ^ n)).
Proof.
  destruct (euler_modes p l_conv (fun _ => F) n) as (-> & ->).
  pose proof l_t1. pose proof l_t2. rewrite !ebox_const by lra. split; ring.
Qed.
Lemma step_geo F n :
  eu p (fun _ => F) n = F / p_lambda0 p + (- F * q1) * x1 ^ n + (- F * q2) * x2 ^ n /\
  el p (fun _ => F) n = F / p_lambda0 p + (- F * (phi1 * q1)) * x1 ^ n + (- F * (phi2 * q2)) * x2 ^ n.
Proof.
  destruct (step_response F n) as (-> & ->). unfold Rdiv. split.
  - rewrite <- l_qs. ring.
  - rewrite <- l_qps. ring.
Qed.

Lemma within_abs : p_dt p < 2 * tau1 -> Rabs x1 < 1 /\ Rabs x2 < 1.
Proof.
  intros H. apply l_h1' in H. pose proof l_order. pose proof l_t1. pose proof l_dt.
  split; apply Rabs_def1; lra.
Qed.
Lemma beyond_abs : 2 * tau1 < p_dt p -> 1 < Rabs x1 /\ Rabs x2 < Rabs x1.
Proof.
  intros H. apply l_h1 in H. pose proof l_order.
  rewrite (Rabs_left x1) by lra. split; [lra|]. apply Rabs_def1; lra.
Qed.
Lemma at_limit_x : p_dt p = 2 * tau1 -> x1 = -1 /\ Rabs x2 < 1.
Proof.
  intros H. pose proof l_t1. assert (E : p_dt p / tau1 = 2) by (rewrite H; field; lra). pose proof l_order.
  rewrite E in *. split; [lra|]. apply Rabs_def1; lra.
Qed.

Lemma step_cv F : p_dt p < 2 * tau1 ->
  Un_cv (eu p (fun _ => F)) (F / p_lambda0 p) /\ Un_cv (el p (fun _ => F)) (F / p_lambda0 p).
Proof.
  intros H. destruct (within_abs H) as (A1 & A2). split.
  - eapply cv_ext; [intros i; symmetry; exact (proj1 (step_geo F i))|]. apply geo_sum_cv; assumption.
  - eapply cv_ext; [intros i; symmetry; exact (proj2 (step_geo F i))|]. apply geo_sum_cv; assumption.
Qed.
Lemma step_diverges F : F <> 0 -> 2 * tau1 < p_dt p ->
  cv_infty (fun n => Rabs (eu p (fun _ => F) n)) /\ cv_infty (fun n => Rabs (el p (fun _ => F) n)).
Proof.
  intros HF H. destruct (beyond_abs H) as (A1 & A2). pose proof l_q1. pose proof (mp1 p l_conv).
  assert (E : forall x y : nat -> R, (forall n, x n = y n) -> cv_infty x -> cv_infty y).
  { intros x y K C M. destruct (C M) as (N & HN). exists N. intros n Hn. rewrite <- K. apply HN, Hn. }
  split.
  - apply E with (fun n => Rabs (F / p_lambda0 p + (- F * q1) * x1 ^ n + (- F * q2) * x2 ^ n)).
    { intros n. rewrite (proj1 (step_geo F n)). reflexivity. }
    apply geo_infty; try assumption. apply Rmult_integral_contrapositive. split; lra.
  - apply E with (fun n => Rabs (F / p_lambda0 p + (- F * (phi1 * q1)) * x1 ^ n + (- F * (phi2 * q2)) * x2 ^ n)).
    { intros n. rewrite (proj2 (step_geo F n)). reflexivity. }
    apply geo_infty; try assumption. apply Rmult_integral_contrapositive. split; [lra|]. apply Rmult_integral_contrapositive. split; lra.
Qed.
Lemma step_flips F : p_dt p = 2 * tau1 ->
  Un_cv (fun n => eu p (fun _ => F) (2 * n)) (F * q2) /\
  Un_cv (fun n => eu p (fun _ => F) (S (2 * n))) (F * (q2 + 2 * q1)).
Proof.
  intros H. destruct (at_limit_x H) as (A1 & A2).
  destruct (geo_flip (F / p_lambda0 p) (- F * q1) (- F * q2) x2 A2) as (K1 & K2). split.
  - eapply cv_ext; [intros i; symmetry; exact (proj1 (step_geo F _))|]. rewrite A1.
    apply cv_to with (F / p_lambda0 p + - F * q1); [unfold Rdiv; rewrite <- l_qs; ring|exact K1].
  - eapply cv_ext; [intros i; symmetry; exact (proj1 (step_geo F _))|]. rewrite A1.
    apply cv_to with (F / p_lambda0 p - - F * q1); [unfold Rdiv; rewrite <- l_qs; ring|exact K2].
Qed.

(** The convolution form. *)
Lemma conv_response F n :
  eu p F (S n) = sum_f_R0 (fun k => p_dt p * F k * (q1 / tau1 * x1 ^ (n - k) + q2 / tau2 * x2 ^ (n - k))) n.
Proof.
  destruct (euler_modes p l_conv F (S n)) as (-> & _). pose proof l_t1. pose proof l_t2.
  rewrite !ebox_conv by lra. rewrite <- sum_plus. apply sum_eq. intros. ring.
Qed.

(** Bounded forcings. *)
Lemma bounded_response F M n : p_dt p < 2 * tau1 -> 0 <= M -> (forall i, (i < n)%nat -> Rabs (F i) <= M) ->
  Rabs (eu p F n) <= (q1 * (p_dt p / tau1 / (1 - Rabs x1)) + q2 * (p_dt p / tau2 / (1 - Rabs x2))) * M /\
  Rabs (el p F n) <= (Rabs phi1 * (q1 * (p_dt p / tau1 / (1 - Rabs x1))) + phi2 * (q2 * (p_dt p / tau2 / (1 - Rabs x2)))) * M.
Proof.
  intros H HM HF. destruct (euler_modes p l_conv F n) as (-> & ->).
  pose proof l_t1. pose proof l_t2. pose proof l_q1. pose proof l_q2. pose proof l_dt. pose proof (mt p l_conv). pose proof (mp2 p l_conv).
  pose proof (ebox_gain q1 tau1 (p_dt p) F M n l_q1 l_t1 l_dt H HM HF) as G1.
  pose proof (ebox_gain q2 tau2 (p_dt p) F M n l_q2 l_t2 l_dt ltac:(lra) HM HF) as G2.
  split.
  - eapply Rle_trans; [apply Rabs_triang|]. lra.
  - eapply Rle_trans; [apply Rabs_triang|]. rewrite !Rabs_mult, (Rabs_pos_eq phi2) by lra.
    pose proof (Rmult_le_compat_l (Rabs phi1) _ _ (Rabs_pos _) G1). pose proof (Rmult_le_compat_l phi2 _ _ ltac:(lra) G2). lra.
Qed.

Lemma alternating_response n : 2 * tau1 <= p_dt p -> q1 * (p_dt p / tau1) * INR n <= Rabs (eu p (fun k => (-1) ^ k) n).
Proof.
  intros H. destruct (euler_modes p l_conv (fun k => (-1) ^ k) n) as (-> & _).
  destruct (ebox_alternating q1 tau1 (p_dt p) n l_q1 l_t1 l_dt) as (_ & A).
  destruct (ebox_alternating q2 tau2 (p_dt p) n l_q2 l_t2 l_dt) as (B & _). specialize (A H).
  set (u := ebox q1 tau1 (p_dt p) (fun k => (-1) ^ k) n) in *. set (v := ebox q2 tau2 (p_dt p) (fun k => (-1) ^ k) n) in *.
  apply Rle_trans with ((u + v) * (-1) ^ (S n)); [lra|].
  eapply Rle_trans; [apply Rle_abs|]. rewrite Rabs_mult, pow_1_abs. lra.
Qed.

(** The limit in terms of the parameters. *)
Lemma limit_params : p_dt p < 2 * tau1 <->
  p_dt p * gg gb < 4 /\ 0 < 4 - 2 * (p_dt p * gg gb) + p_dt p * p_dt p * (p_lambda0 p * p_eta p / (p_C p * p_CD p)).
Proof.
  pose proof l_t1 as T1. pose proof l_t2 as T2. pose proof (mt p l_conv) as T12. pose proof l_dt as Hd.
  pose proof (mC p l_conv) as HC. pose proof (mCD p l_conv) as HCD. pose proof (ml p l_conv) as Hl. pose proof (mh p l_conv) as Hh.
  pose proof (tau_prod _ _ _ _ _ HC HCD Hl (me p l_conv) Hh) as TP.
  pose proof (tau_sum _ _ _ _ _ HC HCD Hl (me p l_conv) Hh) as TS.
  assert (K1 : p_lambda0 p * p_eta p / (p_C p * p_CD p) = / (tau1 * tau2)).
  { rewrite TP. field. repeat split; lra. }
  assert (K2 : gg gb = / tau1 + / tau2).
  { replace (/ tau1 + / tau2) with ((tau1 + tau2) * / (tau1 * tau2)) by (field; lra).
    rewrite <- K1, TS. field. repeat split; lra. }
  set (a := p_dt p / tau1). set (b := p_dt p / tau2).
  assert (Ea : p_dt p * gg gb = a + b) by (rewrite K2; unfold a, b; field; lra).
  assert (Eb : p_dt p * p_dt p * (p_lambda0 p * p_eta p / (p_C p * p_CD p)) = a * b) by (rewrite K1; unfold a, b; field; lra).
  rewrite Ea, Eb. rewrite l_h1'. fold a. pose proof l_order as O. fold a in O. fold b in O.
  assert (0 < b) by (apply pos_div; assumption).
  replace (4 - 2 * (a + b) + a * b) with ((2 - a) * (2 - b)) by ring.
  split.
  - intros Ha. split; [lra|]. apply pos_mul; lra.
  - intros (H1 & H2). destruct (Rlt_le_dec a 2) as [Z|Z]; [assumption|]. exfalso.
    destruct (Rlt_le_dec b 2) as [Y|Y]; [|lra].
    assert (0 <= (a - 2) * (2 - b)) by (apply Rmult_le_pos; lra). lra.
Qed.

Lemma small_within : small_step p -> p_dt p < 2 * tau1.
Proof.
  intros (S1 & S2). apply limit_params.
  pose proof (mC p l_conv) as HC. pose proof (mCD p l_conv) as HCD. pose proof (ml p l_conv) as Hl. pose proof (mh p l_conv) as Hh.
  pose proof l_dt as Hd.
  assert (A1 : p_dt p * (p_lambda0 p + p_eps p * p_eta p) / p_C p <= 1).
  { apply Rmult_le_reg_r with (p_C p); [assumption|]. unfold Rdiv. rewrite Rmult_assoc, Rinv_l by lra. lra. }
  assert (A2 : p_dt p * p_eta p / p_CD p <= 1).
  { apply Rmult_le_reg_r with (p_CD p); [assumption|]. unfold Rdiv. rewrite Rmult_assoc, Rinv_l by lra. lra. }
  assert (A3 : p_dt p * gg gb = p_dt p * (p_lambda0 p + p_eps p * p_eta p) / p_C p + p_dt p * p_eta p / p_CD p).
  { unfold gb. field. lra. }
  assert (0 < p_dt p * p_dt p * (p_lambda0 p * p_eta p / (p_C p * p_CD p))).
  { apply pos_mul; [apply pos_mul; assumption|]. apply pos_div; apply pos_mul; assumption. }
  lra.
Qed.
End Limit.
