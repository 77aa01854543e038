(** First-order filters: what their outputs do in the long run. *)
From Coq Require Import Reals Arith Lra Lia Psatz.
From Verif Require Import SpecReal SpecLong RealTL RealGeo RealEuler RealBox RealEquiv RealStep.
Local Open Scope R_scope.

Definition filt (x q : R) (F z : nat -> R) : Prop := forall n, z (S n) = x * z n + q * (1 - x) * F n.

Lemma cv_tail (z : nat -> R) L k : Un_cv z L -> Un_cv (fun i => z (i + k)%nat) L.
Proof. intros H. apply (cv_sub z L (fun i => (i + k)%nat)); [intros; lia|exact H]. Qed.
Lemma cv_next (z : nat -> R) L : Un_cv z L -> Un_cv (fun i => z (S i)) L.
Proof. intros H. apply (cv_sub z L S); [intros; lia|exact H]. Qed.
Lemma cv_diff0 (z : nat -> R) L : Un_cv z L -> Un_cv (fun i => z (S i) - z i) 0.
Proof. intros H. apply cv_to with (L - L); [ring|]. apply CV_minus; [apply cv_next|]; exact H. Qed.
Lemma cv_scal (c : R) (z : nat -> R) L : Un_cv z L -> Un_cv (fun i => c * z i) (c * L).
Proof. intros H. apply CV_mult; [apply cv_const|exact H]. Qed.
Lemma cv_null (z : nat -> R) L : Un_cv (fun i => z i - L) 0 -> Un_cv z L.
Proof.
  intros H. apply cv_ext with (fun i => z i - L + L); [intros; ring|].
  apply cv_to with (0 + L); [ring|]. apply CV_plus; [exact H|apply cv_const].
Qed.
Lemma null_cv (z : nat -> R) L : Un_cv z L -> Un_cv (fun i => z i - L) 0.
Proof. intros H. apply cv_to with (L - L); [ring|]. apply CV_minus; [exact H|apply cv_const]. Qed.

Section Filter.
Variables x q : R.
Hypothesis Hx : Rabs x < 1.

Lemma x_ne1 : 1 - x <> 0.
Proof. apply Rabs_def2 in Hx. lra. Qed.

Lemma filt_null F z : filt x q F z -> Un_cv F 0 -> Un_cv z 0.
Proof.
  intros Hz HF eps He.
  set (b := q * (1 - x)). pose proof (Rabs_pos b) as Hb. pose proof (Rabs_pos x) as Hx0.
  set (r := Rabs x) in *.
  set (w := eps / 2 * (1 - r) / (Rabs b + 1)).
  assert (Hw : 0 < w).
  { unfold w. apply Rdiv_lt_0_compat; [|lra]. apply Rmult_lt_0_compat; lra. }
  destruct (HF w Hw) as (N & HN).
  assert (B : forall m, Rabs (z (N + m)%nat) <= r ^ m * Rabs (z N) + eps / 2).
  { induction m as [|m IH]; [rewrite Nat.add_0_r; cbn; lra|].
    rewrite Nat.add_succ_r, Hz. eapply Rle_trans; [apply Rabs_triang|]. fold b. rewrite !Rabs_mult. fold r.
    specialize (HN (N + m)%nat ltac:(lia)). unfold R_dist in HN. rewrite Rminus_0_r in HN.
    assert (E1 : Rabs b * Rabs (F (N + m)%nat) <= eps / 2 * (1 - r)).
    { apply Rle_trans with (Rabs b * w); [apply Rmult_le_compat_l; lra|].
      apply Rle_trans with ((Rabs b + 1) * w); [apply Rmult_le_compat_r; lra|]. right. unfold w. field. lra. }
    pose proof (Rmult_le_compat_l r _ _ Hx0 IH) as E2. cbn [pow]. lra. }
  destruct (geo_cv0 r ltac:(rewrite Rabs_pos_eq; assumption) (eps / 2 / (Rabs (z N) + 1))) as (M & HM).
  { pose proof (Rabs_pos (z N)). apply Rdiv_lt_0_compat; lra. }
  exists (N + M)%nat. intros n Hn. specialize (B (n - N)%nat). replace (N + (n - N))%nat with n in B by lia.
  specialize (HM (n - N)%nat ltac:(lia)). unfold R_dist in *. rewrite Rminus_0_r in *.
  rewrite Rabs_pos_eq in HM by (apply pow_le; assumption).
  eapply Rle_lt_trans; [exact B|]. pose proof (Rabs_pos (z N)) as HzN.
  assert (r ^ (n - N) * Rabs (z N) < eps / 2); [|lra].
  apply Rle_lt_trans with (r ^ (n - N) * (Rabs (z N) + 1)).
  - apply Rmult_le_compat_l; [apply pow_le; assumption|lra].
  - apply Rlt_le_trans with (eps / 2 / (Rabs (z N) + 1) * (Rabs (z N) + 1)); [apply Rmult_lt_compat_r; lra|].
    right. field. lra.
Qed.

Lemma filt_cv F z L : filt x q F z -> Un_cv F L -> Un_cv z (q * L).
Proof.
  intros Hz HF. apply cv_null. apply filt_null with (fun i => F i - L); [|apply null_cv, HF].
  intros n. cbv beta. rewrite Hz. ring.
Qed.
Lemma filt_merge F G z y : filt x q F z -> filt x q G y -> merges F G -> merges z y.
Proof.
  intros Hz Hy H. apply filt_null with (fun i => F i - G i); [|exact H].
  intros n. cbv beta. rewrite Hz, Hy. ring.
Qed.
Lemma filt_tail F z k : filt x q F z -> filt x q (fun i => F (i + k)%nat) (fun i => z (i + k)%nat).
Proof. intros Hz n. cbv beta. rewrite Nat.add_succ_l. apply Hz. Qed.
Lemma filt_window F z m : filt x q F z -> filt x q (window m F) (window m z).
Proof.
  intros Hz n. unfold window. induction m as [|m IH]; cbn [sum_f_R0].
  - rewrite Nat.add_succ_l. apply Hz.
  - rewrite IH, Nat.add_succ_l, Hz. ring.
Qed.
Lemma filt_ramp F z g c : filt x q F z -> merges F (fun i => g * INR i + c) ->
  merges z (fun i => q * (g * INR i + c - g / (1 - x))).
Proof.
  intros Hz H. apply filt_null with (fun i => F i - (g * INR i + c)); [|exact H].
  intros n. cbv beta. rewrite Hz, S_INR. field. apply x_ne1.
Qed.
Lemma filt_sums F z n : filt x q F z -> z 0%nat = 0 -> sum_f_R0 z n = q * sum_f_R0 F n - z (S n) / (1 - x).
Proof.
  intros Hz H0. pose proof x_ne1. induction n as [|n IH].
  - cbn [sum_f_R0]. rewrite (Hz 0%nat), H0. field. assumption.
  - cbn [sum_f_R0]. rewrite IH, (Hz (S n)). field. assumption.
Qed.
Lemma filt_total F z A : filt x q F z -> z 0%nat = 0 -> Un_cv (sum_f_R0 F) A -> Un_cv (sum_f_R0 z) (q * A).
Proof.
  intros Hz H0 H. eapply cv_ext; [intros i; symmetry; apply filt_sums; eassumption|].
  apply cv_to with (q * A - 0 * / (1 - x)); [ring|].
  apply CV_minus; [apply cv_scal, H|]. apply CV_mult; [|apply cv_const].
  apply cv_next. apply filt_null with F; [exact Hz|].
  apply cv_S. apply cv_ext with (fun i => sum_f_R0 F (S i) - sum_f_R0 F i); [intros; cbn [sum_f_R0]; ring|].
  apply cv_diff0 with A, H.
Qed.
End Filter.

Lemma ebox_filt q d dt F : d <> 0 -> filt (1 - dt / d) q F (ebox q d dt F).
Proof. intros H n. cbn [ebox]. field. exact H. Qed.
Lemma run_filt q d dt F : filt (exp (- dt / d)) q F (box_run q d dt F).
Proof. intros n. apply run_S. Qed.
Lemma exp_range d dt : 0 < d -> 0 < dt -> Rabs (exp (- dt / d)) < 1.
Proof.
  intros Hd Ht. destruct (k_range d dt Hd Ht) as (A & B). rewrite Rabs_pos_eq; lra.
Qed.

Lemma merges_plus x x' y y' : merges x x' -> merges y y' -> merges (fun i => x i + y i) (fun i => x' i + y' i).
Proof.
  intros H K. apply cv_ext with (fun i => (x i - x' i) + (y i - y' i)); [intros; ring|].
  apply cv_to with (0 + 0); [ring|]. apply CV_plus; assumption.
Qed.
Lemma merges_scal c x y : merges x y -> merges (fun i => c * x i) (fun i => c * y i).
Proof.
  intros H. apply cv_ext with (fun i => c * (x i - y i)); [intros; ring|].
  apply cv_to with (c * 0); [ring|]. apply cv_scal, H.
Qed.
Lemma merges_ext x x' y y' : (forall i, x i = x' i) -> (forall i, y i = y' i) -> merges x y -> merges x' y'.
Proof. intros H K M. apply cv_ext with (fun i => x i - y i); [intros i; rewrite H, K; reflexivity|exact M]. Qed.

(** ** The two layers *)
Section Two.
Variable p : TLP.
Hypothesis HP : positive_tl p.
Notation gg f := (f (p_C p) (p_CD p) (p_lambda0 p) (p_eps p) (p_eta p)).
Notation tau1 := (gg gtau1). Notation tau2 := (gg gtau2).
Notation phi1 := (gg gphi1). Notation phi2 := (gg gphi2).
Notation q1 := (gg gq1). Notation q2 := (gg gq2).
Notation x1 := (1 - p_dt p / tau1). Notation x2 := (1 - p_dt p / tau2).
Hypothesis HD : p_dt p < 2 * tau1.
Notation z1 F := (ebox q1 tau1 (p_dt p) F). Notation z2 F := (ebox q2 tau2 (p_dt p) F).

Lemma A1 : Rabs x1 < 1. Proof. apply within_abs; assumption. Qed.
Lemma A2 : Rabs x2 < 1. Proof. apply within_abs; assumption. Qed.
Lemma f1 F : filt x1 q1 F (z1 F). Proof. apply ebox_filt. pose proof (l_t1 p HP). lra. Qed.
Lemma f2 F : filt x2 q2 F (z2 F). Proof. apply ebox_filt. pose proof (l_t2 p HP). lra. Qed.
Lemma eu_z F i : eu p F i = z1 F i + z2 F i. Proof. apply (euler_modes p (l_conv p HP) F i). Qed.
Lemma el_z F i : el p F i = phi1 * z1 F i + phi2 * z2 F i. Proof. apply (euler_modes p (l_conv p HP) F i). Qed.

Lemma two_cv F L : Un_cv F L -> Un_cv (eu p F) (L / p_lambda0 p) /\ Un_cv (el p F) (L / p_lambda0 p).
Proof.
  intros H. pose proof (filt_cv _ _ A1 _ _ _ (f1 F) H) as C1. pose proof (filt_cv _ _ A2 _ _ _ (f2 F) H) as C2. split.
  - eapply cv_ext; [intros i; symmetry; apply eu_z|]. apply cv_to with (q1 * L + q2 * L); [|apply CV_plus; assumption].
    unfold Rdiv. rewrite <- (l_qs p HP). ring.
  - eapply cv_ext; [intros i; symmetry; apply el_z|]. apply cv_to with (phi1 * (q1 * L) + phi2 * (q2 * L)).
    + unfold Rdiv. rewrite <- (l_qps p HP). ring.
    + apply CV_plus; apply cv_scal; assumption.
Qed.
Lemma two_merge F G : merges F G -> merges (eu p F) (eu p G) /\ merges (el p F) (el p G).
Proof.
  intros H. pose proof (filt_merge _ _ A1 _ _ _ _ (f1 F) (f1 G) H) as C1.
  pose proof (filt_merge _ _ A2 _ _ _ _ (f2 F) (f2 G) H) as C2. split.
  - eapply merges_ext; [intros i; symmetry; apply eu_z|intros i; symmetry; apply eu_z|]. apply merges_plus; assumption.
  - eapply merges_ext; [intros i; symmetry; apply el_z|intros i; symmetry; apply el_z|]. apply merges_plus; apply merges_scal; assumption.
Qed.
Lemma two_shift F k : merges (fun i => F (i + k)%nat) F ->
  merges (fun i => eu p F (i + k)%nat) (eu p F) /\ merges (fun i => el p F (i + k)%nat) (el p F).
Proof.
  intros H. pose proof (filt_merge _ _ A1 _ _ _ _ (filt_tail _ _ _ _ k (f1 F)) (f1 F) H) as C1.
  pose proof (filt_merge _ _ A2 _ _ _ _ (filt_tail _ _ _ _ k (f2 F)) (f2 F) H) as C2. split.
  - eapply merges_ext; [intros i; symmetry; apply eu_z|intros i; symmetry; apply eu_z|]. exact (merges_plus _ _ _ _ C1 C2).
  - eapply merges_ext; [intros i; symmetry; apply el_z|intros i; symmetry; apply el_z|].
    exact (merges_plus _ _ _ _ (merges_scal phi1 _ _ C1) (merges_scal phi2 _ _ C2)).
Qed.
Lemma window_lin c d m (x y z : nat -> R) : (forall i, z i = c * x i + d * y i) ->
  forall i, window m z i = c * window m x i + d * window m y i.
Proof.
  intros H i. unfold window. induction m as [|m IH]; cbn [sum_f_R0]; [apply H|]. rewrite IH, H. ring.
Qed.
Lemma two_window F m L : Un_cv (window m F) L ->
  Un_cv (window m (eu p F)) (L / p_lambda0 p) /\ Un_cv (window m (el p F)) (L / p_lambda0 p).
Proof.
  intros H. pose proof (filt_cv _ _ A1 _ _ _ (filt_window _ _ _ _ m (f1 F)) H) as C1.
  pose proof (filt_cv _ _ A2 _ _ _ (filt_window _ _ _ _ m (f2 F)) H) as C2. split.
  - eapply cv_ext; [intros i; symmetry; apply (window_lin 1 1 m (z1 F) (z2 F)); intros j; rewrite eu_z; ring|].
    apply cv_to with (1 * (q1 * L) + 1 * (q2 * L)); [|apply CV_plus; apply cv_scal; assumption].
    unfold Rdiv. rewrite <- (l_qs p HP). ring.
  - eapply cv_ext; [intros i; symmetry; apply (window_lin phi1 phi2 m (z1 F) (z2 F)); intros j; apply el_z|].
    apply cv_to with (phi1 * (q1 * L) + phi2 * (q2 * L)); [|apply CV_plus; apply cv_scal; assumption].
    unfold Rdiv. rewrite <- (l_qps p HP). ring.
Qed.
Lemma two_total F A : Un_cv (sum_f_R0 F) A ->
  Un_cv (sum_f_R0 (eu p F)) (A / p_lambda0 p) /\ Un_cv (sum_f_R0 (el p F)) (A / p_lambda0 p).
Proof.
  intros H. pose proof (filt_total _ _ A1 _ _ _ (f1 F) eq_refl H) as C1. pose proof (filt_total _ _ A2 _ _ _ (f2 F) eq_refl H) as C2. split.
  - apply cv_ext with (fun i => sum_f_R0 (z1 F) i + sum_f_R0 (z2 F) i).
    { intros i. rewrite <- sum_plus. apply sum_eq. intros. symmetry. apply eu_z. }
    apply cv_to with (q1 * A + q2 * A); [|apply CV_plus; assumption].
    unfold Rdiv. rewrite <- (l_qs p HP). ring.
  - apply cv_ext with (fun i => phi1 * sum_f_R0 (z1 F) i + phi2 * sum_f_R0 (z2 F) i).
    { intros i. rewrite !scal_sum, <- sum_plus. apply sum_eq. intros. rewrite el_z. ring. }
    apply cv_to with (phi1 * (q1 * A) + phi2 * (q2 * A)); [|apply CV_plus; apply cv_scal; assumption].
    unfold Rdiv. rewrite <- (l_qps p HP). ring.
Qed.

(** The rate of change of an asymptotically straight line. *)
Lemma slope (z : nat -> R) a b : merges z (fun i => a * INR i + b) -> Un_cv (fun i => z (S i) - z i) a.
Proof.
  intros H. apply cv_ext with (fun i => ((z (S i) - (a * INR (S i) + b)) - (z i - (a * INR i + b))) + a).
  { intros i. rewrite S_INR. ring. }
  apply cv_to with (0 + a); [ring|]. apply CV_plus; [|apply cv_const].
  apply cv_diff0 with (L := 0) in H. exact H.
Qed.
Lemma two_ramp F g c : merges F (fun i => g * INR i + c) ->
  let lag := (p_C p + p_eps p * p_CD p) / p_lambda0 p in
  merges (eu p F) (fun i => (g * (INR i - lag / p_dt p) + c) / p_lambda0 p) /\
  merges (el p F) (fun i => (g * (INR i - (lag + p_CD p / p_eta p) / p_dt p) + c) / p_lambda0 p) /\
  Un_cv (fun i => eu p F (S i) - eu p F i) (g / p_lambda0 p) /\
  Un_cv (fun i => el p F (S i) - el p F i) (g / p_lambda0 p).
Proof.
  intros H lag. pose proof (filt_ramp _ _ A1 _ _ _ _ (f1 F) H) as C1. pose proof (filt_ramp _ _ A2 _ _ _ _ (f2 F) H) as C2.
  pose proof (l_t1 p HP) as T1. pose proof (l_t2 p HP) as T2. pose proof (l_dt p HP) as D.
  pose proof (mC p (l_conv p HP)) as HC. pose proof (mCD p (l_conv p HP)) as HCD.
  pose proof (ml p (l_conv p HP)) as Hl. pose proof (mh p (l_conv p HP)) as Hh. pose proof (me p (l_conv p HP)) as He.
  assert (U : merges (eu p F) (fun i => (g * (INR i - lag / p_dt p) + c) / p_lambda0 p)).
  { eapply merges_ext; [intros i; symmetry; apply eu_z| |exact (merges_plus _ _ _ _ C1 C2)].
    intros i. cbv beta.
    pose proof (back_moment _ _ _ _ _ HC HCD Hl He Hh) as B. cbv zeta in B.
    transitivity ((q1 + q2) * (g * INR i + c) - g / p_dt p * (q1 * tau1 + q2 * tau2)).
    - field. lra.
    - rewrite B, (l_qs p HP). unfold lag. field. lra. }
  assert (SL : Un_cv (fun i => el p F (S i) - el p F i) (g / p_lambda0 p)).
  { apply slope with ((phi1 * q1 + phi2 * q2) * c - g * (phi1 * q1 / (1 - x1) + phi2 * q2 / (1 - x2))).
    eapply merges_ext; [intros i; symmetry; apply el_z| |exact (merges_plus _ _ _ _ (merges_scal phi1 _ _ C1) (merges_scal phi2 _ _ C2))].
    intros i. cbv beta. replace (g / p_lambda0 p) with (g * (phi1 * q1 + phi2 * q2)) by (rewrite (l_qps p HP); reflexivity). field. lra. }
  split; [exact U|]. split.
  - assert (K : Un_cv (fun i => eu p F i - el p F i) (p_CD p / (p_dt p * p_eta p) * (g / p_lambda0 p))).
    { eapply cv_ext; [|apply (cv_scal (p_CD p / (p_dt p * p_eta p)) _ _ SL)].
      intros i. cbv beta. rewrite el_S. unfold dTD_dt. field. lra. }
    apply cv_ext with (fun i => (eu p F i - (g * (INR i - lag / p_dt p) + c) / p_lambda0 p) -
      ((eu p F i - el p F i) - p_CD p / (p_dt p * p_eta p) * (g / p_lambda0 p))).
    { intros i. field. lra. }
    apply cv_to with (0 - 0); [ring|]. apply CV_minus; [exact U|]. apply null_cv, K.
  - split; [|exact SL]. apply slope with ((c - g * lag / p_dt p) / p_lambda0 p).
    eapply merges_ext; [intros i; reflexivity| |exact U]. intros i. cbv beta. field. lra.
Qed.

(** What the heat uptake follows from. *)
Lemma en_cv_of F a b : Un_cv (fun i => eu p F (S i) - eu p F i) a -> Un_cv (fun i => el p F (S i) - el p F i) b ->
  Un_cv (en p F) ((p_C p * a + p_CD p * b) / p_dt p).
Proof.
  intros HU HL. pose proof (l_dt p HP) as D. apply cv_S.
  apply cv_ext with (fun i => / p_dt p * (p_C p * (eu p F (S i) - eu p F i) + p_CD p * (el p F (S i) - el p F i))).
  { intros i. cbn [en]. field. lra. }
  apply cv_to with (/ p_dt p * (p_C p * a + p_CD p * b)); [field; lra|].
  apply cv_scal. apply CV_plus; apply cv_scal; assumption.
Qed.
Lemma two_cv_heat F L : Un_cv F L -> Un_cv (en p F) 0.
Proof.
  intros H. destruct (two_cv F L H) as (U & V).
  eapply cv_to; [|apply en_cv_of; eapply cv_diff0; eassumption]. unfold Rdiv. ring.
Qed.
Lemma two_heat_total F A : Un_cv (sum_f_R0 F) A -> Un_cv (sum_f_R0 (en p F)) 0.
Proof.
  intros H. pose proof (l_dt p HP) as D.
  pose proof (mC p (l_conv p HP)) as HC. pose proof (mCD p (l_conv p HP)) as HCD.
  assert (K : Un_cv F 0).
  { apply cv_S. apply cv_ext with (fun i => sum_f_R0 F (S i) - sum_f_R0 F i); [intros; cbn [sum_f_R0]; ring|].
    apply cv_diff0 with A, H. }
  destruct (two_cv F 0 K) as (U & V).
  apply cv_ext with (fun i => / p_dt p * (p_C p * eu p F i + p_CD p * el p F i)).
  { intros i. rewrite <- en_sum by lra. field. lra. }
  apply cv_to with (/ p_dt p * (p_C p * (0 / p_lambda0 p) + p_CD p * (0 / p_lambda0 p))); [unfold Rdiv; ring|].
  apply cv_scal. apply CV_plus; apply cv_scal; assumption.
Qed.

(** The lower layer as a filter of the upper one, stable under the same limit. *)
Lemma lower_rate : p_dt p * p_eta p < 2 * p_CD p.
Proof.
  pose proof (l_t1 p HP) as T1. pose proof (l_t2 p HP) as T2. pose proof (l_dt p HP) as D. pose proof (mt p (l_conv p HP)) as T12.
  pose proof (mC p (l_conv p HP)) as HC. pose proof (mCD p (l_conv p HP)) as HCD.
  pose proof (ml p (l_conv p HP)) as Hl. pose proof (mh p (l_conv p HP)) as Hh. pose proof (me p (l_conv p HP)) as He.
  pose proof (tau_prod _ _ _ _ _ HC HCD Hl He Hh) as TP. pose proof (tau_sum _ _ _ _ _ HC HCD Hl He Hh) as TS.
  assert (K : (p_CD p - p_eta p * tau1) * (p_CD p - p_eta p * tau2) < 0).
  { replace ((p_CD p - p_eta p * tau1) * (p_CD p - p_eta p * tau2)) with
      (p_CD p * p_CD p - p_CD p * p_eta p * (tau1 + tau2) + p_eta p * p_eta p * (tau1 * tau2)) by ring.
    rewrite TP, TS. unfold gb.
    replace (p_CD p * p_CD p - p_CD p * p_eta p * (p_C p * p_CD p / (p_lambda0 p * p_eta p) * ((p_lambda0 p + p_eps p * p_eta p) / p_C p + p_eta p / p_CD p)) +
       p_eta p * p_eta p * (p_C p * p_CD p / (p_lambda0 p * p_eta p)))
      with (- (p_CD p * p_CD p * p_eps p * p_eta p / p_lambda0 p)) by (field; lra).
    apply Ropp_lt_gt_0_contravar. apply pos_div; [|assumption]. exact (pos_mul _ _ (pos_mul _ _ (pos_mul _ _ HCD HCD) He) Hh). }
  assert (p_eta p * tau1 < p_eta p * tau2) by (apply Rmult_lt_compat_l; assumption).
  assert (P : p_eta p * tau1 < p_CD p).
  { destruct (Rlt_le_dec (p_eta p * tau1) (p_CD p)) as [Z|Z]; [assumption|]. exfalso.
    assert (0 <= (p_eta p * tau1 - p_CD p) * (p_eta p * tau2 - p_CD p)) by (apply Rmult_le_pos; lra). lra. }
  apply Rle_lt_trans with (2 * (p_eta p * tau1)); [|lra].
  pose proof (Rmult_lt_compat_r (p_eta p) _ _ Hh HD). lra.
Qed.
Lemma two_back F x : Un_cv (eu p F) x -> Un_cv F (p_lambda0 p * x).
Proof.
  intros H. pose proof (l_dt p HP) as D. pose proof (mh p (l_conv p HP)) as Hh.
  pose proof (mC p (l_conv p HP)) as HC. pose proof (mCD p (l_conv p HP)) as HCD. pose proof lower_rate as LR.
  set (h := p_dt p * p_eta p / p_CD p).
  assert (h1 : 0 < h) by (apply pos_div; [apply pos_mul|]; assumption).
  assert (h2 : h < 2).
  { unfold h. apply Rmult_lt_reg_r with (p_CD p); [assumption|]. unfold Rdiv. rewrite Rmult_assoc, Rinv_l by lra. lra. }
  assert (L : Un_cv (el p F) (1 * x)).
  { apply filt_cv with (1 - h) (eu p F); [apply Rabs_def1; lra| |exact H].
    intros n. rewrite el_S. unfold dTD_dt, h. field. lra. }
  rewrite Rmult_1_l in L.
  apply cv_ext with (fun i => p_C p / p_dt p * (eu p F (S i) - eu p F i) + p_lambda0 p * eu p F i +
                              p_eps p * p_eta p * (eu p F i - el p F i)).
  { intros i. rewrite eu_S. unfold dT_dt. pose proof HP as (_ & _ & _ & Ha & _). rewrite Ha. field. lra. }
  apply cv_to with (p_C p / p_dt p * 0 + p_lambda0 p * x + p_eps p * p_eta p * (x - x)); [ring|].
  apply CV_plus; [apply CV_plus|]; apply cv_scal; [eapply cv_diff0; exact H|exact H|]. apply CV_minus; assumption.
Qed.
End Two.

(** The heat uptake of two merging runs. *)
Lemma en_merge p F G : p_C p <> 0 -> p_CD p <> 0 -> p_dt p <> 0 -> p_a p = 0 ->
  merges F G -> merges (eu p F) (eu p G) -> merges (el p F) (el p G) -> merges (en p F) (en p G).
Proof.
  intros HC HCD Hd Ha HF HU HL. apply cv_S.
  apply cv_ext with (fun i => (F i - G i) - p_lambda0 p * (eu p F i - eu p G i) -
     (p_eps p - 1) * p_eta p * ((eu p F i - eu p G i) - (el p F i - el p G i))).
  { intros i. rewrite !en_balance by assumption. rewrite Ha. ring. }
  apply cv_to with (0 - p_lambda0 p * 0 - (p_eps p - 1) * p_eta p * (0 - 0)); [ring|].
  apply CV_minus; [apply CV_minus|]; [exact HF|apply cv_scal, HU|]. apply cv_scal. apply CV_minus; assumption.
Qed.
Lemma en_shift_merge p F k : p_C p <> 0 -> p_CD p <> 0 -> p_dt p <> 0 -> p_a p = 0 ->
  merges (fun i => F (i + k)%nat) F -> merges (fun i => eu p F (i + k)%nat) (eu p F) ->
  merges (fun i => el p F (i + k)%nat) (el p F) -> merges (fun i => en p F (i + k)%nat) (en p F).
Proof.
  intros HC HCD Hd Ha HF HU HL. apply cv_S.
  apply cv_ext with (fun i => (F (i + k)%nat - F i) - p_lambda0 p * (eu p F (i + k)%nat - eu p F i) -
     (p_eps p - 1) * p_eta p * ((eu p F (i + k)%nat - eu p F i) - (el p F (i + k)%nat - el p F i))).
  { intros i. rewrite Nat.add_succ_l, !en_balance by assumption. rewrite Ha. ring. }
  apply cv_to with (0 - p_lambda0 p * 0 - (p_eps p - 1) * p_eta p * (0 - 0)); [ring|].
  apply CV_minus; [apply CV_minus|]; [exact HF|apply cv_scal, HU|]. apply cv_scal. apply CV_minus; assumption.
Qed.

(** Two parallel filters can be inverted in the long run. *)
Lemma parallel_back x1 x2 q1 q2 F z1 z2 X : 0 < x1 < 1 -> 0 < x2 < 1 -> 0 < q1 -> 0 < q2 ->
  filt x1 q1 F z1 -> filt x2 q2 F z2 -> Un_cv (fun i => z1 i + z2 i) X -> exists L, Un_cv F L.
Proof.
  intros H1 H2 Q1 Q2 F1 F2 H.
  set (b1 := q1 * (1 - x1)). set (b2 := q2 * (1 - x2)).
  assert (B1 : 0 < b1) by (apply pos_mul; lra). assert (B2 : 0 < b2) by (apply pos_mul; lra).
  set (z0 := (b2 * x1 + b1 * x2) / (b1 + b2)).
  set (u := fun i => b2 * z1 i - b1 * z2 i).
  assert (Z0 : 0 < z0) by (apply pos_div; [|lra]; apply Rplus_lt_0_compat; apply pos_mul; lra).
  assert (Z1 : z0 < 1).
  { unfold z0. apply Rmult_lt_reg_r with (b1 + b2); [lra|]. unfold Rdiv. rewrite Rmult_assoc, Rinv_l by lra.
    pose proof (Rmult_lt_compat_l b2 _ _ B2 (proj2 H1)). pose proof (Rmult_lt_compat_l b1 _ _ B1 (proj2 H2)). lra. }
  set (c := b1 * b2 * (x1 - x2) / (b1 + b2) / (1 - z0)).
  assert (U : Un_cv u (c * X)).
  { apply filt_cv with z0 (fun i => z1 i + z2 i); [rewrite Rabs_pos_eq; lra| |exact H].
    intros n. unfold u. rewrite F1, F2. fold b1 b2.
    transitivity (z0 * (b2 * z1 n - b1 * z2 n) + b1 * b2 * (x1 - x2) / (b1 + b2) * (z1 n + z2 n)).
    - unfold z0. field. lra.
    - unfold c. field. lra. }
  assert (C1 : Un_cv z1 (/ (b1 + b2) * (c * X + b1 * X))).
  { apply cv_ext with (fun i => / (b1 + b2) * (u i + b1 * (z1 i + z2 i))); [intros i; unfold u; field; lra|].
    apply cv_scal. apply CV_plus; [exact U|apply cv_scal, H]. }
  eexists. apply cv_ext with (fun i => / b1 * (z1 (S i) - x1 * z1 i)).
  { intros i. rewrite F1. fold b1. field. lra. }
  apply cv_scal. apply CV_minus; [apply cv_next, C1|apply cv_scal, C1].
Qed.
