(** The box equations of [SpecReal]. *)
From Coq Require Import List String QArith Reals Qreals Bool Arith Lra Lia Psatz.
From Verif Require Import Arith Pint Base TwoLayer Impulse Scm Api Spec Exact SpecReal RealUnits RealTL RealGeo RealConv RealIR RealEuler.
Import ListNotations.
Local Open Scope R_scope.

Section Box.
Variables (q d dt : R).
Notation run := (box_run q d dt).
Let k := exp (- dt / d).

Lemma run_S F n : run F (S n) = k * run F n + q * (1 - k) * F n.
Proof. cbn [box_run]. unfold box_solution. fold k. ring. Qed.

Lemma run_ext F G n : (forall i, (i < n)%nat -> F i = G i) -> run F n = run G n.
Proof.
  induction n as [|n IH]; intros H; [reflexivity|]. rewrite !run_S, IH, (H n) by auto with arith. reflexivity.
Qed.
Lemma run_linear F G c1 c2 n : run (fun i => c1 * F i + c2 * G i) n = c1 * run F n + c2 * run G n.
Proof. induction n as [|n IH]; [cbn; ring|]. rewrite !run_S, IH. ring. Qed.
Lemma run_zero F n : (forall i, (i < n)%nat -> F i = 0) -> run F n = 0.
Proof.
  induction n as [|n IH]; intros H; [reflexivity|]. rewrite run_S, IH, (H n) by auto with arith. ring.
Qed.
Lemma run_shift_ge F s n : run (shift s F) (s + n) = run F n.
Proof.
  induction n as [|n IH].
  - rewrite Nat.add_0_r. apply run_zero. intros i Hi. apply shift_lt, Hi.
  - rewrite Nat.add_succ_r, !run_S, IH, shift_ge. reflexivity.
Qed.
Lemma run_shift F s i : run (shift s F) i = shift s (run F) i.
Proof.
  destruct (Nat.lt_ge_cases i s) as [H|H].
  - rewrite shift_lt by assumption. apply run_zero. intros j Hj. apply shift_lt. lia.
  - replace i with (s + (i - s))%nat by lia. rewrite shift_ge. apply run_shift_ge.
Qed.

Section Pos.
Hypothesis Hd : 0 < d.
Hypothesis Hdt : 0 < dt.
Lemma k_range : 0 < k < 1.
Proof.
  unfold k. split; [apply exp_pos|]. rewrite <- exp_0. apply exp_increasing.
  assert (0 < dt / d) by (apply pos_div; assumption). unfold Rdiv in *. lra.
Qed.
Lemma run_order F G n : 0 <= q -> (forall i, (i < n)%nat -> F i <= G i) -> run F n <= run G n.
Proof.
  intros Hq. pose proof k_range. induction n as [|n IH]; intros H1; [cbn; lra|].
  rewrite !run_S. apply Rplus_le_compat; apply Rmult_le_compat_l; auto with arith; try lra.
  apply Rmult_le_pos; lra.
Qed.
Lemma run_below F M n : 0 <= q -> (forall i, (i < n)%nat -> F i <= M) -> 0 <= M -> run F n <= q * M.
Proof.
  intros Hq H HM. pose proof k_range. assert (0 <= q * M) by (apply Rmult_le_pos; assumption).
  induction n as [|n IH]; [cbn; lra|]. specialize (IH ltac:(auto with arith)). rewrite run_S.
  replace (q * M) with (k * (q * M) + q * (1 - k) * M) by ring.
  apply Rplus_le_compat; apply Rmult_le_compat_l; auto with arith; try lra.
  apply Rmult_le_pos; lra.
Qed.
Lemma run_neg F n : run (fun i => - F i) n = - run F n.
Proof.
  pose proof (run_linear F F (-1) 0 n) as H. rewrite (run_ext _ (fun i => - F i)) in H by (intros; ring). rewrite H. ring.
Qed.
Lemma run_bound F M n : 0 <= q -> (forall i, (i < n)%nat -> Rabs (F i) <= M) -> 0 <= M -> Rabs (run F n) <= q * M.
Proof.
  intros Hq H HM.
  assert (run F n <= q * M).
  { apply run_below; auto. intros i Hi. specialize (H i Hi). apply abs_le_inv in H. lra. }
  assert (- run F n <= q * M).
  { rewrite <- run_neg. apply run_below; auto. intros i Hi. specialize (H i Hi). apply abs_le_inv in H. lra. }
  apply Rabs_le. lra.
Qed.
Lemma run_const F n : run (fun _ => F) n = q * F * (1 - k ^ n).
Proof. induction n as [|n IH]; [cbn; ring|]. rewrite run_S, IH. cbn [pow]. ring. Qed.
Lemma run_const_cv F : Un_cv (run (fun _ => F)) (q * F).
Proof.
  pose proof k_range. apply squeeze_cv with (k := Rabs (q * F)) (r := k); [lra|]. intros i.
  rewrite run_const. replace (q * F * (1 - k ^ i) - q * F) with (- (q * F) * k ^ i) by ring.
  rewrite Rabs_mult, Rabs_Ropp, (Rabs_right (k ^ i)); [lra|]. apply Rle_ge, pow_le. lra.
Qed.
End Pos.
End Box.

(** ** Step-size independence *)
Lemma exp_mult_pow x n : exp (INR n * x) = exp x ^ n.
Proof.
  induction n as [|n IH]; [cbn; rewrite Rmult_0_l, exp_0; reflexivity|].
  rewrite S_INR, Rmult_plus_distr_r, Rmult_1_l, exp_plus, IH. cbn. ring.
Qed.
Lemma run_hold q d h T0 c n : d <> 0 ->
  Nat.iter n (fun T => box_solution q d c T h) T0 = box_solution q d c T0 (INR n * h).
Proof.
  intros Hd. induction n as [|n IH].
  - cbn. unfold box_solution. rewrite Rmult_0_l. replace (- 0 / d) with 0 by (field; assumption). rewrite exp_0. ring.
  - change (Nat.iter (S n) (fun T => box_solution q d c T h) T0) with
      (box_solution q d c (Nat.iter n (fun T => box_solution q d c T h) T0) h). rewrite IH. unfold box_solution.
    rewrite S_INR.
    replace (- ((INR n + 1) * h) / d) with (- (INR n * h) / d + - h / d) by (field; assumption).
    rewrite exp_plus. ring.
Qed.
Lemma run_block q d h F m j c : (forall i, (m <= i < m + j)%nat -> F i = c) ->
  box_run q d h F (m + j) = Nat.iter j (fun T => box_solution q d c T h) (box_run q d h F m).
Proof.
  induction j as [|j IH]; intros H; [rewrite Nat.add_0_r; reflexivity|].
  rewrite Nat.add_succ_r. cbn [box_run]. rewrite IH by (intros; apply H; lia).
  rewrite (H (m + j)%nat) by lia. reflexivity.
Qed.
Lemma run_stretch q d dt F k i : d <> 0 -> (0 < k)%nat ->
  box_run q d (dt / INR k) (fun j => F (j / k)%nat) (k * i) = box_run q d dt F i.
Proof.
  intros Hd Hk. assert (HK : INR k <> 0) by (apply not_0_INR; lia).
  induction i as [|i IH]; [rewrite Nat.mul_0_r; reflexivity|].
  rewrite Nat.mul_succ_r, (run_block q d (dt / INR k) _ (k * i) k (F i)), IH, run_hold by
    (try assumption; intros j Hj; f_equal; symmetry; apply (Nat.div_unique j k i (j - k * i)); lia).
  cbn [box_run]. f_equal. field. assumption.
Qed.

(** ** The differential equation *)
Lemma box_solution_lim q d F T0 t : d <> 0 -> derivable_pt_lim (box_solution q d F T0) t ((q * F - box_solution q d F T0 t) / d).
Proof.
  intros Hd. unfold box_solution.
  assert (He : derivable_pt_lim (fun x => exp (- x / d)) t (exp (- t / d) * (- / d))).
  { assert (L : derivable_pt_lim (fun x => - x / d) t (- / d)).
    { replace (- / d) with (- (1) * / d + - t * 0) by ring.
      apply (derivable_pt_lim_mult (fun x => - x) (fun _ => / d)).
      - apply (derivable_pt_lim_opp (fun x => x)). apply derivable_pt_lim_id.
      - apply derivable_pt_lim_const. }
    pose proof (derivable_pt_lim_comp (fun x => - x / d) exp t (- / d) (exp (- t / d)) L (derivable_pt_lim_exp _)) as K.
    exact K. }
  replace ((q * F - (T0 * exp (- t / d) + q * F * (1 - exp (- t / d)))) / d) with
    (T0 * (exp (- t / d) * (- / d)) + q * F * (0 - exp (- t / d) * (- / d))) by (field; assumption).
  apply (derivable_pt_lim_plus (fun x => T0 * exp (- x / d)) (fun x => q * F * (1 - exp (- x / d)))).
  - apply (derivable_pt_lim_scal (fun x => exp (- x / d))). exact He.
  - apply (derivable_pt_lim_scal (fun x => 1 - exp (- x / d))).
    apply (derivable_pt_lim_minus (fun _ => 1) (fun x => exp (- x / d))); [apply derivable_pt_lim_const|exact He].
Qed.

Lemma zero_rate (g : R -> R) a b : (forall t, Rmin a b <= t <= Rmax a b -> derivable_pt_lim g t 0) -> g b = g a.
Proof.
  intros H. destruct (Rtotal_order a b) as [L|[->|L]]; [|reflexivity|].
  - destruct (MVT_cor2 g (fun _ => 0) a b L) as (c & Hc & _).
    { intros c Hc. apply H. rewrite Rmin_left, Rmax_right by lra. exact Hc. }
    lra.
  - destruct (MVT_cor2 g (fun _ => 0) b a L) as (c & Hc & _).
    { intros c Hc. apply H. rewrite Rmin_right, Rmax_left by lra. exact Hc. }
    lra.
Qed.

Lemma box_ode_exists q d F T0 dt : d <> 0 -> box_ode q d F T0 dt (box_solution q d F T0).
Proof.
  intros Hd. split.
  - unfold box_solution. replace (- 0 / d) with 0 by (field; assumption). rewrite exp_0. ring.
  - intros t _. apply box_solution_lim, Hd.
Qed.
Lemma box_ode_unique q d F T0 dt y : d <> 0 -> box_ode q d F T0 dt y -> y dt = box_solution q d F T0 dt.
Proof.
  intros Hd (H0 & H). set (g := fun t => (y t - q * F) * exp (t / d)).
  assert (K : g dt = g 0).
  { apply zero_rate. intros t Ht.
    assert (He : derivable_pt_lim (fun x => exp (x / d)) t (exp (t / d) * / d)).
    { assert (L : derivable_pt_lim (fun x => x / d) t (/ d)).
      { replace (/ d) with (1 * / d + t * 0) by ring.
        apply (derivable_pt_lim_mult (fun x => x) (fun _ => / d)); [apply derivable_pt_lim_id|apply derivable_pt_lim_const]. }
      exact (derivable_pt_lim_comp (fun x => x / d) exp t (/ d) (exp (t / d)) L (derivable_pt_lim_exp _)). }
    replace 0 with (((q * F - y t) / d - 0) * exp (t / d) + (y t - q * F) * (exp (t / d) * / d)) by (field; assumption).
    apply (derivable_pt_lim_mult (fun x => y x - q * F) (fun x => exp (x / d))); [|exact He].
    apply (derivable_pt_lim_minus y (fun _ => q * F)); [apply H, Ht|apply derivable_pt_lim_const]. }
  unfold g in K. rewrite H0 in K. replace (0 / d) with 0 in K by (field; assumption). rewrite exp_0 in K.
  assert (Z : exp (dt / d) * exp (- dt / d) = 1).
  { rewrite <- exp_plus. replace (dt / d + - dt / d) with 0 by (field; assumption). apply exp_0. }
  unfold box_solution.
  assert (y dt - q * F = (T0 - q * F) * exp (- dt / d)).
  { transitivity ((y dt - q * F) * (exp (dt / d) * exp (- dt / d))); [rewrite Z; ring|].
    rewrite <- Rmult_assoc, K. ring. }
  lra.
Qed.
