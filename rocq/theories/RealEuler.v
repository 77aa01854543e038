(** The Euler recurrence of [SpecReal]: balances, linearity, order, limits. *)
From Coq Require Import List String QArith Reals Qreals Bool Arith Lra Lia Psatz.
From Verif Require Import Arith Pint Base TwoLayer Impulse Scm Api Spec Exact SpecReal RealUnits RealTL.
Import ListNotations.
Local Open Scope R_scope.

Section Balance.
Variables (p : TLP) (F : nat -> R).
Hypothesis HC : p_C p <> 0.
Hypothesis HCD : p_CD p <> 0.
Hypothesis Hdt : p_dt p <> 0.

Lemma en_balance i : en p F (S i) =
  F i - (p_lambda0 p - p_a p * eu p F i) * eu p F i - (p_eps p - 1) * p_eta p * (eu p F i - el p F i).
Proof.
  unfold en. rewrite eu_S, el_S. unfold dT_dt, dTD_dt. field. auto.
Qed.

Lemma en_sum i : p_dt p * sum_f_R0 (en p F) i = p_C p * eu p F i + p_CD p * el p F i.
Proof.
  induction i as [|i IH].
  - cbn [sum_f_R0 en]. unfold eu, el. cbn. ring.
  - cbn [sum_f_R0]. rewrite Rmult_plus_distr_l, IH. unfold en. field. assumption.
Qed.
End Balance.

Section Linear.
Variables (p : TLP) (F G : nat -> R) (c d : R).
Hypothesis Ha : p_a p = 0.
Let H i := c * F i + d * G i.

Lemma euler_linear i : eu p H i = c * eu p F i + d * eu p G i /\ el p H i = c * el p F i + d * el p G i.
Proof.
  induction i as [|i (IH1 & IH2)]; [unfold eu, el; cbn; split; ring|].
  rewrite !eu_S, !el_S, IH1, IH2. unfold dT_dt, dTD_dt, H. rewrite Ha. unfold Rdiv. split; ring.
Qed.
Lemma en_linear i : en p H i = c * en p F i + d * en p G i.
Proof.
  destruct i as [|i]; cbn [en]; [ring|].
  rewrite (proj1 (euler_linear (S i))), (proj2 (euler_linear (S i))), (proj1 (euler_linear i)), (proj2 (euler_linear i)).
  unfold Rdiv. ring.
Qed.
End Linear.

Lemma euler_zero p F k : (forall i, (i < k)%nat -> F i = 0) -> eu p F k = 0 /\ el p F k = 0.
Proof.
  induction k as [|k IH]; intros H; [split; reflexivity|].
  destruct IH as (I1 & I2); [auto with arith|].
  rewrite eu_S, el_S, I1, I2. unfold dT_dt, dTD_dt. rewrite H by lia. unfold Rdiv. split; ring.
Qed.
Lemma shift_lt k f i : (i < k)%nat -> shift k f i = 0.
Proof. intros H. unfold shift. apply Nat.ltb_lt in H. rewrite H. reflexivity. Qed.
Lemma shift_ge k f i : shift k f (k + i) = f i.
Proof. unfold shift. destruct (Nat.ltb_spec (k + i) k); [lia|]. f_equal. lia. Qed.

Lemma euler_shift p F k i : eu p (shift k F) (k + i) = eu p F i /\ el p (shift k F) (k + i) = el p F i.
Proof.
  induction i as [|i (I1 & I2)].
  - rewrite Nat.add_0_r. apply euler_zero. intros j Hj. apply shift_lt, Hj.
  - rewrite Nat.add_succ_r, !eu_S, !el_S, I1, I2, shift_ge. auto.
Qed.
Lemma eu_shift p F k i : eu p (shift k F) i = shift k (eu p F) i /\ el p (shift k F) i = shift k (el p F) i.
Proof.
  destruct (Nat.lt_ge_cases i k) as [H|H].
  - rewrite !shift_lt by assumption. apply euler_zero. intros j Hj. apply shift_lt. lia.
  - replace i with (k + (i - k))%nat by lia. rewrite !shift_ge. apply euler_shift.
Qed.
Lemma en_shift p F k i : en p (shift k F) i = shift k (en p F) i.
Proof.
  destruct (Nat.lt_ge_cases i k) as [H|H].
  - rewrite shift_lt by assumption. destruct i as [|i]; [reflexivity|]. cbn [en].
    rewrite !(proj1 (eu_shift _ _ _ _)), !(proj2 (eu_shift _ _ _ _)), !shift_lt by lia. unfold Rdiv. ring.
  - replace i with (k + (i - k))%nat by lia. rewrite shift_ge. generalize (i - k)%nat. intros j.
    destruct j as [|j].
    + rewrite Nat.add_0_r. destruct k as [|k]; [reflexivity|]. cbn [en].
      pose proof (euler_shift p F (S k) 0) as (K1 & K2). rewrite Nat.add_0_r in K1, K2.
      rewrite K1, K2, (proj1 (eu_shift _ _ _ _)), (proj2 (eu_shift _ _ _ _)), !shift_lt by lia.
      unfold eu, el, Rdiv. cbn. ring.
    + rewrite Nat.add_succ_r. cbn [en]. rewrite <- Nat.add_succ_r.
      rewrite !(proj1 (euler_shift _ _ _ _)), !(proj2 (euler_shift _ _ _ _)). reflexivity.
Qed.

Lemma abs_le_inv x a : Rabs x <= a -> - a <= x <= a.
Proof. intros H. unfold Rabs in H. destruct (Rcase_abs x); lra. Qed.
Lemma div_nonneg a b : 0 <= a -> 0 < b -> 0 <= a / b.
Proof. intros. unfold Rdiv. apply Rmult_le_pos; [assumption|]. left. apply Rinv_0_lt_compat. assumption. Qed.

Section Stable.
Variable p : TLP.
Hypothesis Hp : positive_tl p.
Hypothesis Hs : small_step p.

(** Step coefficients. *)
Let al := p_dt p / p_C p.
Let be := p_dt p / p_CD p.
Lemma pC_pos : 0 < p_C p. Proof. apply cap_pos, Hp. Qed.
Lemma pCD_pos : 0 < p_CD p. Proof. apply cap_pos, Hp. Qed.
Lemma al_pos : 0 < al.
Proof. unfold al. apply Rdiv_lt_0_compat; [apply Hp|apply pC_pos]. Qed.
Lemma be_pos : 0 < be.
Proof. unfold be. apply Rdiv_lt_0_compat; [apply Hp|apply pCD_pos]. Qed.
Lemma step_u F T TD : T + p_dt p * dT_dt p F T TD =
  (1 - al * (p_lambda0 p + p_eps p * p_eta p)) * T + al * (p_eps p * p_eta p) * TD + al * F.
Proof. destruct Hp as (_ & _ & _ & Ha & _). unfold dT_dt, al. rewrite Ha. pose proof pC_pos. field. lra. Qed.
Lemma step_l T TD : TD + p_dt p * dTD_dt p T TD = (1 - be * p_eta p) * TD + be * p_eta p * T.
Proof. unfold dTD_dt, be. pose proof pCD_pos. field. lra. Qed.
Lemma k1_nonneg : 0 <= 1 - al * (p_lambda0 p + p_eps p * p_eta p).
Proof.
  destruct Hs as (H & _). pose proof pC_pos. unfold al.
  replace (1 - p_dt p / p_C p * (p_lambda0 p + p_eps p * p_eta p)) with
    ((p_C p - p_dt p * (p_lambda0 p + p_eps p * p_eta p)) / p_C p) by (field; lra).
  apply div_nonneg; lra.
Qed.
Lemma k2_nonneg : 0 <= 1 - be * p_eta p.
Proof.
  destruct Hs as (_ & H). pose proof pCD_pos. unfold be.
  replace (1 - p_dt p / p_CD p * p_eta p) with ((p_CD p - p_dt p * p_eta p) / p_CD p) by (field; lra).
  apply div_nonneg; lra.
Qed.
Lemma ee_pos : 0 < p_eps p * p_eta p.
Proof. apply Rmult_lt_0_compat; apply Hp. Qed.

Lemma euler_order F G i : (forall j, (j < i)%nat -> F j <= G j) -> eu p F i <= eu p G i /\ el p F i <= el p G i.
Proof.
  induction i as [|i IH]; intros H; [split; apply Rle_refl|].
  destruct IH as (I1 & I2); [auto with arith|]. specialize (H i (Nat.lt_succ_diag_r i)).
  rewrite !eu_S, !el_S, !step_u, !step_l.
  pose proof al_pos. pose proof be_pos. pose proof k1_nonneg. pose proof k2_nonneg. pose proof ee_pos.
  assert (0 < p_eta p) by apply Hp.
  split.
  - repeat apply Rplus_le_compat; apply Rmult_le_compat_l; auto; try lra.
    apply Rmult_le_pos; lra.
  - apply Rplus_le_compat; apply Rmult_le_compat_l; auto.
    apply Rmult_le_pos; lra.
Qed.

Lemma euler_below F M i : (forall j, (j < i)%nat -> F j <= M) -> 0 <= M ->
  eu p F i <= M / p_lambda0 p /\ el p F i <= M / p_lambda0 p.
Proof.
  intros H HM. assert (Hl : 0 < p_lambda0 p) by apply Hp. set (B := M / p_lambda0 p).
  assert (HB : 0 <= B) by (apply div_nonneg; assumption).
  assert (HMB : M = p_lambda0 p * B) by (unfold B; field; lra).
  induction i as [|i IH]; [split; unfold eu, el; cbn; assumption|].
  destruct IH as (I1 & I2); [auto with arith|]. specialize (H i (Nat.lt_succ_diag_r i)).
  rewrite !eu_S, !el_S, !step_u, !step_l.
  pose proof al_pos. pose proof be_pos. pose proof k1_nonneg as K1. pose proof k2_nonneg as K2. pose proof ee_pos.
  assert (0 < p_eta p) by apply Hp.
  split.
  - replace B with ((1 - al * (p_lambda0 p + p_eps p * p_eta p)) * B + al * (p_eps p * p_eta p) * B + al * M)
      by (rewrite HMB; ring).
    repeat apply Rplus_le_compat; apply Rmult_le_compat_l; auto; try lra.
    apply Rmult_le_pos; lra.
  - replace B with ((1 - be * p_eta p) * B + be * p_eta p * B) by ring.
    apply Rplus_le_compat; apply Rmult_le_compat_l; auto.
    apply Rmult_le_pos; lra.
Qed.

Lemma euler_neg F i : p_a p = 0 -> eu p (fun j => - F j) i = - eu p F i /\ el p (fun j => - F j) i = - el p F i.
Proof.
  intros Ha. pose proof (euler_linear p F F (-1) 0 Ha i) as (H1 & H2).
  assert (K : euler p (fun j => -1 * F j + 0 * F j) i = euler p (fun j => - F j) i).
  { apply euler_ext. intros. ring. }
  unfold eu, el in *. rewrite K in *. rewrite H1, H2. split; ring.
Qed.

Lemma euler_bound F M i : (forall j, (j < i)%nat -> Rabs (F j) <= M) -> 0 <= M ->
  Rabs (eu p F i) <= M / p_lambda0 p /\ Rabs (el p F i) <= M / p_lambda0 p.
Proof.
  intros H HM.
  destruct (euler_below F M i) as (U1 & U2); [|assumption|].
  { intros j Hj. specialize (H j Hj). apply abs_le_inv in H. lra. }
  destruct (euler_below (fun j => - F j) M i) as (L1 & L2); [|assumption|].
  { intros j Hj. specialize (H j Hj). apply abs_le_inv in H. lra. }
  destruct (euler_neg F i) as (N1 & N2); [apply Hp|]. rewrite N1 in L1. rewrite N2 in L2.
  split; apply Rabs_le; lra.
Qed.

Lemma euler_nonneg F i : (forall j, (j < i)%nat -> 0 <= F j) -> 0 <= eu p F i /\ 0 <= el p F i.
Proof.
  intros H. pose proof (euler_order (fun _ => 0) F i H) as (H1 & H2).
  destruct (euler_zero p (fun _ => 0) i) as (Z1 & Z2); [reflexivity|]. lra.
Qed.

(** ** Constant forcing: contraction in a weighted maximum norm *)
Section Const.
Variable F : R.
Let S0 := F / p_lambda0 p.
Let w := 1 + p_lambda0 p / (2 * (p_eps p * p_eta p)).
Let r1 := 1 - al * (p_lambda0 p + p_eps p * p_eta p) + al * (p_eps p * p_eta p) * w.
Let r2 := 1 - be * p_eta p + be * p_eta p / w.
Let rho := Rmax r1 r2.

Lemma w_gt : 1 < w.
Proof.
  unfold w. assert (0 < p_lambda0 p / (2 * (p_eps p * p_eta p))); [|lra].
  apply Rdiv_lt_0_compat; [apply Hp|]. pose proof ee_pos. lra.
Qed.
Lemma r1_lt : 0 <= r1 < 1.
Proof.
  pose proof al_pos. pose proof ee_pos. pose proof w_gt. pose proof k1_nonneg. assert (0 < p_lambda0 p) by apply Hp.
  unfold r1. split.
  - assert (0 <= al * (p_eps p * p_eta p) * w) by (apply Rmult_le_pos; [apply Rmult_le_pos|]; lra). lra.
  - replace (1 - al * (p_lambda0 p + p_eps p * p_eta p) + al * (p_eps p * p_eta p) * w) with (1 - al * p_lambda0 p / 2).
    + assert (0 < al * p_lambda0 p) by (apply Rmult_lt_0_compat; assumption). lra.
    + unfold w. field. assert (0 < p_eps p) by apply Hp. assert (0 < p_eta p) by apply Hp. lra.
Qed.
Lemma r2_lt : 0 <= r2 < 1.
Proof.
  pose proof be_pos. pose proof w_gt. pose proof k2_nonneg. assert (0 < p_eta p) by apply Hp.
  assert (Hb : 0 < be * p_eta p) by (apply Rmult_lt_0_compat; assumption).
  unfold r2. split.
  - assert (0 < be * p_eta p / w) by (apply Rdiv_lt_0_compat; lra). lra.
  - assert (be * p_eta p / w < be * p_eta p); [|lra].
    unfold Rdiv. rewrite <- (Rmult_1_r (be * p_eta p)) at 2. apply Rmult_lt_compat_l; [assumption|].
    rewrite <- Rinv_1. apply Rinv_lt_contravar; lra.
Qed.
Lemma rho_lt : 0 <= rho < 1.
Proof. pose proof r1_lt. pose proof r2_lt. unfold rho, Rmax. destruct (Rle_dec r1 r2); lra. Qed.

Lemma contraction i :
  Rabs (eu p (fun _ => F) i - S0) <= rho ^ i * Rabs S0 /\ Rabs (el p (fun _ => F) i - S0) <= w * (rho ^ i * Rabs S0).
Proof.
  pose proof w_gt as W.
  induction i as [|i (I1 & I2)].
  - unfold eu, el. cbn. replace (0 - S0) with (- S0) by ring. rewrite Rabs_Ropp. pose proof (Rabs_pos S0). split; [lra|].
    rewrite Rmult_1_l. rewrite <- (Rmult_1_l (Rabs S0)) at 1. apply Rmult_le_compat_r; lra.
  - rewrite eu_S, el_S, step_u, step_l. set (u := eu p (fun _ => F) i) in *. set (v := el p (fun _ => F) i) in *.
    pose proof al_pos. pose proof be_pos. pose proof k1_nonneg as K1. pose proof k2_nonneg as K2. pose proof ee_pos.
    assert (0 < p_eta p) by apply Hp. assert (0 < p_lambda0 p) by apply Hp.
    assert (HF : F = p_lambda0 p * S0) by (unfold S0; field; lra).
    set (m := rho ^ i * Rabs S0) in *.
    assert (Hm : 0 <= m) by (apply Rmult_le_pos; [apply pow_le, rho_lt|apply Rabs_pos]).
    assert (Hm' : rho ^ S i * Rabs S0 = rho * m) by (cbn; unfold m; ring).
    rewrite Hm'.
    assert (C1 : 0 <= al * (p_eps p * p_eta p)) by (apply Rmult_le_pos; lra).
    assert (C2 : 0 <= be * p_eta p) by (apply Rmult_le_pos; lra).
    split.
    + replace (_ + _ + al * F - S0) with
        ((1 - al * (p_lambda0 p + p_eps p * p_eta p)) * (u - S0) + al * (p_eps p * p_eta p) * (v - S0))
        by (rewrite HF; ring).
      eapply Rle_trans; [apply Rabs_triang|]. rewrite (Rabs_mult _ (u - S0)), (Rabs_mult _ (v - S0)), (Rabs_right _ (Rle_ge _ _ K1)), (Rabs_right _ (Rle_ge _ _ C1)).
      apply Rle_trans with (r1 * m).
      * unfold r1. rewrite Rmult_plus_distr_r. apply Rplus_le_compat; [apply Rmult_le_compat_l; assumption|].
        replace (al * (p_eps p * p_eta p) * w * m) with (al * (p_eps p * p_eta p) * (w * m)) by ring.
        apply Rmult_le_compat_l; assumption.
      * apply Rmult_le_compat_r; [assumption|apply Rmax_l].
    + replace (_ + _ - S0) with ((1 - be * p_eta p) * (v - S0) + be * p_eta p * (u - S0)) by ring.
      eapply Rle_trans; [apply Rabs_triang|]. rewrite (Rabs_mult _ (v - S0)), (Rabs_mult _ (u - S0)), (Rabs_right _ (Rle_ge _ _ K2)), (Rabs_right _ (Rle_ge _ _ C2)).
      apply Rle_trans with (w * (r2 * m)).
      * replace (w * (r2 * m)) with ((1 - be * p_eta p) * (w * m) + be * p_eta p * m) by (unfold r2; field; lra).
        apply Rplus_le_compat; apply Rmult_le_compat_l; assumption.
      * apply Rmult_le_compat_l; [lra|]. apply Rmult_le_compat_r; [assumption|apply Rmax_r].
Qed.

Lemma squeeze_cv (x : nat -> R) (l k r : R) : 0 <= r < 1 -> (forall i, Rabs (x i - l) <= k * r ^ i) -> Un_cv x l.
Proof.
  intros Hr H eps He.
  assert (Hk : 0 < Rabs k + 1) by (pose proof (Rabs_pos k); lra).
  destruct (pow_lt_1_zero r) with (y := eps / (Rabs k + 1)) as (N & HN).
  { rewrite Rabs_right; lra. }
  { apply Rdiv_lt_0_compat; lra. }
  exists N. intros n Hn. unfold R_dist. eapply Rle_lt_trans; [apply H|].
  specialize (HN n Hn). rewrite (Rabs_right (r ^ n)) in HN by (apply Rle_ge, pow_le; lra).
  assert (P : 0 <= r ^ n) by (apply pow_le; lra).
  apply Rle_lt_trans with ((Rabs k + 1) * r ^ n).
  - apply Rmult_le_compat_r; [assumption|]. pose proof (Rle_abs k). lra.
  - apply Rmult_lt_reg_r with (/ (Rabs k + 1)); [apply Rinv_0_lt_compat; assumption|].
    replace ((Rabs k + 1) * r ^ n * / (Rabs k + 1)) with (r ^ n) by (field; lra). exact HN.
Qed.

Lemma eu_cv : Un_cv (eu p (fun _ => F)) S0.
Proof.
  apply squeeze_cv with (k := Rabs S0) (r := rho); [apply rho_lt|]. intros i.
  rewrite Rmult_comm. apply contraction.
Qed.
Lemma el_cv : Un_cv (el p (fun _ => F)) S0.
Proof.
  apply squeeze_cv with (k := w * Rabs S0) (r := rho); [apply rho_lt|]. intros i.
  replace (w * Rabs S0 * rho ^ i) with (w * (rho ^ i * Rabs S0)) by ring. apply contraction.
Qed.
Lemma cv_S (x : nat -> R) l : Un_cv (fun i => x (S i)) l -> Un_cv x l.
Proof.
  intros H eps He. destruct (H eps He) as (N & HN). exists (S N). intros [|n] Hn; [lia|]. apply HN. lia.
Qed.
Lemma cv_const c : Un_cv (fun _ => c) c.
Proof. intros eps He. exists 0%nat. intros. unfold R_dist. rewrite Rminus_diag_eq, Rabs_R0; auto. Qed.
Lemma cv_ext (x y : nat -> R) l : (forall i, x i = y i) -> Un_cv x l -> Un_cv y l.
Proof. intros H K eps He. destruct (K eps He) as (N & HN). exists N. intros n Hn. rewrite <- H. auto. Qed.

Lemma cv_to (x : nat -> R) l l' : l = l' -> Un_cv x l -> Un_cv x l'.
Proof. intros ->. auto. Qed.

Lemma en_cv : Un_cv (en p (fun _ => F)) 0.
Proof.
  apply cv_S.
  eapply cv_ext.
  { intros i. symmetry. apply en_balance.
    - pose proof pC_pos. lra.
    - pose proof pCD_pos. lra.
    - assert (0 < p_dt p) by apply Hp. lra. }
  replace (p_a p) with 0 by (symmetry; apply Hp). cbn beta.
  assert (Hl : 0 < p_lambda0 p) by apply Hp.
  apply cv_to with (F - (p_lambda0 p - 0 * S0) * S0 - (p_eps p - 1) * p_eta p * (S0 - S0)); [unfold S0; field; lra|].
  apply CV_minus; [apply CV_minus; [apply cv_const|]|].
  - apply CV_mult; [|apply eu_cv]. apply CV_minus; [apply cv_const|]. apply CV_mult; [apply cv_const|apply eu_cv].
  - apply CV_mult; [apply cv_const|]. apply CV_minus; [apply eu_cv|apply el_cv].
Qed.
End Const.
End Stable.
