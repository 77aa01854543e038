(** The parameter relations of Geoffroy et al. (2013) over the reals. *)
From Coq Require Import Reals Lra Psatz.
Local Open Scope R_scope.

Lemma pos_mul a b : 0 < a -> 0 < b -> 0 < a * b.
Proof. apply Rmult_lt_0_compat. Qed.
Lemma pos_div a b : 0 < a -> 0 < b -> 0 < a / b.
Proof. intros. apply Rdiv_lt_0_compat; assumption. Qed.

#[local] Set Default Proof Using "All".
Section Geo.
Variables C CD lam eps eta : R.
Definition gb := (lam + eps * eta) / C + eta / CD.
Definition gbs := (lam + eps * eta) / C - eta / CD.
Definition gdelta := gb * gb - 4 * lam * eta / (C * CD).
Definition gtau1 := C * CD / (2 * lam * eta) * (gb - sqrt gdelta).
Definition gtau2 := C * CD / (2 * lam * eta) * (gb + sqrt gdelta).
Definition gphi1 := C / (2 * eps * eta) * (gbs - sqrt gdelta).
Definition gphi2 := C / (2 * eps * eta) * (gbs + sqrt gdelta).
Definition ga1 := gtau1 * gphi2 * lam / (C * (gphi2 - gphi1)).
Definition ga2 := - gtau2 * gphi1 * lam / (C * (gphi2 - gphi1)).
Definition gq1 := gtau1 * gphi2 / (C * (gphi2 - gphi1)).
Definition gq2 := - gtau2 * gphi1 / (C * (gphi2 - gphi1)).

Hypothesis HC : 0 < C.
Hypothesis HCD : 0 < CD.
Hypothesis Hlam : 0 < lam.
Hypothesis Heps : 0 < eps.
Hypothesis Heta : 0 < eta.

Lemma gdelta_alt : gdelta = gbs * gbs + 4 * eps * eta * eta / (C * CD).
Proof. unfold gdelta, gb, gbs. field. lra. Qed.

Lemma coup_pos : 0 < 4 * eps * eta * eta / (C * CD).
Proof. repeat first [apply pos_div|apply pos_mul]; lra. Qed.
Lemma gdelta_pos : 0 < gdelta.
Proof.
  rewrite gdelta_alt. pose proof coup_pos. pose proof (Rle_0_sqr gbs) as H1. unfold Rsqr in H1. lra.
Qed.
Let r := sqrt gdelta.
Lemma r_pos : 0 < r.
Proof. apply sqrt_lt_R0, gdelta_pos. Qed.
Lemma r_sq : r * r = gdelta.
Proof. apply sqrt_sqrt. left. apply gdelta_pos. Qed.
Lemma gb_pos : 0 < gb.
Proof.
  unfold gb. assert (0 < eps * eta) by (apply pos_mul; assumption).
  assert (0 < (lam + eps * eta) / C) by (apply pos_div; lra).
  assert (0 < eta / CD) by (apply pos_div; lra). lra.
Qed.
Lemma le4_pos : 0 < 4 * lam * eta / (C * CD).
Proof. repeat first [apply pos_div|apply pos_mul]; lra. Qed.
Lemma r_lt_b : r < gb.
Proof.
  pose proof gb_pos. pose proof le4_pos. pose proof r_sq as Hr. unfold gdelta in Hr.
  pose proof r_pos. nra.
Qed.
Lemma r_gt_bs : - r < gbs < r.
Proof.
  pose proof coup_pos. pose proof r_sq as Hr. rewrite gdelta_alt in Hr. pose proof r_pos. split; nra.
Qed.

Lemma ctc_pos : 0 < C * CD / (2 * lam * eta).
Proof. repeat first [apply pos_div|apply pos_mul]; lra. Qed.
Lemma cphi_pos : 0 < C / (2 * eps * eta).
Proof. repeat first [apply pos_div|apply pos_mul]; lra. Qed.
Lemma gtau1_pos : 0 < gtau1.
Proof. unfold gtau1. fold r. apply pos_mul; [apply ctc_pos|]. pose proof r_lt_b. lra. Qed.
Lemma gtau_lt : gtau1 < gtau2.
Proof. unfold gtau1, gtau2. fold r. apply Rmult_lt_compat_l; [apply ctc_pos|]. pose proof r_pos. lra. Qed.
Lemma gphi1_neg : gphi1 < 0.
Proof. unfold gphi1. fold r. pose proof cphi_pos. pose proof r_gt_bs. nra. Qed.
Lemma gphi2_pos : 0 < gphi2.
Proof. unfold gphi2. fold r. pose proof cphi_pos. pose proof r_gt_bs. nra. Qed.
Lemma gphi_diff : gphi2 - gphi1 = C / (eps * eta) * r.
Proof. unfold gphi1, gphi2. fold r. field. lra. Qed.
Lemma gphi_diff_pos : 0 < gphi2 - gphi1.
Proof. pose proof gphi1_neg. pose proof gphi2_pos. lra. Qed.

(** Multiplied-out facts from which everything else follows by algebra. *)
Lemma tau_prod : gtau1 * gtau2 = C * CD / (lam * eta).
Proof.
  unfold gtau1, gtau2. fold r.
  replace (C * CD / (2 * lam * eta) * (gb - r) * (C * CD / (2 * lam * eta) * (gb + r)))
    with (C * CD / (2 * lam * eta) * (C * CD / (2 * lam * eta)) * (gb * gb - r * r)) by ring.
  rewrite r_sq. unfold gdelta. field. repeat split; lra.
Qed.
Lemma tau_sum : gtau1 + gtau2 = C * CD / (lam * eta) * gb.
Proof. unfold gtau1, gtau2. field. lra. Qed.
Lemma phi_prod : gphi1 * gphi2 = - C / (eps * CD).
Proof.
  unfold gphi1, gphi2. fold r.
  replace (C / (2 * eps * eta) * (gbs - r) * (C / (2 * eps * eta) * (gbs + r)))
    with (C / (2 * eps * eta) * (C / (2 * eps * eta)) * (gbs * gbs - r * r)) by ring.
  rewrite r_sq, gdelta_alt. field. repeat split; lra.
Qed.
Lemma phi_sum : gphi1 + gphi2 = C / (eps * eta) * gbs.
Proof. unfold gphi1, gphi2. field. lra. Qed.

(** C + phi_i eps C_D = lambda0 tau_i *)
Lemma tau_phi1 : C + gphi1 * eps * CD = lam * gtau1.
Proof.
  unfold gphi1, gtau1. fold r.
  replace (gb - r) with (2 * eta / CD + (gbs - r)) by (unfold gb, gbs; field; lra).
  field. lra.
Qed.
Lemma tau_phi2 : C + gphi2 * eps * CD = lam * gtau2.
Proof.
  unfold gphi2, gtau2. fold r.
  replace (gb + r) with (2 * eta / CD + (gbs + r)) by (unfold gb, gbs; field; lra).
  field. lra.
Qed.

(** Characteristic equations: each 1/tau is a rate of the system. *)
Lemma char1 : eta * (1 - gphi1) = - gphi1 * CD / gtau1.
Proof.
  assert (H : eta * (1 - gphi1) * gtau1 = - gphi1 * CD).
  { apply Rmult_eq_reg_l with lam; [|lra].
    transitivity (eta * (1 - gphi1) * (lam * gtau1)); [ring|]. rewrite <- tau_phi1.
    unfold gphi1. fold r.
    set (k := C / (2 * eps * eta)).
    assert (Hk : C = k * (2 * eps * eta)) by (unfold k; field; lra).
    assert (E1 : gbs - r <> 0) by (pose proof r_gt_bs; lra).
    (* phi1 satisfies eps phi^2 - ... *)
    assert (Hq : (gbs - r) * (gbs - r) = 2 * gbs * (gbs - r) + 4 * eps * eta * eta / (C * CD)).
    { transitivity (gbs * gbs - 2 * gbs * r + r * r); [ring|]. rewrite r_sq, gdelta_alt. ring. }
    set (x := gbs - r) in *.
    assert (Hb : gbs = (lam + eps * eta) / C - eta / CD) by reflexivity.
    assert (Hx : k * x * (k * x) * (eps * CD) = C * gbs / eta * (k * x) * CD + C).
    { replace (k * x * (k * x)) with (k * k * (x * x)) by ring. rewrite Hq. unfold k. field. lra. }
    rewrite Hb in Hx.
    assert (HP : k * x * (k * x) * (eps * CD * eta) = (lam * CD + eps * eta * CD - eta * C) * (k * x) + C * eta).
    { transitivity (k * x * (k * x) * (eps * CD) * eta); [ring|]. rewrite Hx. field. lra. }
    nra. }
  pose proof gtau1_pos. apply Rmult_eq_reg_r with gtau1; [|lra]. rewrite H. field. lra.
Qed.
Lemma char2 : eta * (1 - gphi2) = - gphi2 * CD / gtau2.
Proof.
  assert (H : eta * (1 - gphi2) * gtau2 = - gphi2 * CD).
  { apply Rmult_eq_reg_l with lam; [|lra].
    transitivity (eta * (1 - gphi2) * (lam * gtau2)); [ring|]. rewrite <- tau_phi2.
    unfold gphi2. fold r.
    set (k := C / (2 * eps * eta)).
    assert (Hq : (gbs + r) * (gbs + r) = 2 * gbs * (gbs + r) + 4 * eps * eta * eta / (C * CD)).
    { transitivity (gbs * gbs + 2 * gbs * r + r * r); [ring|]. rewrite r_sq, gdelta_alt. ring. }
    set (x := gbs + r) in *.
    assert (Hb : gbs = (lam + eps * eta) / C - eta / CD) by reflexivity.
    assert (Hx : k * x * (k * x) * (eps * CD) = C * gbs / eta * (k * x) * CD + C).
    { replace (k * x * (k * x)) with (k * k * (x * x)) by ring. rewrite Hq. unfold k. field. lra. }
    rewrite Hb in Hx.
    assert (HP : k * x * (k * x) * (eps * CD * eta) = (lam * CD + eps * eta * CD - eta * C) * (k * x) + C * eta).
    { transitivity (k * x * (k * x) * (eps * CD) * eta); [ring|]. rewrite Hx. field. lra. }
    nra. }
  pose proof gtau1_pos. pose proof gtau_lt. apply Rmult_eq_reg_r with gtau2; [|lra]. rewrite H. field. lra.
Qed.

Lemma gtau2_pos : 0 < gtau2.
Proof. pose proof gtau1_pos. pose proof gtau_lt. lra. Qed.

(** q1 tau ... in terms of phi *)
Lemma q1_tau : gq1 / gtau1 = gphi2 / (C * (gphi2 - gphi1)).
Proof. unfold gq1. pose proof gtau1_pos. pose proof gphi_diff_pos. field. repeat split; lra. Qed.
Lemma q2_tau : gq2 / gtau2 = - gphi1 / (C * (gphi2 - gphi1)).
Proof. unfold gq2. pose proof gtau2_pos. pose proof gphi_diff_pos. field. repeat split; lra. Qed.
Lemma gq1_pos : 0 < gq1.
Proof.
  unfold gq1. pose proof gtau1_pos. pose proof gphi_diff_pos. pose proof gphi2_pos.
  apply pos_div; apply pos_mul; assumption.
Qed.
Lemma gq2_pos : 0 < gq2.
Proof.
  unfold gq2. pose proof gtau2_pos. pose proof gphi_diff_pos. pose proof gphi1_neg.
  apply pos_div; [|apply pos_mul; assumption]. nra.
Qed.

Lemma ga1_q1 : ga1 = lam * gq1.
Proof. unfold ga1, gq1. pose proof gphi_diff_pos. field. split; lra. Qed.
Lemma ga2_q2 : ga2 = lam * gq2.
Proof. unfold ga2, gq2. pose proof gphi_diff_pos. field. split; lra. Qed.

(** q1 + q2 = 1/lambda0 *)
Lemma q_sum : gq1 + gq2 = / lam.
Proof.
  pose proof gphi_diff_pos.
  apply Rmult_eq_reg_l with (lam * (C * (gphi2 - gphi1))).
  2:{ pose proof (pos_mul _ _ Hlam (pos_mul _ _ HC H)). lra. }
  transitivity (lam * gtau1 * gphi2 - lam * gtau2 * gphi1); [unfold gq1, gq2; field; split; lra|].
  rewrite <- tau_phi1, <- tau_phi2. field. lra.
Qed.
Lemma q_rate : gq1 / gtau1 + gq2 / gtau2 = / C.
Proof. rewrite q1_tau, q2_tau. pose proof gphi_diff_pos. field. split; lra. Qed.
Lemma q_phi_rate : gphi1 * (gq1 / gtau1) + gphi2 * (gq2 / gtau2) = 0.
Proof. rewrite q1_tau, q2_tau. pose proof gphi_diff_pos. field. split; lra. Qed.
(** phi1 q1 + phi2 q2 = 1/lambda0 *)
Lemma q_phi_sum : gphi1 * gq1 + gphi2 * gq2 = / lam.
Proof.
  (* phi_i = (lam tau_i - C)/(eps CD) *)
  pose proof gphi_diff_pos.
  apply Rmult_eq_reg_l with (lam * (C * (gphi2 - gphi1))).
  2:{ pose proof (pos_mul _ _ Hlam (pos_mul _ _ HC H)). lra. }
  transitivity (gphi1 * gphi2 * (lam * gtau1 - lam * gtau2)); [unfold gq1, gq2; field; split; lra|].
  rewrite <- tau_phi1, <- tau_phi2.
  transitivity (- (gphi1 * gphi2) * (eps * CD) * (gphi2 - gphi1)); [ring|].
  rewrite phi_prod. field. repeat split; lra.
Qed.
End Geo.

(** ** The inverse relations *)
Section Inv.
Variables q1 q2 d1 d2 eps : R.
Definition hlam := 1 / (q1 + q2).
Definition hC := d1 * d2 / (q1 * d2 + q2 * d1).
Definition ha1 := hlam * q1.
Definition ha2 := hlam * q2.
Definition hCD := (hlam * (d1 * ha1 + d2 * ha2) - hC) / eps.
Definition heta := hCD / (d1 * ha2 + d2 * ha1).

Hypothesis Hq1 : 0 < q1.
Hypothesis Hq2 : 0 < q2.
Hypothesis Hd1 : 0 < d1.
Hypothesis Hd2 : 0 < d2.
Hypothesis Hd : d1 <> d2.
Hypothesis Heps : 0 < eps.

Lemma hlam_pos : 0 < hlam.
Proof. unfold hlam. apply Rdiv_lt_0_compat; lra. Qed.
Lemma den_pos : 0 < q1 * d2 + q2 * d1.
Proof. pose proof (Rmult_lt_0_compat _ _ Hq1 Hd2). pose proof (Rmult_lt_0_compat _ _ Hq2 Hd1). lra. Qed.
Lemma hC_pos : 0 < hC.
Proof. unfold hC. apply Rdiv_lt_0_compat; [apply Rmult_lt_0_compat; assumption|apply den_pos]. Qed.
Lemma hCD_alt : hCD = q1 * q2 * (d1 - d2) * (d1 - d2) / ((q1 + q2) * (q1 + q2) * (q1 * d2 + q2 * d1) * eps).
Proof. unfold hCD, ha1, ha2, hC, hlam. pose proof den_pos. field. repeat split; lra. Qed.
Lemma hCD_pos : 0 < hCD.
Proof.
  rewrite hCD_alt. pose proof den_pos.
  assert (0 < (d1 - d2) * (d1 - d2)) by (apply Rsqr_pos_lt; lra).
  apply Rdiv_lt_0_compat.
  - rewrite Rmult_assoc. apply Rmult_lt_0_compat; [apply Rmult_lt_0_compat; lra|assumption].
  - repeat apply Rmult_lt_0_compat; lra.
Qed.
Lemma heta_alt : heta = hCD * (q1 + q2) / (q1 * d2 + q2 * d1).
Proof.
  unfold heta, ha1, ha2, hlam. pose proof den_pos. field. repeat split; try lra.
Qed.
Lemma heta_pos : 0 < heta.
Proof.
  rewrite heta_alt. pose proof den_pos. pose proof hCD_pos.
  apply Rdiv_lt_0_compat; [apply Rmult_lt_0_compat|]; lra.
Qed.

Lemma h_gb : gb hC hCD hlam eps heta = 1 / d1 + 1 / d2.
Proof.
  unfold gb. rewrite heta_alt. pose proof hCD_pos as HP. pose proof den_pos as Hden.
  replace (hCD * (q1 + q2) / (q1 * d2 + q2 * d1) / hCD) with ((q1 + q2) / (q1 * d2 + q2 * d1)) by (field; lra).
  rewrite hCD_alt. unfold hlam, hC. field. repeat split; lra.
Qed.
Lemma h_prod : 4 * hlam * heta / (hC * hCD) = 4 / (d1 * d2).
Proof.
  rewrite heta_alt. pose proof hCD_pos as HP. pose proof den_pos as Hden. unfold hlam, hC. field. repeat split; lra.
Qed.
Lemma h_gdelta : gdelta hC hCD hlam eps heta = (1 / d1 - 1 / d2) * (1 / d1 - 1 / d2).
Proof. unfold gdelta. rewrite h_gb, h_prod. field. lra. Qed.
Lemma h_sqrt_lt : d1 < d2 -> sqrt (gdelta hC hCD hlam eps heta) = 1 / d1 - 1 / d2.
Proof.
  intros H. rewrite h_gdelta. apply sqrt_square.
  assert (1 / d2 < 1 / d1); [|lra]. unfold Rdiv. rewrite !Rmult_1_l. apply Rinv_lt_contravar; [|assumption].
  apply Rmult_lt_0_compat; assumption.
Qed.
Lemma h_sqrt_gt : d2 < d1 -> sqrt (gdelta hC hCD hlam eps heta) = 1 / d2 - 1 / d1.
Proof.
  intros H. rewrite h_gdelta.
  replace ((1 / d1 - 1 / d2) * (1 / d1 - 1 / d2)) with ((1 / d2 - 1 / d1) * (1 / d2 - 1 / d1)) by ring.
  apply sqrt_square.
  assert (1 / d1 < 1 / d2); [|lra]. unfold Rdiv. rewrite !Rmult_1_l. apply Rinv_lt_contravar; [|assumption].
  apply Rmult_lt_0_compat; assumption.
Qed.
Lemma h_coeff : hC * hCD / (2 * hlam * heta) = d1 * d2 / 2.
Proof.
  rewrite heta_alt. pose proof hCD_pos as HP. pose proof den_pos as Hden. unfold hlam, hC. field. repeat split; lra.
Qed.
Lemma h_tau1 : d1 < d2 -> gtau1 hC hCD hlam eps heta = d1.
Proof. intros H. unfold gtau1. rewrite h_coeff, h_gb, h_sqrt_lt by assumption. field. lra. Qed.
Lemma h_tau2 : d1 < d2 -> gtau2 hC hCD hlam eps heta = d2.
Proof. intros H. unfold gtau2. rewrite h_coeff, h_gb, h_sqrt_lt by assumption. field. lra. Qed.
Lemma h_tau1_gt : d2 < d1 -> gtau1 hC hCD hlam eps heta = d2.
Proof. intros H. unfold gtau1. rewrite h_coeff, h_gb, h_sqrt_gt by assumption. field. lra. Qed.
Lemma h_tau2_gt : d2 < d1 -> gtau2 hC hCD hlam eps heta = d1.
Proof. intros H. unfold gtau2. rewrite h_coeff, h_gb, h_sqrt_gt by assumption. field. lra. Qed.

Lemma h_q : d1 < d2 -> gq1 hC hCD hlam eps heta = q1 /\ gq2 hC hCD hlam eps heta = q2.
Proof.
  intros H.
  pose proof (q_sum hC hCD hlam eps heta hC_pos hCD_pos hlam_pos Heps heta_pos) as Hs.
  pose proof (q_rate hC hCD hlam eps heta hC_pos hCD_pos hlam_pos Heps heta_pos) as Hr.
  rewrite h_tau1, h_tau2 in Hr by assumption.
  set (x := gq1 hC hCD hlam eps heta) in *. set (y := gq2 hC hCD hlam eps heta) in *.
  assert (Hs' : x + y = q1 + q2) by (rewrite Hs; unfold hlam; field; lra).
  assert (Hr' : x / d1 + y / d2 = q1 / d1 + q2 / d2).
  { rewrite Hr. unfold hC. pose proof den_pos. field. repeat split; lra. }
  assert (Hm : x * d2 + y * d1 = q1 * d2 + q2 * d1).
  { apply Rmult_eq_reg_r with (/ (d1 * d2)).
    2:{ apply Rinv_neq_0_compat. pose proof (Rmult_lt_0_compat _ _ Hd1 Hd2). lra. }
    transitivity (x / d1 + y / d2); [field; lra|]. rewrite Hr'. field. lra. }
  assert (Hx : (x - q1) * (d2 - d1) = 0) by nra.
  apply Rmult_integral in Hx as [Hx|Hx]; lra.
Qed.
End Inv.

(** Recovering the two-layer parameters. *)
Section Back.
Variables C CD lam eps eta : R.
Hypothesis HC : 0 < C.
Hypothesis HCD : 0 < CD.
Hypothesis Hlam : 0 < lam.
Hypothesis Heps : 0 < eps.
Hypothesis Heta : 0 < eta.
Let t1 := gtau1 C CD lam eps eta.
Let t2 := gtau2 C CD lam eps eta.
Let x1 := gq1 C CD lam eps eta.
Let x2 := gq2 C CD lam eps eta.

Lemma back_facts : 0 < t1 /\ 0 < t2 /\ t1 < t2 /\ 0 < x1 /\ 0 < x2 /\ x1 + x2 = / lam /\ x1 / t1 + x2 / t2 = / C.
Proof.
  repeat split; [apply gtau1_pos|apply gtau2_pos|apply gtau_lt|apply gq1_pos|apply gq2_pos|apply q_sum|apply q_rate]; assumption.
Qed.
Lemma back_lam : hlam x1 x2 = lam.
Proof. destruct back_facts as (_ & _ & _ & _ & _ & H & _). unfold hlam. rewrite H. field. lra. Qed.
Lemma back_C : hC x1 x2 t1 t2 = C.
Proof.
  destruct back_facts as (Ht1 & Ht2 & _ & Hx1 & Hx2 & _ & H). unfold hC.
  replace (x1 * t2 + x2 * t1) with (t1 * t2 * (x1 / t1 + x2 / t2)) by (field; lra). rewrite H. field. lra.
Qed.
(** q1 tau1 + q2 tau2 = (C + eps C_D)/lambda0^2 *)
Lemma back_moment : x1 * t1 + x2 * t2 = (C + eps * CD) / (lam * lam).
Proof.
  destruct back_facts as (Ht1 & Ht2 & _ & Hx1 & Hx2 & Hs & H).
  pose proof (q_phi_sum C CD lam eps eta HC HCD Hlam Heps Heta) as Hp. fold x1 x2 in Hp.
  pose proof (tau_phi1 C CD lam eps eta HC HCD Hlam Heps Heta) as T1. fold t1 in T1.
  pose proof (tau_phi2 C CD lam eps eta HC HCD Hlam Heps Heta) as T2. fold t2 in T2.
  set (f1 := gphi1 C CD lam eps eta) in *. set (f2 := gphi2 C CD lam eps eta) in *.
  apply Rmult_eq_reg_l with lam; [|lra].
  transitivity (x1 * (lam * t1) + x2 * (lam * t2)); [ring|]. rewrite <- T1, <- T2.
  transitivity (C * (x1 + x2) + eps * CD * (f1 * x1 + f2 * x2)); [ring|]. rewrite Hs, Hp. field. lra.
Qed.
Lemma back_CD : hCD x1 x2 t1 t2 eps = CD.
Proof.
  unfold hCD. rewrite back_C. unfold ha1, ha2. rewrite back_lam.
  replace (lam * (t1 * (lam * x1) + t2 * (lam * x2))) with (lam * lam * (x1 * t1 + x2 * t2)) by ring.
  rewrite back_moment. field. lra.
Qed.
Lemma back_eta : heta x1 x2 t1 t2 eps = eta.
Proof.
  unfold heta. rewrite back_CD. unfold ha1, ha2. rewrite back_lam.
  destruct back_facts as (Ht1 & Ht2 & _ & Hx1 & Hx2 & Hs & H).
  pose proof (tau_prod C CD lam eps eta HC HCD Hlam Heps Heta) as Hp. fold t1 t2 in Hp.
  replace (t1 * (lam * x2) + t2 * (lam * x1)) with (lam * (t1 * t2) * (x1 / t1 + x2 / t2)) by (field; lra).
  rewrite Hp, H. field. lra.
Qed.
(** a1 tau2 + a2 tau1 = C_D/eta *)
Lemma back_cross : lam * x1 * t2 + lam * x2 * t1 = CD / eta.
Proof.
  destruct back_facts as (Ht1 & Ht2 & _ & Hx1 & Hx2 & Hs & H).
  pose proof (tau_prod C CD lam eps eta HC HCD Hlam Heps Heta) as Hp. fold t1 t2 in Hp.
  replace (lam * x1 * t2 + lam * x2 * t1) with (lam * (t1 * t2) * (x1 / t1 + x2 / t2)) by (field; lra).
  rewrite Hp, H. field. lra.
Qed.
End Back.
