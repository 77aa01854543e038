(** Properties C46-C48: impulse-response runs. *)
From Coq Require Import List String QArith Reals Qreals Bool Arith Lra Lia Psatz.
From Verif Require Import Arith Pint Base TwoLayer Impulse Scm Api Spec Exact SpecReal
  GenTL GenTLHist GenIR GenIRHist GenMeta RealUnits RealTL RealGeo RealConv RealIR RealModels RealEuler RealBox RealTrace FactsRun FactsTL FactsTL2 FactsIR FactsEquiv.
Import ListNotations.
Local Open Scope R_scope.

Lemma dpos q1 q2 d1 d2 : 0 < q1 -> 0 < q2 -> 0 < d1 -> 0 < d2 -> 0 < q1 * d2 + q2 * d1.
Proof. intros. pose proof (pos_mul q1 d2 ltac:(assumption) ltac:(assumption)). pose proof (pos_mul q2 d1 ltac:(assumption) ltac:(assumption)). lra. Qed.

(** The coefficients of the heat uptake, in closed form. *)
Section Coeff.
Variables (q1 q2 d1 d2 eps : R).
Hypothesis Q1 : 0 < q1.
Hypothesis Q2 : 0 < q2.
Hypothesis P1 : 0 < d1.
Hypothesis P2 : d1 < d2.
Hypothesis Pe : 0 < eps.
Let C := hC q1 q2 d1 d2.
Let CD := hCD q1 q2 d1 d2 eps.
Let h := heta q1 q2 d1 d2 eps.
Let l := hlam q1 q2.
Lemma coeffs :
  (eps - 1) * h * (1 - gphi1 C CD l eps h) = (1 - 1 / eps) / (q1 + q2) * ((d2 - d1) * q2 / (q1 * d2 + q2 * d1)) /\
  (eps - 1) * h * (1 - gphi2 C CD l eps h) = - ((1 - 1 / eps) / (q1 + q2) * ((d2 - d1) * q1 / (q1 * d2 + q2 * d1))).
Proof.
  assert (P2' : 0 < d2) by lra. assert (Pn : d1 <> d2) by lra.
  assert (PC : 0 < C) by (apply (hC_pos _ _ _ _ eps); assumption).
  assert (PCD : 0 < CD) by (apply hCD_pos; assumption).
  assert (Ph : 0 < h) by (apply heta_pos; assumption).
  assert (Pl : 0 < l) by (unfold l, hlam; apply pos_div; lra).
  pose proof (char1 C CD l eps h PC PCD Pl Pe Ph) as E1. pose proof (char2 C CD l eps h PC PCD Pl Pe Ph) as E2.
  pose proof (tau_phi1 C CD l eps h PC PCD Pl Pe Ph) as G1. pose proof (tau_phi2 C CD l eps h PC PCD Pl Pe Ph) as G2.
  pose proof (h_tau1 q1 q2 d1 d2 eps Q1 Q2 P1 P2' Pn Pe P2) as T1. pose proof (h_tau2 q1 q2 d1 d2 eps Q1 Q2 P1 P2' Pn Pe P2) as T2.
  fold C CD h l in T1, T2. rewrite T1 in *. rewrite T2 in *.
  set (f1 := gphi1 C CD l eps h) in *. set (f2 := gphi2 C CD l eps h) in *.
  assert (D : 0 < q1 * d2 + q2 * d1) by (apply dpos; assumption).
  assert (F1 : f1 * CD = (l * d1 - C) / eps).
  { apply Rmult_eq_reg_l with eps; [|lra]. replace (eps * ((l * d1 - C) / eps)) with (l * d1 - C) by (field; lra). lra. }
  assert (F2 : f2 * CD = (l * d2 - C) / eps).
  { apply Rmult_eq_reg_l with eps; [|lra]. replace (eps * ((l * d2 - C) / eps)) with (l * d2 - C) by (field; lra). lra. }
  rewrite !Rmult_assoc, E1, E2. unfold Rdiv at 1 5. rewrite <- !Ropp_mult_distr_l, F1, F2. unfold l, C, hlam, hC.
  split; field; lra.
Qed.
End Coeff.

(** The constants of the heat uptake under C29's condition on the units. *)
Lemma heat_closed reg parse s p k m1 m2 :
  ir_reachable (xenv reg) parse s -> ir_values reg s p -> convertible_ir p ->
  usize reg (units (ir_q1 (xenv reg) s)) = usize reg u_CWm2 ->
  usize reg (units (ir_q2 (xenv reg) s)) = usize reg u_CWm2 ->
  heat_const reg s k m1 m2 ->
  k = 1 / (p_q1 p + p_q2 p) /\
  m1 = (1 - 1 / p_ieps p) / (p_q1 p + p_q2 p) * ((p_d2 p - p_d1 p) * p_q2 p / (p_q1 p * p_d2 p + p_q2 p * p_d1 p)) /\
  m2 = - ((1 - 1 / p_ieps p) / (p_q1 p + p_q2 p) * ((p_d2 p - p_d1 p) * p_q1 p / (p_q1 p * p_d2 p + p_q2 p * p_d1 p))).
Proof.
  intros Hr Hv (Q1 & Q2 & P1 & P2 & Pe) U1 U2 HC.
  assert (P2' : 0 < p_d2 p) by lra. assert (D1 : p_d1 p <> 0) by lra. assert (D2 : p_d2 p <> 0) by lra.
  assert (Z1 : p_q1 p + p_q2 p <> 0) by lra.
  assert (DD : 0 < p_q1 p * p_d2 p + p_q2 p * p_d1 p) by (apply dpos; assumption).
  assert (Z2 : p_q1 p * p_d2 p + p_q2 p * p_d1 p <> 0) by lra.
  assert (Z : p_ieps p <> 0) by lra.
  destruct (lam_mag_exists reg s p Hv Z1 Z2 Z) as (x & Hx).
  pose proof (lam_mag_std reg s p Hv Z1 Z2 Z x U1 U2 Hx) as Ex.
  destruct (Req_dec (p_ieps p) 1) as [He|He].
  - pose proof (heat_const_1 reg parse s p Hr Hv D1 D2 Z1 Z2 Z x He Hx) as HC'.
    destruct (heat_const_unique _ _ _ _ _ _ _ _ HC HC') as (-> & -> & ->). subst x.
    rewrite He. split; [reflexivity|]. split; field; auto.
  - assert (Pd : p_d1 p <> p_d2 p) by lra.
    assert (Hst : exists hp, step_status (xenv reg) s = Ok hp).
    { unfold heat_const in HC. destruct (step_status (xenv reg) s); [eauto|contradiction]. }
    pose proof (heat_const_eff reg parse s p Hr Hv D1 D2 Z1 Z2 Z Q1 Q2 P1 P2' Pe Pd He x Hst Hx) as HC'.
    destruct (heat_const_unique _ _ _ _ _ _ _ _ HC HC') as (-> & -> & ->). subst x.
    assert (PY : 0 < year_s reg) by apply year_s_pos.
    assert (PYY : year_s reg * p_d1 p < year_s reg * p_d2 p) by (apply Rmult_lt_compat_l; assumption).
    destruct (coeffs (p_q1 p) (p_q2 p) (year_s reg * p_d1 p) (year_s reg * p_d2 p) (p_ieps p) Q1 Q2 (pos_mul _ _ PY P1) PYY Pe) as (-> & ->).
    assert (DY : p_q1 p * (year_s reg * p_d2 p) + p_q2 p * (year_s reg * p_d1 p) <> 0).
    { replace (p_q1 p * (year_s reg * p_d2 p) + p_q2 p * (year_s reg * p_d1 p)) with
        (year_s reg * (p_q1 p * p_d2 p + p_q2 p * p_d1 p)) by ring. apply Rgt_not_eq, pos_mul; assumption. }
    split; [reflexivity|]. split; field; repeat split; auto; lra.
Qed.

(** ** C48 *)
Theorem c48_heat_uptake_formula : forall reg parse s p e F T1 T2 T N,
  ir_setup reg parse s p e F -> ir_reports reg s e T1 T2 T N -> convertible_ir p ->
  usize reg (units (ir_q1 (xenv reg) s)) = usize reg u_CWm2 ->
  usize reg (units (ir_q2 (xenv reg) s)) = usize reg u_CWm2 ->
  forall i, (S i < npoints e)%nat ->
  N (S i) = F i - (T1 i + T2 i) / (p_q1 p + p_q2 p) -
    (1 - 1 / p_ieps p) * (p_d2 p - p_d1 p) * (p_q2 p * T1 i - p_q1 p * T2 i) /
      ((p_q1 p + p_q2 p) * (p_q1 p * p_d2 p + p_q2 p * p_d1 p)).
Proof.
  intros reg parse s p e F T1 T2 T N HS HR HP U1 U2 i Hi.
  destruct (ir_setup_inv _ _ _ _ _ _ _ _ _ _ HS HR) as (I & k & m1 & m2 & HC & HN).
  rewrite (HN _ Hi). cbn [hn]. destruct (I i ltac:(lia)) as (-> & -> & _).
  destruct HS as (Hr & Hv & _). destruct (HC ltac:(lia)) as (HC1 & _).
  destruct (heat_closed reg parse s p k m1 m2 Hr Hv HP U1 U2 HC1) as (-> & -> & ->).
  destruct HP as (Q1 & Q2 & P1 & P2 & Pe). assert (P2' : 0 < p_d2 p) by lra.
  assert (DD : 0 < p_q1 p * p_d2 p + p_q2 p * p_d1 p) by (apply dpos; assumption).
  field. lra.
Qed.

(** ** C46 *)
Lemma scaled_box k q d dt c m F n : k <> 0 -> c <> 0 -> m <> 0 -> d <> 0 ->
  box_run (m / c * q) (k * d) (k * dt) (fun i => c * F i) n = m * box_run q d dt F n.
Proof.
  intros Hk Hc Hm Hd. induction n as [|n IH]; [cbn; ring|]. rewrite !run_S, IH.
  replace (- (k * dt) / (k * d)) with (- dt / d) by (field; auto). field. auto.
Qed.

Theorem c46_impulse_response_similarity : forall reg parse s s' p e e' F k c m T1 T2 T N T1' T2' T' N',
  0 < k -> 0 < c -> 0 < m -> convertible_ir p ->
  usize reg (units (ir_q1 (xenv reg) s)) = usize reg u_CWm2 ->
  usize reg (units (ir_q2 (xenv reg) s)) = usize reg u_CWm2 ->
  usize reg (units (ir_q1 (xenv reg) s')) = usize reg u_CWm2 ->
  usize reg (units (ir_q2 (xenv reg) s')) = usize reg u_CWm2 ->
  ir_setup reg parse s p e F -> ir_reports reg s e T1 T2 T N ->
  ir_setup reg parse s' (scaled_ir k c m p) e' (fun i => c * F i) -> npoints e' = npoints e ->
  ir_reports reg s' e' T1' T2' T' N' ->
  forall i, (i < npoints e)%nat ->
  T1' i = m * T1 i /\ T2' i = m * T2 i /\ T' i = m * T i /\ N' i = c * N i.
Proof.
  intros reg parse s s' p e e' F k c m T1 T2 T N T1' T2' T' N' Hk Hc Hm HP U1 U2 U1' U2' HS HR HS' Hn HR' i Hi.
  pose proof HP as (Q1 & Q2 & P1 & P2 & Pe).
  assert (HP' : convertible_ir (scaled_ir k c m p)).
  { assert (0 < m / c) by (apply pos_div; assumption). split; [apply pos_mul; assumption|]. split; [apply pos_mul; assumption|].
    split; [apply pos_mul; assumption|]. split; [apply Rmult_lt_compat_l; assumption|assumption]. }
  assert (B : forall j, (j < npoints e)%nat -> T1' j = m * T1 j /\ T2' j = m * T2 j /\ T' j = m * T j).
  { intros j Hj. destruct (ir_setup_inv _ _ _ _ _ _ _ _ _ _ HS HR) as (I & _).
    destruct (ir_setup_inv _ _ _ _ _ _ _ _ _ _ HS' HR') as (I' & _).
    destruct (I j Hj) as (-> & -> & ->). destruct (I' j ltac:(lia)) as (-> & -> & ->).
    unfold bt1, bt2. cbn [scaled_ir p_q1 p_q2 p_d1 p_d2 p_idt]. rewrite !scaled_box by lra. repeat split; ring. }
  destruct (B i Hi) as (B1 & B2 & B3). split; [exact B1|]. split; [exact B2|]. split; [exact B3|].
  destruct i as [|i].
  - destruct (ir_setup_inv _ _ _ _ _ _ _ _ _ _ HS HR) as (_ & ? & ? & ? & _ & I).
    destruct (ir_setup_inv _ _ _ _ _ _ _ _ _ _ HS' HR') as (_ & ? & ? & ? & _ & I').
    rewrite (I _ Hi), (I' 0%nat ltac:(lia)). cbn. ring.
  - rewrite (c48_heat_uptake_formula reg parse _ _ _ _ _ _ _ _ HS HR HP U1 U2 i Hi).
    rewrite (c48_heat_uptake_formula reg parse _ _ _ _ _ _ _ _ HS' HR' HP' U1' U2' i ltac:(lia)).
    destruct (B i ltac:(lia)) as (-> & -> & _).
    cbn [scaled_ir p_q1 p_q2 p_d1 p_d2 p_idt p_ieps].
    assert (DD : 0 < p_q1 p * p_d2 p + p_q2 p * p_d1 p) by (apply dpos; lra).
    field. repeat split; lra || idtac.
    + replace (m * p_q1 p * (k * p_d2 p) + m * p_q2 p * (k * p_d1 p)) with (m * k * (p_q1 p * p_d2 p + p_q2 p * p_d1 p)) by ring.
      apply Rgt_not_eq. apply pos_mul; [apply pos_mul; assumption|assumption].
    + replace (m * p_q1 p + m * p_q2 p) with (m * (p_q1 p + p_q2 p)) by ring. apply Rgt_not_eq, pos_mul; lra.
Qed.

(** ** C47 *)
Lemma box_warm q1 q2 d1 d2 dt F n : 0 < q1 -> 0 < q2 -> 0 < d1 -> d1 < d2 -> 0 < dt ->
  0 <= F 0%nat -> (forall i, (S i < n)%nat -> F i <= F (S i)) ->
  forall i, (i < n)%nat ->
  0 <= box_run q2 d2 dt F i / q2 /\ box_run q2 d2 dt F i / q2 <= box_run q1 d1 dt F i / q1 /\
  box_run q1 d1 dt F i / q1 <= F i /\
  box_run q1 d1 dt F i <= box_run q1 d1 dt F (S i) <= q1 * F i /\
  box_run q2 d2 dt F i <= box_run q2 d2 dt F (S i) <= q2 * F i.
Proof.
  intros Q1 Q2 P1 P2 Pt H0 Up. assert (P2' : 0 < d2) by lra.
  pose proof (k_range d1 dt P1 Pt) as K1. pose proof (k_range d2 dt P2' Pt) as K2.
  assert (K12 : exp (- dt / d1) <= exp (- dt / d2)).
  { left. apply exp_increasing. unfold Rdiv. rewrite <- !Ropp_mult_distr_l. apply Ropp_lt_contravar.
    apply Rmult_lt_compat_l; [assumption|]. apply Rinv_lt_contravar; [apply pos_mul; assumption|assumption]. }
  set (x1 := exp (- dt / d1)) in *. set (x2 := exp (- dt / d2)) in *.
  set (y1 := fun i => box_run q1 d1 dt F i / q1). set (y2 := fun i => box_run q2 d2 dt F i / q2).
  assert (S1 : forall i, y1 (S i) = x1 * y1 i + (1 - x1) * F i) by (intros; unfold y1; rewrite run_S; fold x1; field; lra).
  assert (S2 : forall i, y2 (S i) = x2 * y2 i + (1 - x2) * F i) by (intros; unfold y2; rewrite run_S; fold x2; field; lra).
  assert (I : forall i, (i < n)%nat -> 0 <= y2 i /\ y2 i <= y1 i /\ y1 i <= F i).
  { induction i as [|i IH]; intros Hi; [unfold y1, y2; cbn; unfold Rdiv; rewrite !Rmult_0_l; lra|].
    specialize (IH ltac:(lia)). specialize (Up i Hi). rewrite S1, S2.
    assert (0 <= x2 * y2 i) by (apply Rmult_le_pos; lra). assert (0 <= (1 - x2) * F i) by (apply Rmult_le_pos; lra).
    assert (0 <= x1 * (y1 i - y2 i)) by (apply Rmult_le_pos; lra).
    assert (0 <= (x2 - x1) * (F i - y2 i)) by (apply Rmult_le_pos; lra).
    assert (0 <= x1 * (F i - y1 i)) by (apply Rmult_le_pos; lra). lra. }
  intros i Hi. destruct (I i Hi) as (I1 & I2 & I3). split; [exact I1|]. split; [exact I2|]. split; [exact I3|].
  assert (E1 : forall j, box_run q1 d1 dt F j = q1 * y1 j) by (intros; unfold y1; field; lra).
  assert (E2 : forall j, box_run q2 d2 dt F j = q2 * y2 j) by (intros; unfold y2; field; lra).
  rewrite !E1, !E2, S1, S2.
  assert (0 <= (1 - x1) * (F i - y1 i)) by (apply Rmult_le_pos; lra).
  assert (0 <= x1 * (F i - y1 i)) by (apply Rmult_le_pos; lra).
  assert (0 <= (1 - x2) * (F i - y2 i)) by (apply Rmult_le_pos; lra).
  assert (0 <= x2 * (F i - y2 i)) by (apply Rmult_le_pos; lra).
  repeat split; apply Rmult_le_compat_l; lra.
Qed.

Theorem c47_impulse_response_warming : forall reg parse s p e F T1 T2 T N,
  ir_setup reg parse s p e F -> ir_reports reg s e T1 T2 T N -> convertible_ir p -> 0 < p_idt p ->
  usize reg (units (ir_q1 (xenv reg) s)) = usize reg u_CWm2 ->
  usize reg (units (ir_q2 (xenv reg) s)) = usize reg u_CWm2 ->
  0 <= F 0%nat -> (forall i, (S i < npoints e)%nat -> F i <= F (S i)) ->
  (forall i, (i < npoints e)%nat -> 0 <= T1 i /\ 0 <= T2 i /\ T2 i / p_q2 p <= T1 i / p_q1 p /\ 0 <= N i) /\
  (forall i, (S i < npoints e)%nat ->
    T1 i <= T1 (S i) <= p_q1 p * F i /\ T2 i <= T2 (S i) <= p_q2 p * F i /\ T i <= T (S i) <= (p_q1 p + p_q2 p) * F i).
Proof.
  intros reg parse s p e F T1 T2 T N HS HR HP Pt U1 U2 H0 Up. pose proof HP as (Q1 & Q2 & P1 & P2 & Pe).
  pose proof (box_warm _ _ _ _ _ F (npoints e) Q1 Q2 P1 P2 Pt H0 Up) as W.
  destruct (ir_setup_inv _ _ _ _ _ _ _ _ _ _ HS HR) as (I & ? & ? & ? & _ & IN).
  split; intros i Hi.
  - destruct (W i Hi) as (W1 & W2 & W3 & _). destruct (I i Hi) as (-> & -> & _).
    change (box_run (p_q1 p) (p_d1 p) (p_idt p) F) with (bt1 p F) in *.
    change (box_run (p_q2 p) (p_d2 p) (p_idt p) F) with (bt2 p F) in *.
    assert (A : forall q t, 0 < q -> 0 <= t / q -> 0 <= t).
    { intros q t Hq Ht. replace t with (q * (t / q)) by (field; lra). apply Rmult_le_pos; lra. }
    split; [apply (A (p_q1 p)); lra|]. split; [apply (A (p_q2 p)); lra|]. split; [exact W2|].
    destruct i as [|i]; [rewrite (IN _ Hi); cbn; lra|].
    rewrite (c48_heat_uptake_formula reg parse _ _ _ _ _ _ _ _ HS HR HP U1 U2 i Hi). clear W1 W2 W3.
    destruct (W i ltac:(lia)) as (W1 & W2 & W3 & _). destruct (I i ltac:(lia)) as (-> & -> & _).
    change (box_run (p_q1 p) (p_d1 p) (p_idt p) F) with (bt1 p F) in *.
    change (box_run (p_q2 p) (p_d2 p) (p_idt p) F) with (bt2 p F) in *.
    set (y1 := bt1 p F i / p_q1 p) in *. set (y2 := bt2 p F i / p_q2 p) in *.
    replace (bt1 p F i) with (p_q1 p * y1) by (unfold y1; field; lra).
    replace (bt2 p F i) with (p_q2 p * y2) by (unfold y2; field; lra).
    clearbody y1 y2. assert (P2' : 0 < p_d2 p) by lra. assert (DD := dpos _ _ _ _ Q1 Q2 P1 P2').
    set (B := (p_d2 p - p_d1 p) * p_q1 p * p_q2 p / (p_q1 p * p_d2 p + p_q2 p * p_d1 p)).
    assert (B0 : 0 < B) by (apply pos_div; [repeat apply pos_mul; lra|assumption]).
    assert (B1 : B <= p_q2 p).
    { replace (p_q2 p) with (p_q2 p * (p_q1 p * p_d2 p + p_q2 p * p_d1 p) / (p_q1 p * p_d2 p + p_q2 p * p_d1 p)) at 1 by (field; lra).
      unfold B, Rdiv. apply Rmult_le_compat_r; [left; apply Rinv_0_lt_compat; assumption|].
      pose proof (pos_mul _ _ (pos_mul _ _ Q2 Q2) P1). pose proof (pos_mul _ _ (pos_mul _ _ Q1 Q2) P1). lra. }
    assert (Z : 0 < 1 / p_ieps p) by (apply pos_div; lra).
    match goal with |- 0 <= ?x => replace x with
      ((p_q1 p * (F i - y1) + p_q2 p * (F i - y2) - (1 - 1 / p_ieps p) * (B * (y1 - y2))) / (p_q1 p + p_q2 p))
      by (unfold B; field; lra) end.
    apply div_nonneg; [|lra].
    assert (0 <= p_q1 p * (F i - y1)) by (apply Rmult_le_pos; lra).
    assert (0 <= B * (y1 - y2)) by (apply Rmult_le_pos; lra).
    assert (0 <= 1 / p_ieps p * (B * (y1 - y2))) by (apply Rmult_le_pos; lra).
    assert (B * (y1 - y2) <= p_q2 p * (y1 - y2)) by (apply Rmult_le_compat_r; lra).
    assert (p_q2 p * (y1 - y2) <= p_q2 p * (F i - y2)) by (apply Rmult_le_compat_l; lra). lra.
  - destruct (W i ltac:(lia)) as (_ & _ & _ & W1 & W2).
    destruct (I i ltac:(lia)) as (-> & -> & ->). destruct (I (S i) Hi) as (-> & -> & ->).
    change (box_run (p_q1 p) (p_d1 p) (p_idt p) F) with (bt1 p F) in *.
    change (box_run (p_q2 p) (p_d2 p) (p_idt p) F) with (bt2 p F) in *. lra.
Qed.

(** Runs with any efficacy exist. *)
Lemma ir_run_eff reg parse p F n : convertible_ir p -> p_ieps p <> 1 ->
  exists s e T1 T2 T N, ir_setup reg parse s p e F /\ npoints e = n /\ ir_reports reg s e T1 T2 T N /\
    usize reg (units (ir_q1 (xenv reg) s)) = usize reg u_CWm2 /\
    usize reg (units (ir_q2 (xenv reg) s)) = usize reg u_CWm2.
Proof.
  intros HP He. pose proof HP as (P1 & P2 & P3 & P4 & P5).
  destruct (ir_make reg parse _ _ _ _ _ _ p (is_qty_self reg _ _) (is_qty_self reg _ _) (is_qty_self reg _ _) (is_qty_self reg _ _)
    (is_qty_self reg _ _) (is_qty_self reg _ _) P4) as (s & _ & Hr & Hv & U1 & U2 & U3 & U4 & U5 & _).
  destruct (a_series reg F n) as (e & Hn & HF).
  assert (L : delta_free u_yr).
  { intros x Hx. unfold u_yr. expos. unfold ind. destruct (String.eqb_spec syr x) as [<-|]; [discriminate|]. ring. }
  destruct (status_documented reg parse s p Hr Hv HP He) as (hp & Hst).
  { rewrite U1. apply ueq_refl. }
  { rewrite U2. apply ueq_refl. }
  { rewrite U3. exact L. }
  { rewrite U4. exact L. }
  { rewrite U5. apply ueq_refl. }
  assert (P4' : 0 < p_d2 p) by lra. assert (Z1 : p_q1 p + p_q2 p <> 0) by lra.
  assert (Z2 : p_q1 p * p_d2 p + p_q2 p * p_d1 p <> 0) by (pose proof (dpos _ _ _ _ P1 P2 P3 P4'); lra).
  destruct (lam_mag_exists reg s p Hv Z1 Z2 ltac:(lra)) as (x & Hx).
  pose proof (heat_const_eff reg parse s p Hr Hv ltac:(lra) ltac:(lra) Z1 Z2 ltac:(lra) P1 P2 P3 P4' P5 ltac:(lra) He x
    (ex_intro _ _ Hst) Hx) as HC.
  exists s, e. do 4 eexists. split; [split; auto|]. split; [exact Hn|].
  split; [exact (ir_run_reports reg parse s p e F Hr Hv HF _ _ _ HC)|].
  rewrite U1, U2. split; reflexivity.
Qed.

Definition ex_ir2 : IRP := mkIRPhys (3/10) (4/10) 9 400 (6/5) 1.
Lemma ex_ir2_ok : convertible_ir ex_ir2 /\ p_ieps ex_ir2 <> 1.
Proof. unfold convertible_ir; cbn; lra. Qed.

Example c48_case : forall reg parse, exists s e T1 T2 T N,
  ir_setup reg parse s ex_ir2 e (fun i => INR i) /\ npoints e = 4%nat /\ ir_reports reg s e T1 T2 T N /\
  convertible_ir ex_ir2 /\ usize reg (units (ir_q1 (xenv reg) s)) = usize reg u_CWm2 /\
  usize reg (units (ir_q2 (xenv reg) s)) = usize reg u_CWm2.
Proof.
  intros reg parse. destruct ex_ir2_ok as (A & B).
  destruct (ir_run_eff reg parse ex_ir2 (fun i => INR i) 4 A B) as (s & e & T1 & T2 & T & N & K1 & K2 & K3 & K4 & K5).
  exists s, e, T1, T2, T, N. auto 10.
Qed.
Example c46_impulse_response_case : forall reg parse, exists s e s' e' T1 T2 T N T1' T2' T' N',
  ir_setup reg parse s ex_ir2 e (fun i => INR i) /\ npoints e = 4%nat /\ ir_reports reg s e T1 T2 T N /\
  ir_setup reg parse s' (scaled_ir 2 3 5 ex_ir2) e' (fun i => 3 * INR i) /\ npoints e' = 4%nat /\ ir_reports reg s' e' T1' T2' T' N' /\
  usize reg (units (ir_q1 (xenv reg) s)) = usize reg u_CWm2 /\ usize reg (units (ir_q2 (xenv reg) s)) = usize reg u_CWm2 /\
  usize reg (units (ir_q1 (xenv reg) s')) = usize reg u_CWm2 /\ usize reg (units (ir_q2 (xenv reg) s')) = usize reg u_CWm2 /\
  convertible_ir ex_ir2.
Proof.
  intros reg parse. destruct ex_ir2_ok as (A & B).
  destruct (ir_run_eff reg parse ex_ir2 (fun i => INR i) 4 A B) as (s & e & T1 & T2 & T & N & K1 & K2 & K3 & K4 & K5).
  destruct (ir_run_eff reg parse (scaled_ir 2 3 5 ex_ir2) (fun i => 3 * INR i) 4) as (s' & e' & T1' & T2' & T' & N' & J1 & J2 & J3 & J4 & J5).
  { unfold convertible_ir; cbn; lra. }
  { cbn; lra. }
  exists s, e, s', e', T1, T2, T, N, T1', T2', T', N'. auto 20.
Qed.
Example c47_impulse_response_case : forall reg parse, exists s e T1 T2 T N,
  ir_setup reg parse s ex_ir2 e (fun i => INR i) /\ npoints e = 4%nat /\ ir_reports reg s e T1 T2 T N /\
  convertible_ir ex_ir2 /\ 0 < p_idt ex_ir2 /\ usize reg (units (ir_q1 (xenv reg) s)) = usize reg u_CWm2 /\
  usize reg (units (ir_q2 (xenv reg) s)) = usize reg u_CWm2 /\ 0 <= INR 0 /\ (forall i, INR i <= INR (S i)).
Proof.
  intros reg parse. destruct ex_ir2_ok as (A & B).
  destruct (ir_run_eff reg parse ex_ir2 (fun i => INR i) 4 A B) as (s & e & T1 & T2 & T & N & K1 & K2 & K3 & K4 & K5).
  exists s, e, T1, T2, T, N. do 4 (split; [assumption|]). split; [cbn; lra|]. split; [assumption|]. split; [assumption|].
  split; [cbn; lra|]. intros i. exact (le_INR i (S i) (Nat.le_succ_diag_r i)).
Qed.
