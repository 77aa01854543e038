(** Property C69: the heat balance of impulse-response runs. *)
From Coq Require Import List String QArith Reals Qreals Bool Arith Lra Lia Psatz.
From Verif Require Import Arith Pint Base TwoLayer Impulse Scm Api Spec Exact SpecReal
  GenTL GenTLHist GenIR GenIRHist GenMeta RealUnits RealTL RealGeo RealConv RealIR RealModels RealEuler RealBox RealTrace
  FactsRun FactsTL FactsTL2 FactsIR FactsConv FactsEquiv FactsIR2 SpecBalance.
Import ListNotations.
Local Open Scope R_scope.

(** ** The stretched timescale *)
Lemma one_minus_exp d dt : 0 < d -> dt <> 0 -> 1 - exp (- dt / d) <> 0.
Proof.
  intros Hd Ht H. assert (E : exp (- dt / d) = exp 0) by (rewrite exp_0; lra). apply exp_inv in E.
  apply Ht. replace dt with (- (- dt / d * d)) by (field; lra). rewrite E. ring.
Qed.
Lemma exp_half x : 0 <= x -> (1 - x / 2) <= (1 + x / 2) * exp (- x).
Proof.
  intros H. destruct (Req_dec x 0) as [->|Hx]; [rewrite Ropp_0, exp_0; lra|]. assert (0 < x) by lra.
  pose (f := fun t => (2 + t) * exp (- t) + t). pose (f' := fun t => exp (- t) - (2 + t) * exp (- t) + 1).
  destruct (MVT_cor2 f f' 0 x) as (c & Hc & C1 & C2); [lra| |].
  - intros c _. unfold f, f'.
    apply (derivable_pt_lim_plus (fun t => (2 + t) * exp (- t)) id); [|apply derivable_pt_lim_id].
    replace (exp (- c) - (2 + c) * exp (- c)) with (1 * exp (- c) + (2 + c) * - exp (- c)) by ring.
    apply (derivable_pt_lim_mult (fun t => 2 + t) (fun t => exp (- t))).
    + replace 1 with (0 + 1) by ring. apply (derivable_pt_lim_plus (fun _ => 2) id); [apply derivable_pt_lim_const|apply derivable_pt_lim_id].
    + replace (- exp (- c)) with (exp (- c) * - (1)) by ring.
      apply (derivable_pt_lim_comp (fun t => - t) exp); [apply derivable_pt_lim_opp, derivable_pt_lim_id|apply derivable_pt_lim_exp].
  - unfold f, f' in Hc. rewrite Ropp_0, exp_0 in Hc.
    assert (K : (1 + c) * exp (- c) <= 1).
    { pose proof (exp_ineq1_le c) as K. pose proof (exp_pos (- c)) as P.
      apply Rle_trans with (exp c * exp (- c)); [apply Rmult_le_compat_r; lra|]. rewrite <- exp_plus, Rplus_opp_r, exp_0. lra. }
    assert (0 <= (exp (- c) - (2 + c) * exp (- c) + 1) * (x - 0)) by (apply Rmult_le_pos; lra). lra.
Qed.
Lemma stretched_bounds d dt : 0 < d -> 0 < dt -> d + dt / 2 <= stretched_timescale dt d <= d + dt.
Proof.
  intros Hd Ht. pose proof (k_range d dt Hd Ht) as (K1 & K2). set (x := dt / d).
  assert (Hx : 0 < x) by (apply pos_div; assumption). assert (E : - dt / d = - x) by (unfold x; field; lra).
  assert (Edt : dt = x * d) by (unfold x; field; lra).
  unfold stretched_timescale. rewrite E in *. set (k := exp (- x)) in *.
  pose proof (exp_half x ltac:(lra)) as H1. fold k in H1.
  assert (H2 : (1 + x) * k <= 1).
  { pose proof (exp_ineq1_le x) as K. apply Rle_trans with (exp x * k); [apply Rmult_le_compat_r; lra|].
    unfold k. rewrite <- exp_plus, Rplus_opp_r, exp_0. lra. }
  rewrite Edt. split.
  - apply Rmult_le_reg_r with (1 - k); [lra|]. replace (x * d / (1 - k) * (1 - k)) with (x * d) by (field; lra). nra.
  - apply Rmult_le_reg_r with (1 - k); [lra|]. replace (x * d / (1 - k) * (1 - k)) with (x * d) by (field; lra). nra.
Qed.

(** ** Adding up the heat uptakes *)
Section Sums.
Context (reg : Registry) (parse : string -> option (Qty (xenv reg))) (s : IR (xenv reg)) (p : IRP) (e : QArr (xenv reg)) (F T1 T2 T N : nat -> R).
Hypothesis HS : ir_setup reg parse s p e F.
Hypothesis HR : ir_reports reg s e T1 T2 T N.
Hypothesis HP : convertible_ir p.
Hypothesis U1 : usize reg (units (ir_q1 (xenv reg) s)) = usize reg u_CWm2.
Hypothesis U2 : usize reg (units (ir_q2 (xenv reg) s)) = usize reg u_CWm2.
Lemma loss_linear x1 x2 y1 y2 c : heat_loss p (x1 + c * y1) (x2 + c * y2) = heat_loss p x1 x2 + c * heat_loss p y1 y2.
Proof.
  destruct HP as (Q1 & Q2 & P1 & P2 & Pe). assert (D : 0 < p_q1 p * p_d2 p + p_q2 p * p_d1 p) by (apply dpos; lra).
  unfold heat_loss. field. lra.
Qed.
Lemma loss_forcing f : heat_loss p (p_q1 p * f) (p_q2 p * f) = f.
Proof.
  destruct HP as (Q1 & Q2 & P1 & P2 & Pe). assert (D : 0 < p_q1 p * p_d2 p + p_q2 p * p_d1 p) by (apply dpos; lra).
  unfold heat_loss. field. lra.
Qed.
Lemma uptake_loss i : (S i < npoints e)%nat -> N (S i) = F i - heat_loss p (T1 i) (T2 i).
Proof. intros Hi. rewrite (c48_heat_uptake_formula reg parse s p e F T1 T2 T N HS HR HP U1 U2 i Hi). unfold heat_loss. ring. Qed.
Lemma boxes i : (S i < npoints e)%nat ->
  T1 (S i) = T1 i + (1 - exp (- p_idt p / p_d1 p)) * (p_q1 p * F i - T1 i) /\
  T2 (S i) = T2 i + (1 - exp (- p_idt p / p_d2 p)) * (p_q2 p * F i - T2 i).
Proof.
  intros Hi. destruct (ir_setup_inv _ _ _ _ _ _ _ _ _ _ HS HR) as (I & _).
  destruct (I i ltac:(lia)) as (-> & -> & _). destruct (I (S i) Hi) as (-> & -> & _).
  unfold bt1, bt2. rewrite !run_S. split; ring.
Qed.
Lemma zeros : (0 < npoints e)%nat -> T1 0%nat = 0 /\ T2 0%nat = 0 /\ N 0%nat = 0.
Proof.
  intros H. destruct (ir_setup_inv _ _ _ _ _ _ _ _ _ _ HS HR) as (I & k & m1 & m2 & _ & J).
  destruct (I 0%nat H) as (-> & -> & _). rewrite (J 0%nat H). auto.
Qed.
Lemma uptake_sum i : p_idt p <> 0 -> (i < npoints e)%nat ->
  p_idt p * total N i = heat_loss p (stretched_timescale (p_idt p) (p_d1 p) * T1 i) (stretched_timescale (p_idt p) (p_d2 p) * T2 i).
Proof.
  intros Ht. pose proof HP as (Q1 & Q2 & P1 & P2 & Pe). pose proof (one_minus_exp (p_d1 p) (p_idt p) P1 Ht) as K1.
  pose proof (one_minus_exp (p_d2 p) (p_idt p) ltac:(lra) Ht) as K2. unfold total.
  induction i as [|i IH]; intros Hi.
  - destruct (zeros Hi) as (Z1 & Z2 & Z3). cbn [sum_f_R0]. rewrite Z1, Z2, Z3, !Rmult_0_r. unfold heat_loss, Rdiv. ring.
  - cbn [sum_f_R0]. rewrite Rmult_plus_distr_l, IH by lia. rewrite (uptake_loss i Hi). destruct (boxes i Hi) as (E1 & E2).
    rewrite E1, E2. clear IH E1 E2. unfold stretched_timescale.
    set (dt := p_idt p) in *. set (k1 := exp (- dt / p_d1 p)) in *. set (k2 := exp (- dt / p_d2 p)) in *.
    replace (dt / (1 - k1) * (T1 i + (1 - k1) * (p_q1 p * F i - T1 i))) with (dt / (1 - k1) * T1 i + dt * (p_q1 p * F i + (- (1)) * T1 i)) by (field; assumption).
    replace (dt / (1 - k2) * (T2 i + (1 - k2) * (p_q2 p * F i - T2 i))) with (dt / (1 - k2) * T2 i + dt * (p_q2 p * F i + (- (1)) * T2 i)) by (field; assumption).
    rewrite !loss_linear, loss_forcing. ring.
Qed.
Lemma loss_signs : 0 < heat_loss p 0 1 /\ (fast_box_loses p -> 0 <= heat_loss p 1 0).
Proof.
  destruct HP as (Q1 & Q2 & P1 & P2 & Pe). assert (D : 0 < p_q1 p * p_d2 p + p_q2 p * p_d1 p) by (apply dpos; lra).
  assert (QQ : 0 < (p_q1 p + p_q2 p) * (p_q1 p * p_d2 p + p_q2 p * p_d1 p)) by (apply pos_mul; lra).
  split.
  - replace (heat_loss p 0 1) with ((p_d1 p * (p_q1 p + p_q2 p) + p_q1 p * (p_d2 p - p_d1 p) / p_ieps p) /
      ((p_q1 p + p_q2 p) * (p_q1 p * p_d2 p + p_q2 p * p_d1 p))) by (unfold heat_loss; field; lra).
    apply pos_div; [|exact QQ]. assert (0 < p_d1 p * (p_q1 p + p_q2 p)) by (apply pos_mul; lra).
    assert (0 < p_q1 p * (p_d2 p - p_d1 p) / p_ieps p) by (apply pos_div; [apply pos_mul|]; lra). lra.
  - intros H. unfold fast_box_loses in H.
    replace (heat_loss p 1 0) with ((p_ieps p * (p_d2 p * (p_q1 p + p_q2 p)) - p_q2 p * (p_d2 p - p_d1 p)) /
      (p_ieps p * ((p_q1 p + p_q2 p) * (p_q1 p * p_d2 p + p_q2 p * p_d1 p)))) by (unfold heat_loss; field; lra).
    unfold Rdiv. apply Rmult_le_pos; [lra|]. left. apply Rinv_0_lt_compat. apply pos_mul; assumption.
Qed.
Lemma loss_split x1 x2 : heat_loss p x1 x2 = x1 * heat_loss p 1 0 + x2 * heat_loss p 0 1.
Proof.
  destruct HP as (Q1 & Q2 & P1 & P2 & Pe). assert (D : 0 < p_q1 p * p_d2 p + p_q2 p * p_d1 p) by (apply dpos; lra).
  unfold heat_loss. field. lra.
Qed.
Lemma stored_heat :
  exists r g du dl phi1 phi2,
    ir_get_two_layer_parameters (xenv reg) s = Ok r /\
    geoffroy (xenv reg) (tlp_du _ r) (tlp_dl _ r) (tlp_lambda0 _ r) (tlp_efficacy _ r) (tlp_eta _ r) = Ok g /\
    is_qty reg (tlp_du _ r) du u_m /\ is_qty reg (tlp_dl _ r) dl u_m /\
    is_qty reg (g_phi1 g) phi1 u_none /\ is_qty reg (g_phi2 g) phi2 u_none /\
    forall x1 x2, water_capacity du * (x1 + x2) + water_capacity dl * (phi1 * x1 + phi2 * x2) =
      year_s reg * heat_loss p (p_d1 p * x1) (p_d2 p * x2).
Proof.
  pose proof HS as (Hr & Hv & HF). pose proof HP as (P1 & P2 & P3 & P4 & P5).
  pose proof (i2t_values reg s p Hv HP) as K. cbn zeta in K. destruct K as (r & Hi2t & A1 & A2 & A3 & A4 & A5).
  assert (Ve : is_qty reg (tlp_efficacy _ r) (p_ieps p) u_none) by (rewrite A5; apply Hv).
  pose proof (year_s_pos reg) as PY.
  assert (D1 : 0 < year_s reg * p_d1 p) by (apply pos_mul; lra). assert (D2 : 0 < year_s reg * p_d2 p) by (apply pos_mul; lra).
  assert (D12 : year_s reg * p_d1 p < year_s reg * p_d2 p) by (apply Rmult_lt_compat_l; lra).
  assert (Dn : year_s reg * p_d1 p <> year_s reg * p_d2 p) by lra.
  pose proof (hlam_pos _ _ _ _ _ P1 P2 D1 D2 Dn P5) as Q1. pose proof (hC_pos _ _ _ _ _ P1 P2 D1 D2 Dn P5) as Q2.
  pose proof (hCD_pos _ _ _ _ _ P1 P2 D1 D2 Dn P5) as Q3. pose proof (heta_pos _ _ _ _ _ P1 P2 D1 D2 Dn P5) as Q4.
  destruct (geoffroy_ok reg _ _ _ _ _ _ _ _ _ _ A2 A3 A1 Ve A4) as (g & Hg & Vg); try assumption; try (apply pos_div; lra).
  destruct Vg as [_ _ _ _ _ _ _ G1 G2 _ _].
  pose proof (tau_phi1 _ _ _ _ _ Q2 Q3 Q1 P5 Q4) as E1. pose proof (tau_phi2 _ _ _ _ _ Q2 Q3 Q1 P5 Q4) as E2.
  rewrite (h_tau1 _ _ _ _ _ P1 P2 D1 D2 Dn P5 D12) in E1. rewrite (h_tau2 _ _ _ _ _ P1 P2 D1 D2 Dn P5 D12) in E2.
  set (C := hC _ _ _ _) in *. set (CD := hCD _ _ _ _ _) in *.
  replace (water_capacity (C / (1000 * 4181))) with C in G1, G2 by (unfold water_capacity; field).
  replace (water_capacity (CD / (1000 * 4181))) with CD in G1, G2 by (unfold water_capacity; field).
  exists r, g. do 4 eexists. split; [exact Hi2t|]. split; [exact Hg|]. do 4 (split; [eassumption|]).
  intros x1 x2.
  replace (water_capacity (C / (1000 * 4181))) with C by (unfold water_capacity; field).
  replace (water_capacity (CD / (1000 * 4181))) with CD by (unfold water_capacity; field).
  set (f1 := gphi1 _ _ _ _ _) in *. set (f2 := gphi2 _ _ _ _ _) in *. set (l := hlam (p_q1 p) (p_q2 p)) in *.
  assert (F1 : f1 * CD = (l * (year_s reg * p_d1 p) - C) / p_ieps p).
  { apply Rmult_eq_reg_l with (p_ieps p); [|lra].
    replace (p_ieps p * ((l * (year_s reg * p_d1 p) - C) / p_ieps p)) with (l * (year_s reg * p_d1 p) - C) by (field; lra). lra. }
  assert (F2 : f2 * CD = (l * (year_s reg * p_d2 p) - C) / p_ieps p).
  { apply Rmult_eq_reg_l with (p_ieps p); [|lra].
    replace (p_ieps p * ((l * (year_s reg * p_d2 p) - C) / p_ieps p)) with (l * (year_s reg * p_d2 p) - C) by (field; lra). lra. }
  transitivity ((C + f1 * CD) * x1 + (C + f2 * CD) * x2); [ring|]. rewrite F1, F2.
  assert (D : 0 < p_q1 p * p_d2 p + p_q2 p * p_d1 p) by (apply dpos; lra).
  assert (EC : C = year_s reg * (p_d1 p * p_d2 p / (p_q1 p * p_d2 p + p_q2 p * p_d1 p))) by (unfold C, hC; field; nra).
  rewrite EC. unfold l, hlam, heat_loss. field. lra.
Qed.
End Sums.

(** What adding up the reported heat uptakes gives: the heat each box loses, over a
    timescale stretched by the step. *)
Theorem c69_uptake_total : forall reg parse s p e F T1 T2 T N,
  ir_setup reg parse s p e F -> ir_reports reg s e T1 T2 T N -> convertible_ir p -> p_idt p <> 0 ->
  usize reg (units (ir_q1 (xenv reg) s)) = usize reg u_CWm2 ->
  usize reg (units (ir_q2 (xenv reg) s)) = usize reg u_CWm2 ->
  (forall i, (S i < npoints e)%nat -> N (S i) = F i - heat_loss p (T1 i) (T2 i)) /\
  forall i, (i < npoints e)%nat ->
  p_idt p * total N i = heat_loss p (stretched_timescale (p_idt p) (p_d1 p) * T1 i) (stretched_timescale (p_idt p) (p_d2 p) * T2 i).
Proof.
  intros reg parse s p e F T1 T2 T N HS HR HP Ht U1 U2. split; intros i Hi.
  - exact (uptake_loss reg parse s p e F T1 T2 T N HS HR HP U1 U2 i Hi).
  - exact (uptake_sum reg parse s p e F T1 T2 T N HS HR HP U1 U2 i Ht Hi).
Qed.

(** The heat stored in the equivalent two-layer model: the same with the timescales themselves. *)
Theorem c69_stored_heat : forall reg parse s p e F,
  ir_setup reg parse s p e F -> convertible_ir p ->
  (exists H, stored_heat_is s H) /\
  forall H, stored_heat_is s H -> forall x1 x2, H x1 x2 = year_s reg * heat_loss p (p_d1 p * x1) (p_d2 p * x2).
Proof.
  intros reg parse s p e F HS HP. destruct (stored_heat reg parse s p e F HS HP) as (r & g & du & dl & f1 & f2 & A1 & A2 & A3 & A4 & A5 & A6 & A7).
  split; [eexists; exists r, g, du, dl, f1, f2; repeat (split; [eassumption|]); intros; reflexivity|].
  intros H (r' & g' & du' & dl' & f1' & f2' & B1 & B2 & B3 & B4 & B5 & B6 & B7) x1 x2.
  rewrite B1 in A1. injection A1 as ->. rewrite B2 in A2. injection A2 as ->.
  rewrite B7, (is_qty_unique reg _ _ _ _ B3 A3), (is_qty_unique reg _ _ _ _ B4 A4), (is_qty_unique reg _ _ _ _ B5 A5), (is_qty_unique reg _ _ _ _ B6 A6).
  apply A7.
Qed.

Lemma gap reg parse s p e F T1 T2 T N :
  ir_setup reg parse s p e F -> ir_reports reg s e T1 T2 T N -> convertible_ir p -> 0 < p_idt p -> fast_box_loses p ->
  usize reg (units (ir_q1 (xenv reg) s)) = usize reg u_CWm2 ->
  usize reg (units (ir_q2 (xenv reg) s)) = usize reg u_CWm2 ->
  forall i, (i < npoints e)%nat ->
    exists c1 c2, p_idt p / 2 <= c1 <= p_idt p /\ p_idt p / 2 <= c2 <= p_idt p /\
    p_idt p * total N i - heat_loss p (p_d1 p * T1 i) (p_d2 p * T2 i) =
      c1 * (T1 i * heat_loss p 1 0) + c2 * (T2 i * heat_loss p 0 1).
Proof.
  intros HS HR HP Ht Hw U1 U2 i Hi. pose proof HP as (Q1 & Q2 & P1 & P2 & Pe).
  rewrite (uptake_sum reg parse s p e F T1 T2 T N HS HR HP U1 U2 i ltac:(lra) Hi).
  rewrite (loss_split p HP (stretched_timescale _ _ * _)), (loss_split p HP (p_d1 p * _)).
  pose proof (stretched_bounds (p_d1 p) (p_idt p) P1 Ht). pose proof (stretched_bounds (p_d2 p) (p_idt p) ltac:(lra) Ht).
  exists (stretched_timescale (p_idt p) (p_d1 p) - p_d1 p), (stretched_timescale (p_idt p) (p_d2 p) - p_d2 p).
  split; [lra|]. split; [lra|]. ring.
Qed.
Lemma exceeds : forall reg parse s p e F T1 T2 T N,
  ir_setup reg parse s p e F -> ir_reports reg s e T1 T2 T N -> convertible_ir p -> 0 < p_idt p -> fast_box_loses p ->
  usize reg (units (ir_q1 (xenv reg) s)) = usize reg u_CWm2 ->
  usize reg (units (ir_q2 (xenv reg) s)) = usize reg u_CWm2 ->
  (forall i, (i < npoints e)%nat -> 0 <= F i) ->
  forall i, (i < npoints e)%nat ->
    p_idt p / 2 * heat_loss p (T1 i) (T2 i) <=
    p_idt p * total N i - heat_loss p (p_d1 p * T1 i) (p_d2 p * T2 i) <=
    p_idt p * heat_loss p (T1 i) (T2 i).
Proof.
  intros reg parse s p e F T1 T2 T N HS HR HP Ht Hw U1 U2 HF i Hi. pose proof HP as (Q1 & Q2 & P1 & P2 & Pe).
  destruct (gap reg parse s p e F T1 T2 T N HS HR HP Ht Hw U1 U2 i Hi) as (c1 & c2 & B1 & B2 & ->).
  rewrite (loss_split p HP (T1 i)). destruct (loss_signs p HP) as (W2 & W1). specialize (W1 Hw).
  destruct (ir_setup_inv _ _ _ _ _ _ _ _ _ _ HS HR) as (I & _). destruct (I i Hi) as (E1 & E2 & _).
  assert (X1 : 0 <= T1 i).
  { rewrite E1, <- (run_zero (p_q1 p) (p_d1 p) (p_idt p) (fun _ => 0) i) by auto. apply run_order; try lra. intros j Hj. apply HF. lia. }
  assert (X2 : 0 <= T2 i).
  { rewrite E2, <- (run_zero (p_q2 p) (p_d2 p) (p_idt p) (fun _ => 0) i) by auto. apply run_order; try lra. intros j Hj. apply HF. lia. }
  assert (Y1 : 0 <= T1 i * heat_loss p 1 0) by (apply Rmult_le_pos; lra).
  assert (Y2 : 0 <= T2 i * heat_loss p 0 1) by (apply Rmult_le_pos; lra).
  split.
  - rewrite Rmult_plus_distr_l. apply Rplus_le_compat; apply Rmult_le_compat_r; lra.
  - rewrite Rmult_plus_distr_l. apply Rplus_le_compat; apply Rmult_le_compat_r; lra.
Qed.

Lemma error_bound : forall reg parse s p e F T1 T2 T N M,
  ir_setup reg parse s p e F -> ir_reports reg s e T1 T2 T N -> convertible_ir p -> 0 < p_idt p -> fast_box_loses p ->
  usize reg (units (ir_q1 (xenv reg) s)) = usize reg u_CWm2 ->
  usize reg (units (ir_q2 (xenv reg) s)) = usize reg u_CWm2 ->
  (forall i, (i < npoints e)%nat -> Rabs (F i) <= M) ->
  forall i, (i < npoints e)%nat ->
    Rabs (p_idt p * total N i - heat_loss p (p_d1 p * T1 i) (p_d2 p * T2 i)) <= p_idt p * M.
Proof.
  intros reg parse s p e F T1 T2 T N M HS HR HP Ht Hw U1 U2 HF i Hi. pose proof HP as (Q1 & Q2 & P1 & P2 & Pe).
  destruct (gap reg parse s p e F T1 T2 T N HS HR HP Ht Hw U1 U2 i Hi) as (c1 & c2 & B1 & B2 & ->).
  destruct (loss_signs p HP) as (W2 & W1). specialize (W1 Hw). pose proof (loss_forcing p HP M) as LM.
  rewrite (loss_split p HP) in LM. set (w1 := heat_loss p 1 0) in *. set (w2 := heat_loss p 0 1) in *.
  assert (HM : 0 <= M) by (eapply Rle_trans; [apply Rabs_pos|apply (HF i Hi)]).
  destruct (ir_setup_inv _ _ _ _ _ _ _ _ _ _ HS HR) as (I & _). destruct (I i Hi) as (E1 & E2 & _).
  assert (X1 : Rabs (T1 i) <= p_q1 p * M) by (rewrite E1; apply run_bound; try lra; intros j Hj; apply HF; lia).
  assert (X2 : Rabs (T2 i) <= p_q2 p * M) by (rewrite E2; apply run_bound; try lra; intros j Hj; apply HF; lia).
  assert (A1 : Rabs (c1 * (T1 i * w1)) <= p_idt p * (p_q1 p * M * w1)).
  { rewrite !Rabs_mult. rewrite (Rabs_pos_eq c1), (Rabs_pos_eq w1) by lra.
    apply Rmult_le_compat; try lra; [apply Rmult_le_pos; [apply Rabs_pos|lra]|apply Rmult_le_compat_r; lra]. }
  assert (A2 : Rabs (c2 * (T2 i * w2)) <= p_idt p * (p_q2 p * M * w2)).
  { rewrite !Rabs_mult. rewrite (Rabs_pos_eq c2), (Rabs_pos_eq w2) by lra.
    apply Rmult_le_compat; try lra; [apply Rmult_le_pos; [apply Rabs_pos|lra]|apply Rmult_le_compat_r; lra]. }
  eapply Rle_trans; [apply Rabs_triang|]. rewrite <- LM. lra.
Qed.

(** Under a forcing that is never negative the uptakes reported by an impulse-response run
    add up to more than is stored: by half a timestep's heat loss at least and one
    timestep's at most. *)
Theorem c69_uptake_exceeds_storage : forall reg parse s p e F T1 T2 T N H,
  ir_setup reg parse s p e F -> ir_reports reg s e T1 T2 T N -> convertible_ir p -> 0 < p_idt p -> fast_box_loses p ->
  usize reg (units (ir_q1 (xenv reg) s)) = usize reg u_CWm2 ->
  usize reg (units (ir_q2 (xenv reg) s)) = usize reg u_CWm2 ->
  (forall i, (i < npoints e)%nat -> 0 <= F i) -> stored_heat_is s H ->
  let dt := year_s reg * p_idt p in
  forall i, (i < npoints e)%nat ->
    dt / 2 * heat_loss p (T1 i) (T2 i) <= dt * total N i - H (T1 i) (T2 i) <= dt * heat_loss p (T1 i) (T2 i).
Proof.
  intros reg parse s p e F T1 T2 T N H HS HR HP Ht Hw U1 U2 HF HH dt i Hi.
  rewrite (proj2 (c69_stored_heat reg parse s p e F HS HP) H HH).
  destruct (exceeds reg parse s p e F T1 T2 T N HS HR HP Ht Hw U1 U2 HF i Hi) as (L1 & L2). pose proof (year_s_pos reg) as PY.
  unfold dt. split; apply Rmult_le_reg_l with (/ year_s reg); try (apply Rinv_0_lt_compat; exact PY).
  - replace (/ year_s reg * (year_s reg * p_idt p / 2 * heat_loss p (T1 i) (T2 i))) with (p_idt p / 2 * heat_loss p (T1 i) (T2 i)) by (field; lra).
    eapply Rle_trans; [exact L1|]. right. field. lra.
  - replace (/ year_s reg * (year_s reg * p_idt p * heat_loss p (T1 i) (T2 i))) with (p_idt p * heat_loss p (T1 i) (T2 i)) by (field; lra).
    eapply Rle_trans; [|exact L2]. right. field. lra.
Qed.

(** Under any forcing bounded by [M] they differ by at most delta_t*M, however long the run:
    the heat balance closes as the timestep gets smaller. *)
Theorem c69_balance_error : forall reg parse s p e F T1 T2 T N H M,
  ir_setup reg parse s p e F -> ir_reports reg s e T1 T2 T N -> convertible_ir p -> 0 < p_idt p -> fast_box_loses p ->
  usize reg (units (ir_q1 (xenv reg) s)) = usize reg u_CWm2 ->
  usize reg (units (ir_q2 (xenv reg) s)) = usize reg u_CWm2 ->
  (forall i, (i < npoints e)%nat -> Rabs (F i) <= M) -> stored_heat_is s H ->
  let dt := year_s reg * p_idt p in
  forall i, (i < npoints e)%nat -> Rabs (dt * total N i - H (T1 i) (T2 i)) <= dt * M.
Proof.
  intros reg parse s p e F T1 T2 T N H M HS HR HP Ht Hw U1 U2 HF HH dt i Hi.
  rewrite (proj2 (c69_stored_heat reg parse s p e F HS HP) H HH).
  pose proof (error_bound reg parse s p e F T1 T2 T N M HS HR HP Ht Hw U1 U2 HF i Hi) as L. pose proof (year_s_pos reg) as PY.
  unfold dt. rewrite !Rmult_assoc, <- Rmult_minus_distr_l, Rabs_mult, (Rabs_pos_eq (year_s reg)) by lra.
  apply Rmult_le_compat_l; lra.
Qed.

(** The condition on the fast box holds whenever the efficacy is one or more. *)
Theorem c69_condition : forall p, convertible_ir p -> 1 <= p_ieps p -> fast_box_loses p.
Proof.
  intros p (Q1 & Q2 & P1 & P2 & Pe) H. unfold fast_box_loses.
  assert (0 < p_d2 p * p_q1 p) by (apply pos_mul; lra). assert (0 < p_q2 p * p_d1 p) by (apply pos_mul; lra).
  assert (K : 0 < p_d2 p * (p_q1 p + p_q2 p)) by (apply pos_mul; lra).
  apply Rle_trans with (1 * (p_d2 p * (p_q1 p + p_q2 p))); [|apply Rmult_le_compat_r; lra]. lra.
Qed.

Example c69_case : forall reg parse, exists s e T1 T2 T N,
  ir_setup reg parse s ex_ir2 e (fun i => INR i) /\ npoints e = 4%nat /\ ir_reports reg s e T1 T2 T N /\
  convertible_ir ex_ir2 /\ 0 < p_idt ex_ir2 /\ fast_box_loses ex_ir2 /\ p_ieps ex_ir2 <> 1 /\
  usize reg (units (ir_q1 (xenv reg) s)) = usize reg u_CWm2 /\ usize reg (units (ir_q2 (xenv reg) s)) = usize reg u_CWm2 /\
  0 < heat_loss ex_ir2 (T1 3%nat) (T2 3%nat).
Proof.
  intros reg parse. destruct ex_ir2_ok as (A & B).
  destruct (ir_run_eff reg parse ex_ir2 (fun i => INR i) 4 A B) as (s & e & T1 & T2 & T & N & K1 & K2 & K3 & K4 & K5).
  exists s, e, T1, T2, T, N. do 4 (split; [assumption|]). split; [cbn; lra|]. split; [apply c69_condition; [exact A|cbn; lra]|].
  do 3 (split; [assumption|]).
  assert (G : 0 < T1 3%nat /\ 0 < T2 3%nat).
  { destruct (ir_setup_inv _ _ _ _ _ _ _ _ _ _ K1 K3) as (I & _). destruct (I 3%nat ltac:(lia)) as (-> & -> & _). unfold bt1, bt2.
    pose proof (k_range (p_d1 ex_ir2) (p_idt ex_ir2) ltac:(cbn; lra) ltac:(cbn; lra)) as K.
    pose proof (k_range (p_d2 ex_ir2) (p_idt ex_ir2) ltac:(cbn; lra) ltac:(cbn; lra)) as L.
    rewrite !run_S. cbn [box_run]. set (k := exp _) in *. set (l := exp (- p_idt ex_ir2 / p_d2 ex_ir2)) in *. cbn in *. split; nra. }
  rewrite (loss_split ex_ir2 A). destruct (loss_signs ex_ir2 A) as (W2 & W1). specialize (W1 (c69_condition ex_ir2 A ltac:(cbn; lra))).
  assert (0 <= T1 3%nat * heat_loss ex_ir2 1 0) by (apply Rmult_le_pos; lra).
  assert (0 < T2 3%nat * heat_loss ex_ir2 0 1) by (apply Rmult_lt_0_compat; lra). lra.
Qed.
