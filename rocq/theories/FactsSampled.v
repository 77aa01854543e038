(** Property C71: runs under a forcing that changes between the points of the driver series. *)
From Coq Require Import List String QArith Reals Qreals Bool Arith Lra Lia Psatz.
From Verif Require Import Arith Pint Base TwoLayer Impulse Scm Api Spec Exact SpecReal SpecRefine SpecSampled
  GenTL GenTLHist GenIR GenIRHist GenMeta RealUnits RealTL RealGeo RealConv RealIR RealTrace RealModels RealEuler RealBox RealEquiv
  FactsRun FactsTL FactsTL2 FactsIR FactsConv FactsEquiv FactsRefine.
From Verif Require FactsPhys.
Import ListNotations.
Local Open Scope R_scope.

Lemma npos_r x y : x <= 0 -> 0 <= y -> x * y <= 0.
Proof. intros A B. assert (0 <= - x * y) by (apply Rmult_le_pos; lra). lra. Qed.
Lemma npos_l x y : 0 <= x -> y <= 0 -> x * y <= 0.
Proof. intros A B. rewrite Rmult_comm. apply npos_r; assumption. Qed.

Lemma div_nn x y : 0 <= x -> 0 < y -> 0 <= x / y.
Proof. intros A B. apply Rmult_le_pos; [exact A|]. left. apply Rinv_0_lt_compat, B. Qed.

Lemma abs_inv x D : Rabs x <= D -> - D <= x <= D.
Proof. intros A. pose proof (Rle_abs x). pose proof (Rle_abs (- x)). rewrite Rabs_Ropp in *. lra. Qed.

(** ** A box under a bounded forcing, over one stretch of time *)
Lemma relax_above (y f : R -> R) d t0 h c : 0 < d -> 0 <= h ->
  (forall t, t0 <= t <= t0 + h -> continuity_pt y t) ->
  (forall t, t0 < t < t0 + h -> derivable_pt_lim y t ((f t - y t) / d)) ->
  (forall t, t0 < t < t0 + h -> f t <= c) -> y (t0 + h) <= c + (y t0 - c) * exp (- h / d).
Proof.
  intros Hd Hh HC HD Hf. destruct Hh as [Hh|<-].
  2:{ rewrite Rplus_0_r. unfold Rdiv. rewrite Ropp_0, Rmult_0_l, exp_0. lra. }
  set (g := fun t => (y t - c) * exp (t / d)).
  assert (HE : forall t, derivable_pt_lim (fun x => exp (x / d)) t (exp (t / d) * (1 / d))).
  { intros t. apply (derivable_pt_lim_comp (fun x => x / d) exp).
    - apply lim_ext with (fun x => / d * id x); [intros; unfold id; field; lra|].
      eapply lim_eq; [apply (derivable_pt_lim_scal id (/ d) t 1), derivable_pt_lim_id|]. field. lra.
    - apply derivable_pt_lim_exp. }
  assert (HG : forall t, t0 < t < t0 + h -> derivable_pt_lim g t ((f t - c) / d * exp (t / d))).
  { intros t Ht. eapply lim_eq.
    - apply (derivable_pt_lim_mult (fun s => y s - c) (fun x => exp (x / d))); [|apply HE].
      apply (derivable_pt_lim_minus y (fun _ => c)); [apply HD, Ht|apply derivable_pt_lim_const].
    - cbn. field. lra. }
  assert (GC : forall t, t0 <= t <= t0 + h -> continuity_pt g t).
  { intros t Ht. apply (continuity_pt_mult (fun s => y s - c) (fun x => exp (x / d))).
    - apply (continuity_pt_minus y (fun _ => c)); [apply HC, Ht|apply continuity_pt_const; now intros a b].
    - apply derivable_continuous_pt. eexists. apply HE. }
  pose (pr1 := fun t (P : t0 < t < t0 + h) => exist (fun l => derivable_pt_abs g t l) _ (HG t P) : derivable_pt g t).
  destruct (MVT g id t0 (t0 + h) pr1 (fun t _ => derivable_pt_id t) ltac:(lra) GC) as (x & P & HX).
  { intros t _. apply derivable_continuous_pt, derivable_pt_id. }
  rewrite derive_pt_id in HX. rewrite (derive_pt_eq_0 g x _ (pr1 x P) (HG x P)) in HX. unfold id in HX.
  assert (K : (f x - c) / d * exp (x / d) <= 0).
  { apply npos_r; [|left; apply exp_pos]. unfold Rdiv. apply npos_r; [specialize (Hf x P); lra|]. left. apply Rinv_0_lt_compat, Hd. }
  assert (L : g (t0 + h) <= g t0).
  { assert ((t0 + h - t0) * ((f x - c) / d * exp (x / d)) <= 0) by (apply npos_l; lra). lra. }
  unfold g in L. replace ((t0 + h) / d) with (t0 / d + h / d) in L by (field; lra). rewrite exp_plus in L.
  pose proof (exp_pos (t0 / d)) as Q0. pose proof (exp_pos (h / d)) as Q1.
  assert (M : (y (t0 + h) - c) * exp (h / d) <= y t0 - c).
  { apply Rmult_le_reg_r with (exp (t0 / d)); [exact Q0|]. lra. }
  replace (- h / d) with (- (h / d)) by (field; lra). rewrite exp_Ropp.
  apply Rmult_le_reg_r with (exp (h / d)); [exact Q1|].
  replace ((c + (y t0 - c) * / exp (h / d)) * exp (h / d)) with (c * exp (h / d) + (y t0 - c)) by (field; lra). lra.
Qed.
Lemma relax_below (y f : R -> R) d t0 h c : 0 < d -> 0 <= h ->
  (forall t, t0 <= t <= t0 + h -> continuity_pt y t) ->
  (forall t, t0 < t < t0 + h -> derivable_pt_lim y t ((f t - y t) / d)) ->
  (forall t, t0 < t < t0 + h -> c <= f t) -> c + (y t0 - c) * exp (- h / d) <= y (t0 + h).
Proof.
  intros Hd Hh HC HD Hf.
  pose proof (relax_above (fun t => - y t) (fun t => - f t) d t0 h (- c) Hd Hh) as K. cbn in K.
  assert (- y (t0 + h) <= - c + (- y t0 - - c) * exp (- h / d)); [|lra]. apply K.
  - intros t Ht. apply (continuity_pt_opp y t), HC, Ht.
  - intros t Ht. eapply lim_eq; [apply (derivable_pt_lim_opp y t), HD, Ht|]. field. lra.
  - intros t Ht. specialize (Hf t Ht). lra.
Qed.
Lemma relax_within (y f : R -> R) d t0 h D : 0 < d -> 0 <= h ->
  (forall t, t0 <= t <= t0 + h -> continuity_pt y t) ->
  (forall t, t0 < t < t0 + h -> derivable_pt_lim y t ((f t - y t) / d)) ->
  (forall t, t0 < t < t0 + h -> Rabs (f t) <= D) -> Rabs (y t0) <= D -> Rabs (y (t0 + h)) <= D.
Proof.
  intros Hd Hh HC HD Hf H0.
  assert (K : 0 < exp (- h / d) <= 1).
  { split; [apply exp_pos|]. rewrite <- exp_0. assert (0 <= h / d) by (apply div_nn; assumption).
    assert (E : - h / d <= 0) by (unfold Rdiv in *; lra). destruct E as [E| ->]; [left; apply exp_increasing, E|lra]. }
  pose proof (relax_above y f d t0 h D Hd Hh HC HD) as A. pose proof (relax_below y f d t0 h (- D) Hd Hh HC HD) as B.
  assert (A1 : y (t0 + h) <= D + (y t0 - D) * exp (- h / d)) by (apply A; intros t Ht; specialize (Hf t Ht); apply abs_inv in Hf; lra).
  assert (B1 : - D + (y t0 - - D) * exp (- h / d) <= y (t0 + h)) by (apply B; intros t Ht; specialize (Hf t Ht); apply abs_inv in Hf; lra).
  apply abs_inv in H0. apply Rabs_le.
  assert ((y t0 - D) * exp (- h / d) <= 0) by (apply npos_r; lra).
  assert (0 <= (y t0 - - D) * exp (- h / d)) by (apply Rmult_le_pos; lra). lra.
Qed.

(** ** The box temperatures of a run *)
Lemma time_S i dt : INR (S i) * dt = INR i * dt + dt.
Proof. rewrite S_INR. ring. Qed.
Lemma time_pos i dt : 0 <= dt -> 0 <= INR i * dt.
Proof. intros. apply Rmult_le_pos; [apply pos_INR|assumption]. Qed.
Lemma box_within q d dt D G F y n : 0 <= q -> 0 < d -> 0 < dt -> box_forced q d G y -> stays_within dt D G F n ->
  0 <= D -> forall i, (i <= n)%nat -> Rabs (box_run q d dt F i - y (INR i * dt)) <= q * D.
Proof.
  intros Hq Hd Ht (Z & C & DD) HW HD i. assert (Q : 0 <= q * D) by (apply Rmult_le_pos; assumption).
  induction i as [|i IH]; intros Hi; [cbn [box_run INR]; rewrite Rmult_0_l, Z, Rminus_0_r, Rabs_R0; exact Q|].
  specialize (IH ltac:(lia)). apply abs_inv in IH. rewrite time_S, run_S.
  pose proof (k_range d dt Hd Ht) as K. pose proof (time_pos i dt ltac:(lra)) as P.
  assert (W : forall t, INR i * dt < t < INR i * dt + dt -> q * F i - q * D <= q * G t <= q * F i + q * D).
  { intros t Hx. specialize (HW i t ltac:(lia)). rewrite time_S in HW. specialize (HW ltac:(lra)). apply abs_inv in HW.
    assert (q * (F i - D) <= q * G t) by (apply Rmult_le_compat_l; lra).
    assert (q * G t <= q * (F i + D)) by (apply Rmult_le_compat_l; lra). lra. }
  assert (A : y (INR i * dt + dt) <= q * F i + q * D + (y (INR i * dt) - (q * F i + q * D)) * exp (- dt / d)).
  { apply (relax_above y (fun t => q * G t)); [exact Hd|lra|intros t Hx; apply C; lra|intros t Hx; apply DD; lra|]. intros t Hx. apply W in Hx. lra. }
  assert (B : q * F i - q * D + (y (INR i * dt) - (q * F i - q * D)) * exp (- dt / d) <= y (INR i * dt + dt)).
  { apply (relax_below y (fun t => q * G t)); [exact Hd|lra|intros t Hx; apply C; lra|intros t Hx; apply DD; lra|]. intros t Hx. apply W in Hx. lra. }
  set (k := exp (- dt / d)) in *. set (b := box_run q d dt F i) in *. apply Rabs_le. 
  assert (k * (b - y (INR i * dt)) <= k * (q * D)) by (apply Rmult_le_compat_l; lra).
  assert (k * - (q * D) <= k * (b - y (INR i * dt))) by (apply Rmult_le_compat_l; lra). lra.
Qed.
Lemma box_lags q d dt G F y : 0 <= q -> 0 < d -> 0 < dt -> box_forced q d G y -> sampled dt G F -> never_falls G ->
  forall i, box_run q d dt F i <= y (INR i * dt).
Proof.
  intros Hq Hd Ht (Z & C & DD) HS HM i.
  induction i as [|i IH]; [cbn [box_run INR]; rewrite Rmult_0_l, Z; lra|]. rewrite time_S, run_S.
  pose proof (k_range d dt Hd Ht) as K. pose proof (time_pos i dt ltac:(lra)) as P.
  assert (B : q * F i + (y (INR i * dt) - q * F i) * exp (- dt / d) <= y (INR i * dt + dt)).
  { apply (relax_below y (fun t => q * G t)); [exact Hd|lra|intros t Hx; apply C; lra|intros t Hx; apply DD; lra|].
    intros t Hx. rewrite HS. apply Rmult_le_compat_l; [exact Hq|]. apply HM; lra. }
  set (k := exp (- dt / d)) in *. assert (k * box_run q d dt F i <= k * y (INR i * dt)) by (apply Rmult_le_compat_l; lra). lra.
Qed.
Lemma slope_within K dt G F n : 0 <= dt -> slope_at_most K G -> sampled dt G F -> stays_within dt (K * dt) G F n.
Proof.
  intros Hd HK HS i t _ Ht. rewrite time_S in Ht. rewrite HS. pose proof (time_pos i dt Hd) as P.
  assert (K0 : 0 <= K). { specialize (HK 0 1 ltac:(lra) ltac:(lra)). pose proof (Rabs_pos (G 1 - G 0)). lra. }
  eapply Rle_trans; [apply HK; [exact P|lra]|]. apply Rmult_le_compat_l; lra.
Qed.
Lemma within_pos dt D G F n : 0 <= dt -> (0 < n)%nat -> stays_within dt D G F n -> 0 <= D.
Proof.
  intros Hd Hn HW. specialize (HW 0%nat 0 Hn). rewrite time_S in HW. cbn in HW.
  eapply Rle_trans; [apply Rabs_pos|apply HW; lra].
Qed.

(** ** The two-layer equations *)
Section Layers.
Variable p : TLP.
Hypothesis HP : convertible_tl p.
Hypothesis Hdt : 0 < p_dt p.
Notation gg f := (f (p_C p) (p_CD p) (p_lambda0 p) (p_eps p) (p_eta p)).
Variables (F : nat -> R) (G T TD : R -> R) (H HD : nat -> R) (D : R) (n : nat).
Hypothesis HG : two_layer_forced p G T TD.
Hypothesis HE : exact_two_layer p F H HD.
Hypothesis HW : stays_within (p_dt p) D G F n.
Hypothesis D0 : 0 <= D.
Notation z1 i := (X1 p (T (INR i * p_dt p)) (TD (INR i * p_dt p)) - X1 p (H i) (HD i)).
Notation z2 i := (X2 p (T (INR i * p_dt p)) (TD (INR i * p_dt p)) - X2 p (H i) (HD i)).
Notation zD i := (TD (INR i * p_dt p) - HD i).

Lemma lim_shift f t0 t l : derivable_pt_lim f (t0 + t) l -> derivable_pt_lim (fun s => f (t0 + s)) t l.
Proof.
  intros HL e He. destruct (HL e He) as (dl & Hdl). exists dl. intros h H1 H2. rewrite <- Rplus_assoc. apply Hdl; assumption.
Qed.
Lemma cont_shift f t0 t : continuity_pt f (t0 + t) -> continuity_pt (fun s => f (t0 + s)) t.
Proof.
  intros HC. apply (continuity_pt_comp (fun s => t0 + s) f); [|exact HC].
  apply (continuity_pt_plus (fun _ => t0) id); [apply continuity_pt_const; now intros a b|].
  apply derivable_continuous_pt, derivable_pt_id.
Qed.

Lemma held_close i : (i <= n)%nat ->
  Rabs (z1 i) <= gg gq1 * D /\ Rabs (z2 i) <= gg gq2 * D /\ Rabs (zD i) <= D / p_lambda0 p.
Proof.
  pose proof (mq1 p HP) as Q1. pose proof (mq2 p HP) as Q2. pose proof (mt1 p HP) as P1. pose proof (mt2 p HP) as P2.
  pose proof (ml p HP) as PL. pose proof (mh p HP) as PH. pose proof (mCD p HP) as PC.
  assert (PM1 : 0 <= gg gq1 * D) by (apply Rmult_le_pos; lra). assert (PM2 : 0 <= gg gq2 * D) by (apply Rmult_le_pos; lra).
  assert (PMD : 0 <= D / p_lambda0 p) by (apply div_nn; lra).
  assert (QS : gg gq1 * D + gg gq2 * D = D / p_lambda0 p).
  { pose proof (q_sum _ _ _ _ _ (mC p HP) (mCD p HP) PL (me p HP) PH) as S. rewrite <- Rmult_plus_distr_r, S. unfold Rdiv. ring. }
  destruct HG as (G0 & GD0 & _). pose proof HE as (E0 & ED0 & EE).
  induction i as [|i IH]; intros Hi.
  { cbn [INR]. rewrite Rmult_0_l, G0, GD0, E0, ED0, !Rminus_diag_eq, Rabs_R0 by reflexivity. auto. }
  destruct (IH ltac:(lia)) as (I1 & I2 & ID). clear IH.
  destruct (EE i) as (y & yD & DY & Y0 & YD0 & Y1 & YD1).
  set (t0 := INR i * p_dt p) in *. assert (Pt : 0 <= t0) by (apply time_pos; lra).
  destruct (layers_to_boxes p HP G T TD HG) as ((_ & C1 & L1) & (_ & C2 & L2)).
  pose proof HG as (_ & _ & CC & LL).
  pose (u1 := fun t => X1 p (T (t0 + t)) (TD (t0 + t)) - X1 p (y t) (yD t)).
  pose (u2 := fun t => X2 p (T (t0 + t)) (TD (t0 + t)) - X2 p (y t) (yD t)).
  pose proof (mdiff p HP) as Hd.
  assert (F1 : forall t, gg gphi2 / (gg gphi2 - gg gphi1) * y t + - / (gg gphi2 - gg gphi1) * yD t = X1 p (y t) (yD t)) by (intros; unfold X1; field; lra).
  assert (F2 : forall t, - gg gphi1 / (gg gphi2 - gg gphi1) * y t + / (gg gphi2 - gg gphi1) * yD t = X2 p (y t) (yD t)) by (intros; unfold X2; field; lra).
  assert (V1 : forall t, 0 <= t <= p_dt p -> derivable_pt_lim (fun t => X1 p (y t) (yD t)) t ((gg gq1 * F i - X1 p (y t) (yD t)) / gg gtau1)).
  { intros t Hx. destruct (DY t Hx) as (A & B). rewrite <- (X1_rate p HP).
    eapply lim_ext; [exact F1|]. eapply lim_eq; [apply lim_lin; eassumption|]. unfold X1. field. lra. }
  assert (V2 : forall t, 0 <= t <= p_dt p -> derivable_pt_lim (fun t => X2 p (y t) (yD t)) t ((gg gq2 * F i - X2 p (y t) (yD t)) / gg gtau2)).
  { intros t Hx. destruct (DY t Hx) as (A & B). rewrite <- (X2_rate p HP).
    eapply lim_ext; [exact F2|]. eapply lim_eq; [apply lim_lin; eassumption|]. unfold X2. field. lra. }
  assert (W : forall t, 0 < t < p_dt p -> Rabs (G (t0 + t) - F i) <= D).
  { intros t Hx. apply HW; [lia|]. rewrite time_S. fold t0. lra. }
  assert (U1 : forall h, 0 <= h <= p_dt p -> Rabs (u1 h) <= gg gq1 * D).
  { intros h Hh. replace h with (0 + h) by ring.
    apply (relax_within u1 (fun t => gg gq1 * (G (t0 + t) - F i)) (gg gtau1)); [exact P1|lra| | | |].
    - intros t Hx. apply (continuity_pt_minus (fun t => X1 p (T (t0 + t)) (TD (t0 + t))) (fun t => X1 p (y t) (yD t))).
      + apply (cont_shift (fun t => X1 p (T t) (TD t))), C1. lra.
      + apply derivable_continuous_pt. eexists. apply V1. lra.
    - intros t Hx. eapply lim_eq.
      + apply (derivable_pt_lim_minus (fun t => X1 p (T (t0 + t)) (TD (t0 + t))) (fun t => X1 p (y t) (yD t)));
          [apply (lim_shift (fun t => X1 p (T t) (TD t))), L1; lra|apply V1; lra].
      + unfold u1. field. lra.
    - intros t Hx. rewrite Rabs_mult, (Rabs_pos_eq (gg gq1)) by lra. apply Rmult_le_compat_l; [lra|]. apply W. lra.
    - unfold u1. rewrite Rplus_0_r, Y0, YD0. exact I1. }
  assert (U2 : forall h, 0 <= h <= p_dt p -> Rabs (u2 h) <= gg gq2 * D).
  { intros h Hh. replace h with (0 + h) by ring.
    apply (relax_within u2 (fun t => gg gq2 * (G (t0 + t) - F i)) (gg gtau2)); [exact P2|lra| | | |].
    - intros t Hx. apply (continuity_pt_minus (fun t => X2 p (T (t0 + t)) (TD (t0 + t))) (fun t => X2 p (y t) (yD t))).
      + apply (cont_shift (fun t => X2 p (T t) (TD t))), C2. lra.
      + apply derivable_continuous_pt. eexists. apply V2. lra.
    - intros t Hx. eapply lim_eq.
      + apply (derivable_pt_lim_minus (fun t => X2 p (T (t0 + t)) (TD (t0 + t))) (fun t => X2 p (y t) (yD t)));
          [apply (lim_shift (fun t => X2 p (T t) (TD t))), L2; lra|apply V2; lra].
      + unfold u2. field. lra.
    - intros t Hx. rewrite Rabs_mult, (Rabs_pos_eq (gg gq2)) by lra. apply Rmult_le_compat_l; [lra|]. apply W. lra.
    - unfold u2. rewrite Rplus_0_r, Y0, YD0. exact I2. }
  assert (UD : Rabs (TD (t0 + p_dt p) - yD (p_dt p)) <= D / p_lambda0 p).
  { replace (p_dt p) with (0 + p_dt p) by ring.
    apply (relax_within (fun t => TD (t0 + t) - yD t) (fun t => T (t0 + t) - y t) (p_CD p / p_eta p)).
    - unfold Rdiv. apply Rmult_lt_0_compat; [exact PC|apply Rinv_0_lt_compat, PH].
    - lra.
    - intros t Hx. apply (continuity_pt_minus (fun t => TD (t0 + t)) yD).
      + apply (cont_shift TD). apply CC. lra.
      + apply derivable_continuous_pt. eexists. apply (DY t). lra.
    - intros t Hx. eapply lim_eq.
      + apply (derivable_pt_lim_minus (fun t => TD (t0 + t)) yD); [apply (lim_shift TD), LL; lra|apply (DY t); lra].
      + unfold dTD_dt. field. lra.
    - intros t Hx. replace (T (t0 + t) - y t) with (u1 t + u2 t).
      2:{ unfold u1, u2. rewrite <- (X_T p HP (T (t0 + t)) (TD (t0 + t))) at 3. rewrite <- (X_T p HP (y t) (yD t)) at 3. ring. }
      rewrite <- QS. eapply Rle_trans; [apply Rabs_triang|]. apply Rplus_le_compat; [apply U1|apply U2]; lra.
    - rewrite Rplus_0_r, YD0. exact ID. }
  rewrite time_S. fold t0. rewrite <- Y1, <- YD1. split; [apply (U1 (p_dt p)); lra|]. split; [apply (U2 (p_dt p)); lra|exact UD].
Qed.
Lemma held_close_layers i : (i <= n)%nat ->
  Rabs (H i - T (INR i * p_dt p)) <= D / p_lambda0 p /\ Rabs (HD i - TD (INR i * p_dt p)) <= D / p_lambda0 p.
Proof.
  intros Hi. destruct (held_close i Hi) as (A & B & C). split; [|rewrite Rabs_minus_sym; exact C].
  pose proof (q_sum _ _ _ _ _ (mC p HP) (mCD p HP) (ml p HP) (me p HP) (mh p HP)) as S.
  replace (D / p_lambda0 p) with (gg gq1 * D + gg gq2 * D) by (rewrite <- Rmult_plus_distr_r, S; unfold Rdiv; ring).
  rewrite Rabs_minus_sym. replace (T (INR i * p_dt p) - H i) with (z1 i + z2 i).
  - eapply Rle_trans; [apply Rabs_triang|]. apply Rplus_le_compat; assumption.
  - rewrite <- (X_T p HP (T (INR i * p_dt p)) (TD (INR i * p_dt p))) at 3. rewrite <- (X_T p HP (H i) (HD i)) at 3. ring.
Qed.
End Layers.

(** ** Solutions exist *)
Section Exist.
Variable f : R -> R.
Hypothesis Cf : forall t, 0 <= t -> continuity_pt f t.
(** [f] with its value at 0 in front, so that it is continuous everywhere. *)
Definition ffront (t : R) : R := f (Rmax 0 t).
Lemma ffront_cont : continuity ffront.
Proof.
  intros t. apply (continuity_pt_comp (Rmax 0) f); [|apply Cf, Rmax_l].
  apply cont_ext with (fun s => / 2 * (s + Rabs s)).
  { intros s. unfold Rmax. destruct (Rle_dec 0 s); [rewrite Rabs_pos_eq by lra; lra|rewrite Rabs_left by lra; lra]. }
  apply (continuity_pt_scal (fun s => s + Rabs s)), (continuity_pt_plus id Rabs); [apply derivable_continuous_pt, derivable_pt_id|apply Rcontinuity_abs].
Qed.
Lemma integral_exists : exists g, g 0 = 0 /\ forall t, 0 <= t -> derivable_pt_lim g t (f t).
Proof.
  pose (I := fun a b (h : a <= b) => continuity_implies_RiemannInt h (fun x _ => ffront_cont x)).
  pose (g := fun t => match Rle_dec (-1) t with left h => RiemannInt (I (-1) t h) | right _ => 0 end).
  assert (HD : forall t, 0 <= t -> derivable_pt_lim g t (f t)).
  { intros t Ht. assert (h : -1 <= t + 1) by lra.
    pose proof (RiemannInt_P28 h (fun x _ => ffront_cont x) (conj (ltac:(lra) : -1 <= t) (ltac:(lra) : t <= t + 1))) as K.
    assert (E : ffront t = f t) by (unfold ffront; rewrite Rmax_right by lra; reflexivity). rewrite E in K.
    intros e He. destruct (K e He) as (dl & Hdl).
    assert (D0 : 0 < Rmin dl 1) by (apply Rmin_glb_lt; [apply cond_pos|lra]).
    exists (mkposreal _ D0). cbn. intros x Hx Hb. specialize (Hdl x Hx).
    assert (B1 : Rabs x < dl) by (eapply Rlt_le_trans; [exact Hb|apply Rmin_l]).
    assert (B2 : Rabs x < 1) by (eapply Rlt_le_trans; [exact Hb|apply Rmin_r]). apply Rabs_def2 in B2.
    specialize (Hdl B1).
    assert (Q : forall y, -1 <= y <= t + 1 -> g y = primitive h (FTC_P1 h (fun x _ => ffront_cont x)) y).
    { intros y Hy. unfold g, primitive. destruct (Rle_dec (-1) y) as [a|a]; [|lra]. destruct (Rle_dec y (t + 1)) as [b|b]; [|lra]. apply RiemannInt_P5. }
    rewrite !Q by lra. exact Hdl. }
  exists (fun t => g t - g 0). split; [ring|]. intros t Ht. eapply lim_eq; [apply (derivable_pt_lim_minus g (fun _ => g 0)); [apply HD, Ht|apply derivable_pt_lim_const]|ring].
Qed.
End Exist.
Lemma box_forced_exists q d G : 0 < d -> (forall t, 0 <= t -> continuity_pt G t) -> exists y, box_forced q d G y.
Proof.
  intros Hd HC.
  assert (HE : forall a t, derivable_pt_lim (fun x => exp (a * x)) t (exp (a * t) * a)).
  { intros a t. apply (derivable_pt_lim_comp (fun x => a * x) exp); [|apply derivable_pt_lim_exp].
    eapply lim_eq; [apply (derivable_pt_lim_scal id a t 1), derivable_pt_lim_id|ring]. }
  destruct (integral_exists (fun t => q / d * G t * exp (/ d * t))) as (g & G0 & GD).
  { intros t Ht. apply (continuity_pt_mult (fun t => q / d * G t) (fun t => exp (/ d * t))).
    - apply (continuity_pt_scal G), HC, Ht.
    - apply derivable_continuous_pt. eexists. apply HE. }
  assert (K : forall t, 0 <= t -> derivable_pt_lim (fun t => g t * exp (- / d * t)) t ((q * G t - g t * exp (- / d * t)) / d)).
  { intros t Ht. eapply lim_eq; [apply (derivable_pt_lim_mult g (fun t => exp (- / d * t))); [apply GD, Ht|apply HE]|].
    cbn. replace (q / d * G t * exp (/ d * t) * exp (- / d * t)) with (q / d * G t * (exp (/ d * t) * exp (- / d * t))) by ring.
    rewrite <- exp_plus. replace (/ d * t + - / d * t) with 0 by ring. rewrite exp_0. field. lra. }
  exists (fun t => g t * exp (- / d * t)). split; [rewrite G0; ring|]. split.
  - intros t Ht. apply derivable_continuous_pt. eexists. apply K, Ht.
  - intros t Ht. apply K. lra.
Qed.

(** ** C71 *)
(** For every continuous forcing the equations of a box and of the two layers have one solution. *)
Theorem c71_exact_solutions : forall q d p G, 0 < d -> convertible_tl p -> (forall t, 0 <= t -> continuity_pt G t) ->
  (exists y, box_forced q d G y /\ forall y', box_forced q d G y' -> forall t, 0 <= t -> y' t = y t) /\
  (exists T TD, two_layer_forced p G T TD /\
    forall T' TD', two_layer_forced p G T' TD' -> forall t, 0 <= t -> T' t = T t /\ TD' t = TD t).
Proof.
  intros q d p G Hd HP HC. split.
  - destruct (box_forced_exists q d G Hd HC) as (y & Hy). exists y. split; [exact Hy|].
    intros y' Hy'. apply (box_forced_unique q d G); [lra|assumption..].
  - pose proof (mt1 p HP) as P1. pose proof (mt2 p HP) as P2.
    set (q1 := gq1 (p_C p) (p_CD p) (p_lambda0 p) (p_eps p) (p_eta p)). set (q2 := gq2 (p_C p) (p_CD p) (p_lambda0 p) (p_eps p) (p_eta p)).
    destruct (box_forced_exists q1 _ G P1 HC) as (y1 & Y1). destruct (box_forced_exists q2 _ G P2 HC) as (y2 & Y2).
    do 2 eexists. split; [exact (boxes_to_layers p HP G y1 y2 Y1 Y2)|]. intros T' TD' HT t Ht.
    destruct (layers_to_boxes p HP G T' TD' HT) as (B1 & B2).
    pose proof (box_forced_unique _ _ _ _ _ (Rgt_not_eq _ _ P1) B1 Y1 t Ht) as E1. pose proof (box_forced_unique _ _ _ _ _ (Rgt_not_eq _ _ P2) B2 Y2 t Ht) as E2.
    cbn in E1, E2. rewrite <- E1, <- E2, (X_T p HP), (X_TD p HP). auto.
Qed.

(** The impulse-response model steps exactly, so the only error of a run is that the forcing is
    held over each step: it is at most sensitivity times the change of the forcing within a step. *)
Theorem c71_impulse_response_error : forall reg parse s p e F T1 T2 T N G Y1 Y2 D,
  ir_setup reg parse s p e F -> ir_reports reg s e T1 T2 T N -> positive_ir p ->
  box_forced (p_q1 p) (p_d1 p) G Y1 -> box_forced (p_q2 p) (p_d2 p) G Y2 ->
  stays_within (p_idt p) D G F (npoints e) ->
  forall i, (i < npoints e)%nat ->
    Rabs (T1 i - Y1 (INR i * p_idt p)) <= p_q1 p * D /\ Rabs (T2 i - Y2 (INR i * p_idt p)) <= p_q2 p * D /\
    Rabs (T i - (Y1 (INR i * p_idt p) + Y2 (INR i * p_idt p))) <= (p_q1 p + p_q2 p) * D.
Proof.
  intros reg parse s p e F T1 T2 T N G Y1 Y2 D HS HR (Q1 & Q2 & D1 & D2 & Ht) H1 H2 HW i Hi.
  pose proof (within_pos _ _ _ _ _ (Rlt_le _ _ Ht) (Nat.le_lt_trans _ _ _ (Nat.le_0_l i) Hi) HW) as D0.
  destruct (ir_setup_inv _ _ _ _ _ _ _ _ _ _ HS HR) as (I & _). destruct (I i Hi) as (-> & -> & ->). unfold bt1, bt2.
  pose proof (box_within (p_q1 p) (p_d1 p) (p_idt p) D G F Y1 _ (Rlt_le _ _ Q1) D1 Ht H1 HW D0 i ltac:(lia)) as A.
  pose proof (box_within (p_q2 p) (p_d2 p) (p_idt p) D G F Y2 _ (Rlt_le _ _ Q2) D2 Ht H2 HW D0 i ltac:(lia)) as B.
  split; [exact A|]. split; [exact B|].
  match goal with |- Rabs (?a + ?b - (?x + ?y)) <= _ => replace (a + b - (x + y)) with ((a - x) + (b - y)) by ring end.
  eapply Rle_trans; [apply Rabs_triang|]. rewrite Rmult_plus_distr_r. apply Rplus_le_compat; assumption.
Qed.
(** Values sampled from a forcing that never falls: the run is never warmer than the exact solution. *)
Theorem c71_impulse_response_lags : forall reg parse s p e F T1 T2 T N G Y1 Y2,
  ir_setup reg parse s p e F -> ir_reports reg s e T1 T2 T N -> positive_ir p ->
  box_forced (p_q1 p) (p_d1 p) G Y1 -> box_forced (p_q2 p) (p_d2 p) G Y2 ->
  sampled (p_idt p) G F -> never_falls G ->
  forall i, (i < npoints e)%nat ->
    T1 i <= Y1 (INR i * p_idt p) /\ T2 i <= Y2 (INR i * p_idt p) /\ T i <= Y1 (INR i * p_idt p) + Y2 (INR i * p_idt p).
Proof.
  intros reg parse s p e F T1 T2 T N G Y1 Y2 HS HR (Q1 & Q2 & D1 & D2 & Ht) H1 H2 HF HM i Hi.
  destruct (ir_setup_inv _ _ _ _ _ _ _ _ _ _ HS HR) as (I & _). destruct (I i Hi) as (-> & -> & ->). unfold bt1, bt2.
  pose proof (box_lags (p_q1 p) (p_d1 p) (p_idt p) G F Y1 (Rlt_le _ _ Q1) D1 Ht H1 HF HM i). pose proof (box_lags (p_q2 p) (p_d2 p) (p_idt p) G F Y2 (Rlt_le _ _ Q2) D2 Ht H2 HF HM i). lra.
Qed.
(** The two-layer model: the error of its own steps (C55) plus the change of the forcing within a step
    over lambda0. *)
Theorem c71_two_layer_error : forall reg parse s p e F M r d1 T TD N G Y YD D,
  tl_setup reg parse s p e F -> tl_reports reg s e T TD N -> positive_tl p ->
  tl_get_impulse_response_parameters (xenv reg) s = Ok r -> is_qty reg (irp_d1 _ r) d1 u_s -> p_dt p <= d1 ->
  (forall i, (i < npoints e)%nat -> Rabs (F i) <= M) ->
  two_layer_forced p G Y YD -> stays_within (p_dt p) D G F (npoints e) ->
  forall i, (i < npoints e)%nat ->
    Rabs (T i - Y (INR i * p_dt p)) <= p_dt p * M / p_C p + D / p_lambda0 p /\
    Rabs (TD i - YD (INR i * p_dt p)) <=
      2 * p_eta p / (p_CD p * sqrt (discriminant p)) * (p_dt p * M / p_C p) + D / p_lambda0 p.
Proof.
  intros reg parse s p e F M r d1 T TD N G Y YD D HS HR Hp Hr Hd1 Hs HM HG HW i Hi.
  pose proof (conv_of_pos p Hp) as HP. assert (Hdt : 0 < p_dt p) by apply Hp.
  pose proof (within_pos _ _ _ _ _ (Rlt_le _ _ Hdt) (Nat.le_lt_trans _ _ _ (Nat.le_0_l i) Hi) HW) as D0.
  destruct (setup_inv _ _ _ _ _ _ _ _ _ HS HR) as (_ & HI). destruct (HI i Hi) as (-> & -> & _).
  pose proof HS as (_ & Hv & _). pose proof HP as (P1 & P2 & P3 & Ha & P5 & P6).
  destruct (t2i_ok reg s p Hv Ha P1 P2 P3 P5 P6) as (r' & Hr' & V1 & _).
  rewrite Hr in Hr'. injection Hr' as <-. rewrite (is_qty_unique reg _ _ _ _ Hd1 V1) in Hs.
  assert (HM0 : 0 <= M) by (eapply Rle_trans; [apply Rabs_pos|apply (HM i Hi)]).
  assert (HFi : forall j, (j < i)%nat -> Rabs (F j) <= M) by (intros j Hj; apply HM; lia).
  pose proof (surface_error p HP Hdt Hs F M i HFi HM0) as A. pose proof (deep_error p HP Hdt Hs F M i HFi HM0) as B.
  destruct (held_close_layers p HP Hdt F G Y YD _ _ D _ HG (exact_exists p HP Hdt F) HW D0 i ltac:(lia)) as (A' & B').
  split.
  - eapply Rle_trans; [|apply Rplus_le_compat; [exact A|exact A']]. eapply Rle_trans; [|apply Rabs_triang]. right. f_equal. ring.
  - eapply Rle_trans; [|apply Rplus_le_compat; [exact B|exact B']]. eapply Rle_trans; [|apply Rabs_triang]. right. f_equal. ring.
Qed.
(** Smaller timesteps: for every tolerance there is a timestep below which the two-layer temperatures
    of all runs, of any length, are within the tolerance of the exact solution at all their points. *)
Theorem c71_two_layer_converges : forall p G K M Y YD eps,
  convertible_tl p -> two_layer_forced p G Y YD -> slope_at_most K G -> (forall t, 0 <= t -> Rabs (G t) <= M) -> 0 < eps ->
  exists h, 0 < h /\ forall reg parse s dt e F T TD N, 0 < dt < h ->
    tl_setup reg parse s (with_step p dt) e F -> tl_reports reg s e T TD N -> sampled dt G F ->
    forall i, (i < npoints e)%nat ->
      Rabs (T i - Y (INR i * dt)) <= eps /\ Rabs (TD i - YD (INR i * dt)) <= eps.
Proof.
  intros p G K M Y YD eps HP HG HK HM He.
  pose proof (mt1 p HP) as P1. pose proof (ml p HP) as PL. pose proof (mC p HP) as PC. pose proof (mCD p HP) as PCD. pose proof (mh p HP) as PH.
  assert (K0 : 0 <= K). { specialize (HK 0 1 ltac:(lra) ltac:(lra)). pose proof (Rabs_pos (G 1 - G 0)). lra. }
  assert (M0 : 0 <= M) by (eapply Rle_trans; [apply Rabs_pos|apply (HM 0); lra]).
  set (c := 2 * p_eta p / (p_CD p * sqrt (discriminant p))).
  assert (Qd : 0 < sqrt (discriminant p)).
  { apply sqrt_lt_R0. rewrite discriminant_ok. apply gdelta_pos; auto using ml, me. }
  assert (C0 : 0 <= c) by (unfold c; apply div_nn; [lra|apply Rmult_lt_0_compat; lra]).
  set (B := (1 + c) * (M / p_C p) + K / p_lambda0 p).
  assert (MC : 0 <= M / p_C p) by (apply div_nn; lra). assert (KL : 0 <= K / p_lambda0 p) by (apply div_nn; lra).
  assert (cM : 0 <= c * (M / p_C p)) by (apply Rmult_le_pos; assumption).
  assert (B0 : 0 <= B) by (unfold B; lra).
  exists (Rmin (gtau1 (p_C p) (p_CD p) (p_lambda0 p) (p_eps p) (p_eta p)) (eps / (B + 1))). split.
  { apply Rmin_glb_lt; [exact P1|]. unfold Rdiv. apply Rmult_lt_0_compat; [exact He|apply Rinv_0_lt_compat; lra]. }
  intros reg parse s dt e F T TD N (Hdt & Hh) HS HR HF i Hi.
  pose proof (Rmin_l (gtau1 (p_C p) (p_CD p) (p_lambda0 p) (p_eps p) (p_eta p)) (eps / (B + 1))) as L1.
  pose proof (Rmin_r (gtau1 (p_C p) (p_CD p) (p_lambda0 p) (p_eps p) (p_eta p)) (eps / (B + 1))) as L2.
  assert (Hp : positive_tl (with_step p dt)) by (destruct HP as (A1 & A2 & A3 & A4 & A5 & A6); repeat split; assumption).
  assert (Le : dt * B <= eps).
  { apply Rle_trans with (dt * (B + 1)); [apply Rmult_le_compat_l; lra|].
    apply Rle_trans with (eps / (B + 1) * (B + 1)); [apply Rmult_le_compat_r; lra|]. right. field. lra. }
  pose proof (conv_of_pos _ Hp) as HP'. pose proof HS as (_ & Hv & _). pose proof HP' as (A1 & A2 & A3 & Ha & A5 & A6).
  destruct (t2i_ok reg s _ Hv Ha A1 A2 A3 A5 A6) as (r & Hr & V1 & _).
  assert (HB : forall j, (j < npoints e)%nat -> Rabs (F j) <= M) by (intros j _; rewrite HF; apply HM, time_pos; lra).
  assert (Ht1 : p_dt (with_step p dt) <= gtau1 (p_C (with_step p dt)) (p_CD (with_step p dt)) (p_lambda0 (with_step p dt)) (p_eps (with_step p dt)) (p_eta (with_step p dt))).
  { change (dt <= gtau1 (p_C p) (p_CD p) (p_lambda0 p) (p_eps p) (p_eta p)). lra. }
  pose proof (slope_within K dt G F (npoints e) (Rlt_le _ _ Hdt) HK HF) as HW.
  destruct (c71_two_layer_error reg parse s (with_step p dt) e F M r _ T TD N G Y YD (K * dt) HS HR Hp Hr V1
    Ht1 HB HG
    HW i Hi) as (X & Z).
  change (Rabs (T i - Y (INR i * dt)) <= dt * M / p_C p + K * dt / p_lambda0 p) in X.
  change (Rabs (TD i - YD (INR i * dt)) <= c * (dt * M / p_C p) + K * dt / p_lambda0 p) in Z.
  assert (E1 : dt * M / p_C p = dt * (M / p_C p)) by (unfold Rdiv; ring).
  assert (E2 : K * dt / p_lambda0 p = dt * (K / p_lambda0 p)) by (unfold Rdiv; ring). rewrite E1, E2 in X, Z.
  assert (dt * B = dt * (M / p_C p) + dt * (c * (M / p_C p)) + dt * (K / p_lambda0 p)) by (unfold B; ring).
  assert (0 <= dt * (M / p_C p)) by (apply Rmult_le_pos; lra). assert (0 <= dt * (c * (M / p_C p))) by (apply Rmult_le_pos; lra).
  replace (c * (dt * (M / p_C p))) with (dt * (c * (M / p_C p))) in Z by ring. split; [lra|].
  idtac. lra.
Qed.
(** The same for the impulse-response model, whose timestep need only be small against the changes of the forcing. *)
Theorem c71_impulse_response_converges : forall reg parse s p e F T1 T2 T N G Y1 Y2 K eps,
  ir_setup reg parse s p e F -> ir_reports reg s e T1 T2 T N -> positive_ir p ->
  box_forced (p_q1 p) (p_d1 p) G Y1 -> box_forced (p_q2 p) (p_d2 p) G Y2 ->
  slope_at_most K G -> sampled (p_idt p) G F -> (p_q1 p + p_q2 p) * (K * p_idt p) <= eps ->
  forall i, (i < npoints e)%nat ->
    Rabs (T1 i - Y1 (INR i * p_idt p)) <= eps /\ Rabs (T2 i - Y2 (INR i * p_idt p)) <= eps /\
    Rabs (T i - (Y1 (INR i * p_idt p) + Y2 (INR i * p_idt p))) <= eps.
Proof.
  intros reg parse s p e F T1 T2 T N G Y1 Y2 K eps HS HR Hp H1 H2 HK HF He i Hi.
  assert (Ht : 0 < p_idt p) by apply Hp. pose proof Hp as (Q1 & Q2 & _).
  assert (K0 : 0 <= K). { specialize (HK 0 1 ltac:(lra) ltac:(lra)). pose proof (Rabs_pos (G 1 - G 0)). lra. }
  assert (KD : 0 <= K * p_idt p) by (apply Rmult_le_pos; lra).
  assert (0 <= p_q1 p * (K * p_idt p)) by (apply Rmult_le_pos; lra). assert (0 <= p_q2 p * (K * p_idt p)) by (apply Rmult_le_pos; lra).
  destruct (c71_impulse_response_error reg parse s p e F T1 T2 T N G Y1 Y2 (K * p_idt p) HS HR Hp H1 H2
    (slope_within K (p_idt p) G F _ (Rlt_le _ _ Ht) HK HF) i Hi) as (A & B & C). lra.
Qed.

(** ** Cases: a forcing that rises by 1/50 W/m^2 a year, sampled once a step *)
Lemma ramp_cont c t : continuity_pt (fun s => c * s) t.
Proof. apply (continuity_pt_scal id), derivable_continuous_pt, derivable_pt_id. Qed.
Lemma ramp_slope c : 0 <= c -> slope_at_most c (fun t => c * t).
Proof. intros Hc s t Hs Ht. rewrite <- Rmult_minus_distr_l, Rabs_mult, !Rabs_pos_eq by lra. lra. Qed.
Lemma ramp_rises c : 0 <= c -> never_falls (fun t => c * t).
Proof. intros Hc s t Hs Ht. apply Rmult_le_compat_l; assumption. Qed.
Example c71_impulse_response_case : forall reg parse, exists s e T1 T2 T N Y1 Y2,
  let G := fun t => / 50 * t in let F := fun i => G (INR i * p_idt ex_ir) in
  ir_setup reg parse s ex_ir e F /\ npoints e = 6%nat /\ ir_reports reg s e T1 T2 T N /\ positive_ir ex_ir /\
  box_forced (p_q1 ex_ir) (p_d1 ex_ir) G Y1 /\ box_forced (p_q2 ex_ir) (p_d2 ex_ir) G Y2 /\
  sampled (p_idt ex_ir) G F /\ never_falls G /\ slope_at_most (/ 50) G /\
  stays_within (p_idt ex_ir) (/ 50 * p_idt ex_ir) G F (npoints e) /\
  (p_q1 ex_ir + p_q2 ex_ir) * (/ 50 * p_idt ex_ir) <= 2 / 100 /\ 0 < T 5%nat.
Proof.
  intros reg parse. set (G := fun t => / 50 * t). set (F := fun i => G (INR i * p_idt ex_ir)).
  destruct (ir_run_exists reg parse ex_ir F 6) as (s & e & N & K1 & K2 & _ & _ & K3 & K4 & K5); [cbn; lra..|].
  destruct (box_forced_exists (p_q1 ex_ir) (p_d1 ex_ir) G ltac:(cbn; lra) (fun t _ => ramp_cont _ t)) as (Y1 & H1).
  destruct (box_forced_exists (p_q2 ex_ir) (p_d2 ex_ir) G ltac:(cbn; lra) (fun t _ => ramp_cont _ t)) as (Y2 & H2).
  exists s, e. do 3 eexists. exists N, Y1, Y2. cbn zeta. fold G. fold F.
  assert (S : sampled (p_idt ex_ir) G F) by (intros i; reflexivity).
  assert (SL : slope_at_most (/ 50) G) by (apply ramp_slope; lra).
  split; [split; [exact K1|split; assumption]|]. split; [exact K3|]. split; [exact K5|].
  split; [unfold positive_ir; cbn; lra|]. split; [exact H1|]. split; [exact H2|]. split; [exact S|].
  split; [apply ramp_rises; lra|]. split; [exact SL|]. split; [apply slope_within; [cbn; lra|exact SL|exact S]|].
  split; [unfold G; cbn; lra|].
  assert (HF : forall i, 0 <= F i) by (intros i; unfold F, G; apply Rmult_le_pos; [lra|apply time_pos; cbn; lra]).
  unfold bt1, bt2. cbn beta.
  pose proof (k_range (p_d1 ex_ir) (p_idt ex_ir) ltac:(cbn; lra) ltac:(cbn; lra)) as KK.
  pose proof (k_range (p_d2 ex_ir) (p_idt ex_ir) ltac:(cbn; lra) ltac:(cbn; lra)) as LL.
  assert (P1 : 0 <= box_run (p_q1 ex_ir) (p_d1 ex_ir) (p_idt ex_ir) F 4).
  { rewrite <- (run_zero (p_q1 ex_ir) (p_d1 ex_ir) (p_idt ex_ir) (fun _ => 0) 4) by auto. apply run_order; [cbn; lra..|intros; apply HF]. }
  assert (P2 : 0 <= box_run (p_q2 ex_ir) (p_d2 ex_ir) (p_idt ex_ir) F 4).
  { rewrite <- (run_zero (p_q2 ex_ir) (p_d2 ex_ir) (p_idt ex_ir) (fun _ => 0) 4) by auto. apply run_order; [cbn; lra..|intros; apply HF]. }
  rewrite !(run_S _ _ _ F 4). assert (F4 : F 4%nat = 8 / 100) by (unfold F, G; cbn; lra). rewrite F4.
  set (k := exp (- p_idt ex_ir / p_d1 ex_ir)) in *. set (l := exp (- p_idt ex_ir / p_d2 ex_ir)) in *.
  set (a := box_run (p_q1 ex_ir) _ _ F 4) in *. set (b := box_run (p_q2 ex_ir) _ _ F 4) in *. cbn [ex_ir p_q1 p_q2 p_ieps].
  assert (0 <= k * a) by (apply Rmult_le_pos; lra). assert (0 <= l * b) by (apply Rmult_le_pos; lra). cbn in *. lra.
Qed.
Example c71_two_layer_case : forall reg parse, exists s e T TD N Y YD r d1,
  let G := fun t => / 50 / 31557600 * t in let F := fun i => G (INR i * p_dt ex_tl) in
  tl_setup reg parse s ex_tl e F /\ npoints e = 6%nat /\ tl_reports reg s e T TD N /\ positive_tl ex_tl /\
  two_layer_forced ex_tl G Y YD /\ sampled (p_dt ex_tl) G F /\ slope_at_most (/ 50 / 31557600) G /\
  stays_within (p_dt ex_tl) (/ 50 / 31557600 * p_dt ex_tl) G F (npoints e) /\
  tl_get_impulse_response_parameters (xenv reg) s = Ok r /\ is_qty reg (irp_d1 _ r) d1 u_s /\ p_dt ex_tl <= d1 /\
  (forall i, (i < npoints e)%nat -> Rabs (F i) <= / 10) /\ 0 < T 2%nat.
Proof.
  intros reg parse. set (G := fun t => / 50 / 31557600 * t). set (F := fun i => G (INR i * p_dt ex_tl)).
  destruct (tl_run_exists reg parse ex_tl F 6) as (s & e & K1 & K2 & K3 & K4 & K5); [cbn; lra..|].
  assert (Hp : positive_tl ex_tl) by (unfold positive_tl; cbn; lra). pose proof (conv_of_pos _ Hp) as HP.
  pose proof HP as (A1 & A2 & A3 & Ha & A5 & A6). destruct (t2i_ok reg s _ K2 Ha A1 A2 A3 A5 A6) as (r & Hr & V1 & _).
  destruct (proj2 (c71_exact_solutions 1 1 ex_tl G ltac:(lra) HP (fun t _ => ramp_cont _ t))) as (Y & YD & HY & _).
  exists s, e. do 3 eexists. exists Y, YD, r. eexists. cbn zeta. fold G. fold F.
  assert (S : sampled (p_dt ex_tl) G F) by (intros i; reflexivity).
  assert (SL : slope_at_most (/ 50 / 31557600) G) by (apply ramp_slope; lra).
  split; [split; [exact K1|split; assumption]|]. split; [exact K3|]. split; [exact K5|]. split; [exact Hp|].
  split; [exact HY|]. split; [exact S|]. split; [exact SL|]. split; [apply slope_within; [cbn; lra|exact SL|exact S]|].
  split; [exact Hr|]. split; [exact V1|]. split.
  { apply FactsPhys.step_le_tau1; unfold p_C, p_CD, water_capacity; cbn; lra. }
  split.
  - rewrite K3. intros i Hi. unfold F, G. do 6 (destruct i as [|i]; [cbn; rewrite Rabs_pos_eq; lra|]). lia.
  - rewrite !eu_S. unfold eu, el, dT_dt, F, G, p_C, p_CD, water_capacity. cbn. unfold dTD_dt. cbn.
    assert (K : 0 < / (1000 * 4181 * 50)) by (apply Rinv_0_lt_compat; lra). unfold Rdiv. set (w := / (1000 * 4181 * 50)) in *. lra.
Qed.
