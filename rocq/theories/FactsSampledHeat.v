(** Property C71, continued: heat uptakes, stored heat, and forcings that are merely continuous. *)
From Coq Require Import List String QArith Reals Qreals Bool Arith Lra Lia Psatz.
From Verif Require Import Arith Pint Base TwoLayer Impulse Scm Api Spec Exact SpecReal SpecRefine SpecBalance SpecSampled
  GenTL GenTLHist GenIR GenIRHist GenMeta RealUnits RealTL RealGeo RealConv RealIR RealTrace RealModels RealEuler RealBox RealEquiv
  FactsRun FactsTL FactsTL2 FactsIR FactsIR2 FactsConv FactsEquiv FactsRefine FactsBalance FactsSampled.
From Verif Require FactsPhys.
Import ListNotations.
Local Open Scope R_scope.

Lemma abs_add3 a b c x y z : Rabs a <= x -> Rabs b <= y -> Rabs c <= z -> Rabs (a + b + c) <= x + y + z.
Proof.
  intros. eapply Rle_trans; [apply Rabs_triang|]. apply Rplus_le_compat; [|assumption].
  eapply Rle_trans; [apply Rabs_triang|]. apply Rplus_le_compat; assumption.
Qed.
Lemma abs_scale c a x : Rabs a <= x -> Rabs (c * a) <= Rabs c * x.
Proof. intros. rewrite Rabs_mult. apply Rmult_le_compat_l; [apply Rabs_pos|assumption]. Qed.
Lemma within_here dt D G F n i : 0 <= dt -> stays_within dt D G F n -> (i < n)%nat -> Rabs (G (INR i * dt) - F i) <= D.
Proof. intros Hd HW Hi. apply HW; [exact Hi|]. rewrite time_S. lra. Qed.

(** Wherever the temperatures of a two-layer run are close to the exact ones, so is the reported heat
    uptake to the rate at which heat is stored one timestep before, and the sum of the uptakes
    (times delta_t) to the heat stored. *)
Theorem c71_two_layer_heat : forall reg parse s p e F T TD N G Y YD D b bD,
  tl_setup reg parse s p e F -> tl_reports reg s e T TD N -> positive_tl p ->
  two_layer_forced p G Y YD -> stays_within (p_dt p) D G F (npoints e) ->
  (forall i, (i < npoints e)%nat -> Rabs (T i - Y (INR i * p_dt p)) <= b /\ Rabs (TD i - YD (INR i * p_dt p)) <= bD) ->
  (forall i, (0 < i)%nat -> (S i < npoints e)%nat -> exists rate,
    derivable_pt_lim (layers_heat p Y YD) (INR i * p_dt p) rate /\
    Rabs (N (S i) - rate) <= D + (p_lambda0 p + Rabs (p_eps p - 1) * p_eta p) * b + Rabs (p_eps p - 1) * p_eta p * bD) /\
  (forall i, (i < npoints e)%nat ->
    Rabs (p_dt p * total N i - layers_heat p Y YD (INR i * p_dt p)) <= p_C p * b + p_CD p * bD).
Proof.
  intros reg parse s p e F T TD N G Y YD D b bD HS HR Hp HG HW HT.
  pose proof (conv_of_pos p Hp) as HP. assert (Hdt : 0 < p_dt p) by apply Hp.
  pose proof (ml p HP) as PL. pose proof (mC p HP) as PC. pose proof (mCD p HP) as PCD. pose proof (mh p HP) as PH.
  assert (Ha : p_a p = 0) by apply Hp. split.
  - intros i H0 Hi. set (t := INR i * p_dt p). pose proof HG as (_ & _ & _ & L).
    assert (Pt : 0 < t) by (apply Rmult_lt_0_compat; [apply lt_0_INR; exact H0|exact Hdt]). destruct (L t Pt) as (A & B).
    eexists. split; [apply (lim_lin Y YD (p_C p) (p_CD p) t _ _ A B)|].
    rewrite (proj2 (c11_energy_balance _ _ _ _ _ _ _ _ _ HS HR) i Hi), Ha.
    destruct (HT i ltac:(lia)) as (X & Z). fold t in X, Z.
    pose proof (within_here _ _ _ _ _ i (Rlt_le _ _ Hdt) HW ltac:(lia)) as W. fold t in W.
    unfold dT_dt, dTD_dt. rewrite Ha.
    replace (F i - (p_lambda0 p - 0 * T i) * T i - (p_eps p - 1) * p_eta p * (T i - TD i) -
      (p_C p * ((G t - (p_lambda0 p - 0 * Y t) * Y t - p_eps p * p_eta p * (Y t - YD t)) / p_C p) +
       p_CD p * (p_eta p * (Y t - YD t) / p_CD p)))
      with (- (G t - F i) + - (p_lambda0 p + (p_eps p - 1) * p_eta p) * (T i - Y t) + (p_eps p - 1) * p_eta p * (TD i - YD t))
      by (field; lra).
    apply abs_add3.
    + rewrite Rabs_Ropp. exact W.
    + eapply Rle_trans; [apply abs_scale, X|]. apply Rmult_le_compat_r; [eapply Rle_trans; [apply Rabs_pos|exact X]|].
      rewrite Rabs_Ropp. eapply Rle_trans; [apply Rabs_triang|]. rewrite Rabs_mult, (Rabs_pos_eq (p_lambda0 p)), (Rabs_pos_eq (p_eta p)) by lra. lra.
    + eapply Rle_trans; [apply abs_scale, Z|]. rewrite Rabs_mult, (Rabs_pos_eq (p_eta p)) by lra. lra.
  - intros i Hi. unfold total. rewrite (c12_no_heat_is_lost _ _ _ _ _ _ _ _ _ HS HR i Hi). destruct (HT i Hi) as (X & Z).
    unfold layers_heat. replace (p_C p * T i + p_CD p * TD i - (p_C p * Y (INR i * p_dt p) + p_CD p * YD (INR i * p_dt p)))
      with (p_C p * (T i - Y (INR i * p_dt p)) + p_CD p * (TD i - YD (INR i * p_dt p))) by ring.
    eapply Rle_trans; [apply Rabs_triang|]. rewrite !Rabs_mult, (Rabs_pos_eq (p_C p)), (Rabs_pos_eq (p_CD p)) by lra.
    apply Rplus_le_compat; apply Rmult_le_compat_l; lra.
Qed.

(** The impulse-response model reports, in place of the rate at which heat is stored one
    timestep before, one that is off by at most twice the change of the forcing within a step,
    and its uptakes add up to the heat stored in the layers of the exact solution up to one
    timestep of forcing and d2 times that change. *)
Theorem c71_impulse_response_heat : forall reg parse s p e F T1 T2 T N G Y1 Y2 H D M,
  ir_setup reg parse s p e F -> ir_reports reg s e T1 T2 T N -> convertible_ir p -> 0 < p_idt p -> fast_box_loses p ->
  usize reg (units (ir_q1 (xenv reg) s)) = usize reg u_CWm2 ->
  usize reg (units (ir_q2 (xenv reg) s)) = usize reg u_CWm2 ->
  box_forced (p_q1 p) (p_d1 p) G Y1 -> box_forced (p_q2 p) (p_d2 p) G Y2 -> stored_heat_is s H ->
  stays_within (p_idt p) D G F (npoints e) -> (forall i, (i < npoints e)%nat -> Rabs (F i) <= M) ->
  (forall i, (0 < i)%nat -> (S i < npoints e)%nat -> exists rate,
    derivable_pt_lim (fun t => H (Y1 t) (Y2 t)) (INR i * p_idt p) (year_s reg * rate) /\ Rabs (N (S i) - rate) <= 2 * D) /\
  (forall i, (i < npoints e)%nat ->
    Rabs (year_s reg * p_idt p * total N i - H (Y1 (INR i * p_idt p)) (Y2 (INR i * p_idt p)))
      <= year_s reg * (p_idt p * M + p_d2 p * D)).
Proof.
  intros reg parse s p e F T1 T2 T N G Y1 Y2 H D M HS HR HP Ht Hw U1 U2 H1 H2 HH HW HM.
  pose proof HP as (Q1 & Q2 & P1 & P2 & Pe). assert (Hp : positive_ir p) by (repeat split; lra).
  destruct (loss_signs p HP) as (W2 & W1). specialize (W1 Hw). pose proof (loss_forcing p HP D) as LD.
  rewrite (loss_split p HP) in LD. pose proof (year_s_pos reg) as PY.
  pose proof (proj2 (c69_stored_heat reg parse s p e F HS HP) H HH) as EH.
  pose proof (c71_impulse_response_error reg parse s p e F T1 T2 T N G Y1 Y2 D HS HR Hp H1 H2 HW) as HT.
  set (w1 := heat_loss p 1 0) in *. set (w2 := heat_loss p 0 1) in *. split.
  - intros i H0 Hi. set (t := INR i * p_idt p).
    assert (Pt : 0 < t) by (apply Rmult_lt_0_compat; [apply lt_0_INR; exact H0|exact Ht]).
    exists (G t - heat_loss p (Y1 t) (Y2 t)). split.
    + pose proof H1 as (_ & _ & L1). pose proof H2 as (_ & _ & L2).
      eapply lim_ext; [|eapply lim_eq; [apply (lim_lin Y1 Y2 (year_s reg * p_d1 p * w1) (year_s reg * p_d2 p * w2) t _ _ (L1 t Pt) (L2 t Pt))|]].
      * intros x. rewrite EH, (loss_split p HP). fold w1 w2. ring.
      * rewrite (loss_split p HP). fold w1 w2. pose proof (loss_forcing p HP (G t)) as LG. rewrite (loss_split p HP) in LG. fold w1 w2 in LG.
        rewrite <- LG at 3. field. lra.
    + rewrite (uptake_loss reg parse s p e F T1 T2 T N HS HR HP U1 U2 i Hi), (loss_split p HP (T1 i)), (loss_split p HP (Y1 t)). fold w1 w2.
      destruct (HT i ltac:(lia)) as (X1 & X2 & _). fold t in X1, X2.
      pose proof (within_here _ _ _ _ _ i (Rlt_le _ _ Ht) HW ltac:(lia)) as W. fold t in W.
      replace (F i - (T1 i * w1 + T2 i * w2) - (G t - (Y1 t * w1 + Y2 t * w2)))
        with (- (G t - F i) + - (w1 * (T1 i - Y1 t)) + - (w2 * (T2 i - Y2 t))) by ring.
      eapply Rle_trans; [apply (abs_add3 _ _ _ D (w1 * (p_q1 p * D)) (w2 * (p_q2 p * D)))|].
      * rewrite Rabs_Ropp. exact W.
      * rewrite Rabs_Ropp, Rabs_mult, (Rabs_pos_eq w1) by lra. apply Rmult_le_compat_l; assumption.
      * rewrite Rabs_Ropp, Rabs_mult, (Rabs_pos_eq w2) by lra. apply Rmult_le_compat_l; lra.
      * lra.
  - intros i Hi. set (t := INR i * p_idt p).
    pose proof (c69_balance_error reg parse s p e F T1 T2 T N H M HS HR HP Ht Hw U1 U2 HM HH i Hi) as B. cbv zeta in B.
    destruct (HT i Hi) as (X1 & X2 & _). fold t in X1, X2.
    assert (D0 : 0 <= D) by (eapply Rle_trans; [apply Rabs_pos|apply (within_here _ _ _ _ _ i (Rlt_le _ _ Ht) HW Hi)]).
    assert (C : Rabs (H (T1 i) (T2 i) - H (Y1 t) (Y2 t)) <= year_s reg * (p_d2 p * D)).
    { rewrite !EH, (loss_split p HP (p_d1 p * T1 i)), (loss_split p HP (p_d1 p * Y1 t)). fold w1 w2.
      replace (year_s reg * (p_d1 p * T1 i * w1 + p_d2 p * T2 i * w2) - year_s reg * (p_d1 p * Y1 t * w1 + p_d2 p * Y2 t * w2))
        with (year_s reg * ((p_d1 p * w1) * (T1 i - Y1 t) + (p_d2 p * w2) * (T2 i - Y2 t))) by ring.
      rewrite Rabs_mult, (Rabs_pos_eq (year_s reg)) by lra. apply Rmult_le_compat_l; [lra|].
      assert (A1 : 0 <= p_d1 p * w1) by (apply Rmult_le_pos; lra). assert (A2 : 0 <= p_d2 p * w2) by (apply Rmult_le_pos; lra).
      eapply Rle_trans; [apply Rabs_triang|]. rewrite !Rabs_mult with (x := _ * _), (Rabs_pos_eq _ A1), (Rabs_pos_eq _ A2).
      assert (B1 : p_d1 p * w1 * Rabs (T1 i - Y1 t) <= p_d2 p * (w1 * (p_q1 p * D))).
      { apply Rle_trans with (p_d1 p * w1 * (p_q1 p * D)); [apply Rmult_le_compat_l; assumption|]. rewrite Rmult_assoc.
        apply Rmult_le_compat_r; [|lra]. apply Rmult_le_pos; [lra|apply Rmult_le_pos; lra]. }
      assert (B2 : p_d2 p * w2 * Rabs (T2 i - Y2 t) <= p_d2 p * (w2 * (p_q2 p * D))).
      { rewrite Rmult_assoc. apply Rmult_le_compat_l; [lra|]. apply Rmult_le_compat_l; lra. }
      eapply Rle_trans; [apply Rplus_le_compat; eassumption|]. rewrite <- LD at 3. right. ring. }
    replace (year_s reg * p_idt p * total N i - H (Y1 t) (Y2 t))
      with ((year_s reg * p_idt p * total N i - H (T1 i) (T2 i)) + (H (T1 i) (T2 i) - H (Y1 t) (Y2 t))) by ring.
    eapply Rle_trans; [apply Rabs_triang|]. rewrite Rmult_plus_distr_l, <- Rmult_assoc. apply Rplus_le_compat; assumption.
Qed.

(** ** Convergence *)
Section Converge.
Variable p : TLP.
Hypothesis HP : convertible_tl p.
Notation tau := (gtau1 (p_C p) (p_CD p) (p_lambda0 p) (p_eps p) (p_eta p)).
Definition rough (M D dt : R) : R :=
  dt * ((1 + 2 * p_eta p / (p_CD p * sqrt (discriminant p))) * (M / p_C p)) + D / p_lambda0 p.
Lemma disc_pos : 0 < sqrt (discriminant p).
Proof. apply sqrt_lt_R0. rewrite discriminant_ok. apply gdelta_pos; auto using mC, mCD, ml, me, mh. Qed.
Lemma all_close reg parse s dt e F T TD N G Y YD M D : two_layer_forced p G Y YD -> 0 < dt -> dt <= tau ->
  tl_setup reg parse s (with_step p dt) e F -> tl_reports reg s e T TD N ->
  stays_within dt D G F (npoints e) -> (forall i, (i < npoints e)%nat -> Rabs (F i) <= M) ->
  forall i, (i < npoints e)%nat ->
    Rabs (T i - Y (INR i * dt)) <= rough M D dt /\ Rabs (TD i - YD (INR i * dt)) <= rough M D dt.
Proof.
  intros HG Hdt Hh HS HR HW HM i Hi. pose proof (mC p HP) as PC. pose proof (mCD p HP) as PCD. pose proof (mh p HP) as PH. pose proof disc_pos as Qd.
  assert (Hp : positive_tl (with_step p dt)) by (destruct HP as (A1 & A2 & A3 & A4 & A5 & A6); repeat split; assumption).
  pose proof (conv_of_pos _ Hp) as HP'. pose proof HS as (_ & Hv & _). pose proof HP' as (A1 & A2 & A3 & Ha & A5 & A6).
  destruct (t2i_ok reg s _ Hv Ha A1 A2 A3 A5 A6) as (r & Hr & V1 & _).
  destruct (c71_two_layer_error reg parse s (with_step p dt) e F M r _ T TD N G Y YD D HS HR Hp Hr V1 Hh HM HG HW i Hi) as (X & Z).
  set (c := 2 * p_eta p / (p_CD p * sqrt (discriminant p))) in *.
  change (Rabs (T i - Y (INR i * dt)) <= dt * M / p_C p + D / p_lambda0 p) in X.
  change (Rabs (TD i - YD (INR i * dt)) <= c * (dt * M / p_C p) + D / p_lambda0 p) in Z.
  assert (M0 : 0 <= M) by (eapply Rle_trans; [apply Rabs_pos|apply (HM i Hi)]).
  assert (C0 : 0 <= c) by (unfold c; apply div_nn; [lra|apply Rmult_lt_0_compat; lra]).
  assert (MC : 0 <= dt * M / p_C p) by (apply div_nn; [apply Rmult_le_pos; lra|lra]).
  assert (cM : 0 <= c * (dt * M / p_C p)) by (apply Rmult_le_pos; assumption).
  assert (E : rough M D dt = dt * M / p_C p + c * (dt * M / p_C p) + D / p_lambda0 p) by (unfold rough; fold c; unfold Rdiv; ring).
  rewrite E. lra.
Qed.
(** Everything a run reports, within [eps]. *)
Definition gain : R := 1 + p_lambda0 p + 2 * (Rabs (p_eps p - 1) * p_eta p) + p_C p + p_CD p.
Lemma everything reg parse s dt e F T TD N G Y YD M D eps : two_layer_forced p G Y YD -> 0 < dt -> dt <= tau ->
  tl_setup reg parse s (with_step p dt) e F -> tl_reports reg s e T TD N ->
  stays_within dt D G F (npoints e) -> (forall i, (i < npoints e)%nat -> Rabs (F i) <= M) ->
  D + gain * rough M D dt <= eps ->
  forall i, (i < npoints e)%nat ->
    Rabs (T i - Y (INR i * dt)) <= eps /\ Rabs (TD i - YD (INR i * dt)) <= eps /\
    ((0 < i)%nat -> (S i < npoints e)%nat -> exists rate,
       derivable_pt_lim (layers_heat p Y YD) (INR i * dt) rate /\ Rabs (N (S i) - rate) <= eps) /\
    Rabs (dt * total N i - layers_heat p Y YD (INR i * dt)) <= eps.
Proof.
  intros HG Hdt Hh HS HR HW HM HE i Hi. pose proof (mC p HP) as PC. pose proof (mCD p HP) as PCD. pose proof (mh p HP) as PH. pose proof (ml p HP) as PL.
  pose proof (all_close reg parse s dt e F T TD N G Y YD M D HG Hdt Hh HS HR HW HM) as A.
  assert (Hp : positive_tl (with_step p dt)) by (destruct HP as (A1 & A2 & A3 & A4 & A5 & A6); repeat split; assumption).
  destruct (c71_two_layer_heat reg parse s (with_step p dt) e F T TD N G Y YD D (rough M D dt) (rough M D dt) HS HR Hp HG HW A) as (B & C).
  destruct (A i Hi) as (X & Z).
  assert (R0 : 0 <= rough M D dt) by (eapply Rle_trans; [apply Rabs_pos|exact X]). set (b := rough M D dt) in *.
  assert (D0 : 0 <= D) by (eapply Rle_trans; [apply Rabs_pos|apply (within_here _ _ _ _ _ i (Rlt_le _ _ Hdt) HW Hi)]).
  assert (K : 0 <= Rabs (p_eps p - 1) * p_eta p) by (apply Rmult_le_pos; [apply Rabs_pos|lra]).
  assert (G1 : 0 <= p_lambda0 p * b) by (apply Rmult_le_pos; lra).
  assert (G2 : 0 <= Rabs (p_eps p - 1) * p_eta p * b) by (apply Rmult_le_pos; lra).
  assert (G3 : 0 <= p_C p * b) by (apply Rmult_le_pos; lra). assert (G4 : 0 <= p_CD p * b) by (apply Rmult_le_pos; lra).
  unfold gain in HE. split; [lra|]. split; [lra|]. split.
  - intros H0 Hj. destruct (B i H0 Hj) as (rate & R1 & R2). exists rate. split; [exact R1|].
    eapply Rle_trans; [exact R2|]. cbn [with_step p_lambda0 p_eps p_eta]. lra.
  - eapply Rle_trans; [exact (C i Hi)|]. change (p_C (with_step p dt)) with (p_C p). change (p_CD (with_step p dt)) with (p_CD p). lra.
Qed.
Lemma steps_small M eps : 0 <= M -> 0 < eps -> exists h D, 0 < h /\ 0 < D /\
  forall dt D', 0 < dt < h -> 0 <= D' <= D -> dt <= tau /\ D' + gain * rough M D' dt <= eps.
Proof.
  intros M0 He. pose proof (mC p HP) as PC. pose proof (mCD p HP) as PCD. pose proof (mh p HP) as PH. pose proof (ml p HP) as PL.
  pose proof disc_pos as Qd. pose proof (mt1 p HP) as P1.
  assert (K : 0 <= Rabs (p_eps p - 1) * p_eta p) by (apply Rmult_le_pos; [apply Rabs_pos|lra]).
  assert (G0 : 0 < gain) by (unfold gain; lra).
  set (c := (1 + 2 * p_eta p / (p_CD p * sqrt (discriminant p))) * (M / p_C p)).
  assert (C0 : 0 <= c).
  { unfold c. apply Rmult_le_pos; [|apply div_nn; assumption].
    assert (0 <= 2 * p_eta p / (p_CD p * sqrt (discriminant p))) by (apply div_nn; [lra|apply Rmult_lt_0_compat; lra]). lra. }
  assert (L0 : 0 < / p_lambda0 p) by (apply Rinv_0_lt_compat; lra).
  assert (GL : 0 < gain * / p_lambda0 p) by (apply Rmult_lt_0_compat; assumption).
  assert (GC : 0 <= gain * c) by (apply Rmult_le_pos; lra).
  exists (Rmin tau (eps / 2 / (1 + gain * c))), (eps / 2 / (1 + gain * / p_lambda0 p)).
  split; [apply Rmin_glb_lt; [exact P1|]; apply pos_div; lra|]. split; [apply pos_div; lra|].
  intros dt D' (Hd & Hh) (D0 & D1).
  pose proof (Rmin_l tau (eps / 2 / (1 + gain * c))). pose proof (Rmin_r tau (eps / 2 / (1 + gain * c))). split; [lra|].
  assert (E1 : dt * (1 + gain * c) <= eps / 2).
  { apply Rle_trans with (eps / 2 / (1 + gain * c) * (1 + gain * c)); [apply Rmult_le_compat_r; lra|]. right. field. lra. }
  assert (E2 : D' * (1 + gain * / p_lambda0 p) <= eps / 2).
  { apply Rle_trans with (eps / 2 / (1 + gain * / p_lambda0 p) * (1 + gain * / p_lambda0 p)); [apply Rmult_le_compat_r; lra|]. right. field. split; [lra|]. intro Q. lra. }
  assert (E : gain * rough M D' dt = dt * (gain * c) + D' * (gain * / p_lambda0 p)) by (unfold rough; fold c; unfold Rdiv; ring).
  rewrite E. lra.
Qed.
End Converge.

(** Smaller timesteps: for every tolerance there is a timestep below which temperatures, heat uptakes and
    their sums are within the tolerance of the exact solution, in all runs of any length, at all points. *)
Theorem c71_two_layer_heat_converges : forall p G K M Y YD eps,
  convertible_tl p -> two_layer_forced p G Y YD -> slope_at_most K G -> (forall t, 0 <= t -> Rabs (G t) <= M) -> 0 < eps ->
  exists h, 0 < h /\ forall reg parse s dt e F T TD N, 0 < dt < h ->
    tl_setup reg parse s (with_step p dt) e F -> tl_reports reg s e T TD N -> sampled dt G F ->
    forall i, (i < npoints e)%nat ->
      Rabs (T i - Y (INR i * dt)) <= eps /\ Rabs (TD i - YD (INR i * dt)) <= eps /\
      ((0 < i)%nat -> (S i < npoints e)%nat -> exists rate,
         derivable_pt_lim (layers_heat p Y YD) (INR i * dt) rate /\ Rabs (N (S i) - rate) <= eps) /\
      Rabs (dt * total N i - layers_heat p Y YD (INR i * dt)) <= eps.
Proof.
  intros p G K M Y YD eps HP HG HK HM He.
  assert (K0 : 0 <= K). { specialize (HK 0 1 ltac:(lra) ltac:(lra)). pose proof (Rabs_pos (G 1 - G 0)). lra. }
  assert (M0 : 0 <= M) by (eapply Rle_trans; [apply Rabs_pos|apply (HM 0); lra]).
  destruct (steps_small p HP M eps M0 He) as (h & D & H0 & D0 & HS).
  assert (Q0 : 0 < D / (K + 1)) by (apply pos_div; lra).
  exists (Rmin h (D / (K + 1))). split; [apply Rmin_glb_lt; assumption|].
  intros reg parse s dt e F T TD N (Hdt & Hh) HSt HR HF.
  pose proof (Rmin_l h (D / (K + 1))). pose proof (Rmin_r h (D / (K + 1))).
  assert (KD : 0 <= K * dt) by (apply Rmult_le_pos; lra).
  assert (KS : K * dt <= D).
  { apply Rle_trans with ((K + 1) * (D / (K + 1))); [apply Rmult_le_compat; lra|]. right. field. lra. }
  destruct (HS dt (K * dt) ltac:(lra) ltac:(lra)) as (S1 & S2).
  apply (everything p HP reg parse s dt e F T TD N G Y YD M (K * dt) eps HG Hdt S1 HSt HR (slope_within K dt G F _ (Rlt_le _ _ Hdt) HK HF)); [|exact S2].
  intros i _. rewrite HF. apply HM, time_pos. lra.
Qed.

(** On a bounded stretch of time a forcing need only be continuous. *)
Lemma near_values G tend D : (forall t, 0 <= t -> continuity_pt G t) -> 0 < tend -> 0 < D ->
  exists h, 0 < h /\ forall dt F n, 0 < dt < h -> INR n * dt <= tend -> sampled dt G F -> stays_within dt D G F n.
Proof.
  intros HC Ht HD. destruct (Heine_cor2 (f := G) (a := 0) (b := tend) (fun x Hx => HC x (proj1 Hx)) (mkposreal D HD)) as (h & Hh).
  exists h. split; [apply cond_pos|]. intros dt F n (Hd & Hs) Hn HF i t Hi Hx. rewrite time_S in Hx.
  pose proof (time_pos i dt (Rlt_le _ _ Hd)) as P.
  assert (L : INR (S i) * dt <= INR n * dt) by (apply Rmult_le_compat_r; [lra|apply le_INR; lia]). rewrite time_S in L.
  rewrite HF. left. apply Hh; [lra|lra|]. rewrite Rabs_pos_eq by lra. lra.
Qed.
Lemma bounded_on G tend : (forall t, 0 <= t -> continuity_pt G t) -> 0 < tend ->
  exists M, 0 <= M /\ forall t, 0 <= t <= tend -> Rabs (G t) <= M.
Proof.
  intros HC Ht. destruct (continuity_ab_maj (fun t => Rabs (G t)) 0 tend ltac:(lra)) as (x & Hx & X).
  { intros t Hx. apply (continuity_pt_comp G Rabs); [apply HC; lra|apply Rcontinuity_abs]. }
  exists (Rabs (G x)). split; [apply Rabs_pos|exact Hx].
Qed.
(** Two-layer model: any continuous forcing, over any bounded stretch of time. *)
Theorem c71_two_layer_converges_continuous : forall p G Y YD tend eps,
  convertible_tl p -> (forall t, 0 <= t -> continuity_pt G t) -> two_layer_forced p G Y YD -> 0 < tend -> 0 < eps ->
  exists h, 0 < h /\ forall reg parse s dt e F T TD N, 0 < dt < h -> INR (npoints e) * dt <= tend ->
    tl_setup reg parse s (with_step p dt) e F -> tl_reports reg s e T TD N -> sampled dt G F ->
    forall i, (i < npoints e)%nat ->
      Rabs (T i - Y (INR i * dt)) <= eps /\ Rabs (TD i - YD (INR i * dt)) <= eps /\
      ((0 < i)%nat -> (S i < npoints e)%nat -> exists rate,
         derivable_pt_lim (layers_heat p Y YD) (INR i * dt) rate /\ Rabs (N (S i) - rate) <= eps) /\
      Rabs (dt * total N i - layers_heat p Y YD (INR i * dt)) <= eps.
Proof.
  intros p G Y YD tend eps HP HC HG Ht He.
  destruct (bounded_on G tend HC Ht) as (M & M0 & HM). destruct (steps_small p HP M eps M0 He) as (h & D & H0 & D0 & HS).
  destruct (near_values G tend D HC Ht D0) as (h' & H0' & HN). exists (Rmin h h'). split; [apply Rmin_glb_lt; assumption|].
  intros reg parse s dt e F T TD N (Hdt & Hh) Hn HSt HR HF. pose proof (Rmin_l h h'). pose proof (Rmin_r h h').
  destruct (HS dt D ltac:(lra) ltac:(lra)) as (S1 & S2).
  assert (Hh' : 0 < dt < h') by lra.
  apply (everything p HP reg parse s dt e F T TD N G Y YD M D eps HG Hdt S1 HSt HR (HN dt F _ Hh' Hn HF)); [|exact S2].
  intros i Hi. rewrite HF. apply HM. split; [apply time_pos; lra|]. eapply Rle_trans; [|exact Hn]. apply Rmult_le_compat_r; [lra|apply le_INR; lia].
Qed.
(** Impulse-response model: likewise. *)
Theorem c71_impulse_response_converges_continuous : forall p G Y1 Y2 tend eps,
  convertible_ir p -> fast_box_loses p -> (forall t, 0 <= t -> continuity_pt G t) ->
  box_forced (p_q1 p) (p_d1 p) G Y1 -> box_forced (p_q2 p) (p_d2 p) G Y2 -> 0 < tend -> 0 < eps ->
  exists h, 0 < h /\ forall reg parse s dt e F T1 T2 T N H, 0 < dt < h -> INR (npoints e) * dt <= tend ->
    ir_setup reg parse s (with_istep p dt) e F -> ir_reports reg s e T1 T2 T N -> sampled dt G F ->
    usize reg (units (ir_q1 (xenv reg) s)) = usize reg u_CWm2 ->
    usize reg (units (ir_q2 (xenv reg) s)) = usize reg u_CWm2 -> stored_heat_is s H ->
    forall i, (i < npoints e)%nat ->
      Rabs (T1 i - Y1 (INR i * dt)) <= eps /\ Rabs (T2 i - Y2 (INR i * dt)) <= eps /\
      Rabs (T i - (Y1 (INR i * dt) + Y2 (INR i * dt))) <= eps /\
      ((0 < i)%nat -> (S i < npoints e)%nat -> exists rate,
        derivable_pt_lim (fun t => H (Y1 t) (Y2 t)) (INR i * dt) (year_s reg * rate) /\ Rabs (N (S i) - rate) <= eps) /\
      Rabs (year_s reg * dt * total N i - H (Y1 (INR i * dt)) (Y2 (INR i * dt))) <= year_s reg * eps.
Proof.
  intros p G Y1 Y2 tend eps HP Hw HC H1 H2 Ht He. pose proof HP as (Q1 & Q2 & P1 & P2 & Pe).
  destruct (bounded_on G tend HC Ht) as (M & M0 & HM).
  set (k := 2 + p_q1 p + p_q2 p + 2 * p_d2 p).
  assert (K0 : 0 < k) by (unfold k; lra).
  destruct (near_values G tend (eps / k) HC Ht ltac:(apply pos_div; lra)) as (h' & H0' & HN).
  exists (Rmin (eps / 2 / (M + 1)) h'). split; [apply Rmin_glb_lt; [apply pos_div; lra|assumption]|].
  intros reg parse s dt e F T1 T2 T N H (Hdt & Hh) Hn HS HR HF U1 U2 HH i Hi.
  pose proof (Rmin_l (eps / 2 / (M + 1)) h'). pose proof (Rmin_r (eps / 2 / (M + 1)) h').
  assert (Hh' : 0 < dt < h') by lra. pose proof (HN dt F _ Hh' Hn HF) as HW. set (D := eps / k) in *.
  assert (D0 : 0 < D) by (apply pos_div; lra). assert (ED : D * k = eps) by (unfold D; field; lra).
  assert (HB : forall i, (i < npoints e)%nat -> Rabs (F i) <= M).
  { intros j Hj. rewrite HF. apply HM. split; [apply time_pos; lra|]. eapply Rle_trans; [|exact Hn]. apply Rmult_le_compat_r; [lra|apply le_INR; lia]. }
  assert (DM : dt * M <= eps / 2).
  { apply Rle_trans with (eps / 2 / (M + 1) * (M + 1)); [apply Rmult_le_compat; lra|]. right. field. lra. }
  unfold k in ED.
  assert (X1 : 0 <= D * p_q1 p) by (apply Rmult_le_pos; lra). assert (X2 : 0 <= D * p_q2 p) by (apply Rmult_le_pos; lra).
  assert (X3 : 0 <= D * p_d2 p) by (apply Rmult_le_pos; lra).
  assert (Hp : positive_ir (with_istep p dt)) by (unfold positive_ir, with_istep; cbn; repeat split; lra).
  assert (HP' : convertible_ir (with_istep p dt)) by exact HP.
  destruct (c71_impulse_response_error reg parse s _ e F T1 T2 T N G Y1 Y2 D HS HR Hp H1 H2 HW i Hi) as (A & B & C).
  destruct (c71_impulse_response_heat reg parse s _ e F T1 T2 T N G Y1 Y2 H D M HS HR HP' Hdt Hw U1 U2 H1 H2 HH HW HB) as (R & Z).
  cbn [with_istep p_q1 p_q2 p_d1 p_d2 p_idt] in *. split; [lra|]. split; [lra|]. split; [lra|]. split.
  - intros I0 Ij. destruct (R i I0 Ij) as (rate & R1 & R2). exists rate. split; [exact R1|]. lra.
  - eapply Rle_trans; [exact (Z i Hi)|]. apply Rmult_le_compat_l; [pose proof (year_s_pos reg); lra|]. lra.
Qed.

(** ** Cases: a forcing that swings between 2 and -2 W/m^2 for ever *)
Notation swing w := (fun t => 2 * sin (w * t)).
Lemma swing_lim w t : derivable_pt_lim (swing w) t (2 * (cos (w * t) * w)).
Proof.
  apply (derivable_pt_lim_scal (fun t => sin (w * t)) 2). apply (derivable_pt_lim_comp (fun t => w * t) sin).
  - eapply lim_eq; [apply (derivable_pt_lim_scal id w t 1), derivable_pt_lim_id|ring].
  - apply derivable_pt_lim_sin.
Qed.
Lemma swing_cont w t : continuity_pt (swing w) t.
Proof. apply derivable_continuous_pt. eexists. apply swing_lim. Qed.
Lemma swing_slope w : 0 <= w -> slope_at_most (2 * w) (swing w).
Proof.
  intros Hw s t Hs Ht. destruct Ht as [Ht| <-]; [|rewrite !Rminus_diag_eq, Rabs_R0 by reflexivity; lra].
  destruct (MVT_cor2 (swing w) (fun t => 2 * (cos (w * t) * w)) s t Ht (fun c _ => swing_lim w c)) as (c & -> & _).
  rewrite Rabs_mult, (Rabs_pos_eq (t - s)) by lra. apply Rmult_le_compat_r; [lra|].
  rewrite !Rabs_mult, (Rabs_pos_eq w), (Rabs_pos_eq 2) by lra. pose proof (COS_bound (w * c)) as B.
  assert (Rabs (cos (w * c)) <= 1) by (apply Rabs_le; lra).
  assert (Rabs (cos (w * c)) * w <= 1 * w) by (apply Rmult_le_compat_r; lra). lra.
Qed.
Lemma swing_bounded w t : Rabs (swing w t) <= 2.
Proof. pose proof (SIN_bound (w * t)). apply Rabs_le. lra. Qed.
(** A model, exact solutions, and for every timestep and length a run. *)
Example c71_two_layer_converges_case : exists Y YD, let G := swing (/ 31557600) in
  convertible_tl ex_tl /\ two_layer_forced ex_tl G Y YD /\ slope_at_most (2 * / 31557600) G /\
  (forall t, 0 <= t -> Rabs (G t) <= 2) /\ (forall t, 0 <= t -> continuity_pt G t) /\
  forall reg parse dt n, 0 < dt -> exists s e F T TD N,
    tl_setup reg parse s (with_step ex_tl dt) e F /\ npoints e = n /\ tl_reports reg s e T TD N /\ sampled dt G F.
Proof.
  assert (HP : convertible_tl ex_tl) by (unfold convertible_tl; cbn; lra).
  destruct (proj2 (c71_exact_solutions 1 1 ex_tl (swing (/ 31557600)) ltac:(lra) HP (fun t _ => swing_cont _ t))) as (Y & YD & HY & _).
  exists Y, YD. cbn zeta. split; [exact HP|]. split; [exact HY|]. split; [apply swing_slope; lra|].
  split; [intros; apply swing_bounded|]. split; [intros; apply swing_cont|].
  intros reg parse dt n Hd. destruct (tl_run_exists reg parse (with_step ex_tl dt) (fun i => swing (/ 31557600) (INR i * dt)) n) as (s & e & K1 & K2 & K3 & K4 & K5); [cbn; lra..|].
  exists s, e. do 4 eexists. split; [split; [exact K1|split; eassumption]|]. split; [exact K3|]. split; [exact K5|]. intros i. reflexivity.
Qed.
Example c71_two_layer_heat_case : forall reg parse, exists s e F T TD N G Y YD b bD,
  tl_setup reg parse s ex_tl e F /\ npoints e = 9%nat /\ tl_reports reg s e T TD N /\ positive_tl ex_tl /\
  two_layer_forced ex_tl G Y YD /\ stays_within (p_dt ex_tl) 2 G F (npoints e) /\
  (forall i, (i < npoints e)%nat -> Rabs (T i - Y (INR i * p_dt ex_tl)) <= b /\ Rabs (TD i - YD (INR i * p_dt ex_tl)) <= bD).
Proof.
  intros reg parse. destruct c71_two_layer_converges_case as (Y & YD & HP & HG & HS & HB & _ & HE).
  assert (Hd : 0 < p_dt ex_tl) by (cbn; lra). destruct (HE reg parse (p_dt ex_tl) 9%nat Hd) as (s & e & F & T & TD & N & K1 & K2 & K3 & K4).
  change (with_step ex_tl (p_dt ex_tl)) with ex_tl in K1.
  assert (HW : stays_within (p_dt ex_tl) 2 (swing (/ 31557600)) F (npoints e)).
  { assert (E2 : 2 * / 31557600 * p_dt ex_tl = 2) by (cbn; lra).
    pose proof (slope_within (2 * / 31557600) (p_dt ex_tl) (swing (/ 31557600)) F (npoints e) (Rlt_le _ _ Hd) HS K4) as W.
    rewrite E2 in W. exact W. }
  exists s, e, F, T, TD, N, (swing (/ 31557600)), Y, YD, (rough ex_tl 2 2 (p_dt ex_tl)), (rough ex_tl 2 2 (p_dt ex_tl)).
  split; [exact K1|]. split; [exact K2|]. split; [exact K3|]. split; [unfold positive_tl; cbn; lra|].
  split; [exact HG|]. split; [exact HW|].
  apply (all_close ex_tl HP reg parse s (p_dt ex_tl) e F T TD N _ Y YD 2 2 HG Hd).
  - apply FactsPhys.step_le_tau1; unfold p_C, p_CD, water_capacity; cbn; lra.
  - exact K1.
  - exact K3.
  - exact HW.
  - intros i _. rewrite K4. apply HB. apply time_pos. lra.
Qed.
Example c71_impulse_response_converges_case : exists Y1 Y2, let G := swing 1 in
  convertible_ir ex_ir2 /\ fast_box_loses ex_ir2 /\ (forall t, 0 <= t -> continuity_pt G t) /\
  box_forced (p_q1 ex_ir2) (p_d1 ex_ir2) G Y1 /\ box_forced (p_q2 ex_ir2) (p_d2 ex_ir2) G Y2 /\
  forall reg parse dt n, 0 < dt -> exists s e F T1 T2 T N H,
    ir_setup reg parse s (with_istep ex_ir2 dt) e F /\ npoints e = n /\ ir_reports reg s e T1 T2 T N /\ sampled dt G F /\
    usize reg (units (ir_q1 (xenv reg) s)) = usize reg u_CWm2 /\ usize reg (units (ir_q2 (xenv reg) s)) = usize reg u_CWm2 /\
    stored_heat_is s H /\ stays_within dt (2 * dt) G F (npoints e) /\ (forall i, (i < npoints e)%nat -> Rabs (F i) <= 2).
Proof.
  destruct ex_ir2_ok as (A & B).
  destruct (box_forced_exists (p_q1 ex_ir2) (p_d1 ex_ir2) (swing 1) ltac:(cbn; lra) (fun t _ => swing_cont _ t)) as (Y1 & H1).
  destruct (box_forced_exists (p_q2 ex_ir2) (p_d2 ex_ir2) (swing 1) ltac:(cbn; lra) (fun t _ => swing_cont _ t)) as (Y2 & H2).
  exists Y1, Y2. cbn zeta. split; [exact A|]. split; [apply c69_condition; [exact A|cbn; lra]|]. split; [intros; apply swing_cont|].
  split; [exact H1|]. split; [exact H2|]. intros reg parse dt n Hd.
  assert (A' : convertible_ir (with_istep ex_ir2 dt)) by exact A.
  destruct (ir_run_eff reg parse (with_istep ex_ir2 dt) (fun i => swing 1 (INR i * dt)) n A' B) as (s & e & T1 & T2 & T & N & K1 & K2 & K3 & K4 & K5).
  destruct (proj1 (c69_stored_heat reg parse s _ e _ K1 A')) as (H & HH).
  exists s, e. eexists. exists T1, T2, T, N, H. split; [exact K1|]. split; [exact K2|]. split; [exact K3|].
  assert (S : sampled dt (swing 1) (fun i => swing 1 (INR i * dt))) by (intros i; reflexivity). split; [exact S|].
  split; [exact K4|]. split; [exact K5|]. split; [exact HH|]. split.
  - assert (E2 : 2 * 1 * dt = 2 * dt) by ring. rewrite <- E2. apply slope_within; [lra|apply swing_slope; lra|exact S].
  - intros i _. apply swing_bounded.
Qed.
