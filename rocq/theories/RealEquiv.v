(** Equivalence of the two systems: modes of the two-layer equations, in
    continuous time and for forward Euler. *)
From Coq Require Import Reals Lra Lia Psatz.
From Verif Require Import SpecReal RealTL RealGeo RealEuler RealBox.
Local Open Scope R_scope.

Section Modes.
Variable p : TLP.
Hypothesis HP : convertible_tl p.
Notation gg f := (f (p_C p) (p_CD p) (p_lambda0 p) (p_eps p) (p_eta p)).
Notation tau1 := (gg gtau1). Notation tau2 := (gg gtau2).
Notation phi1 := (gg gphi1). Notation phi2 := (gg gphi2).
Notation q1 := (gg gq1). Notation q2 := (gg gq2).

Lemma mC : 0 < p_C p. Proof. apply cap_pos, HP. Qed.
Lemma mCD : 0 < p_CD p. Proof. apply cap_pos, HP. Qed.
Lemma ml : 0 < p_lambda0 p. Proof. apply HP. Qed.
Lemma me : 0 < p_eps p. Proof. apply HP. Qed.
Lemma mh : 0 < p_eta p. Proof. apply HP. Qed.
Lemma ma : p_a p = 0. Proof. apply HP. Qed.
Lemma mt1 : 0 < tau1. Proof. exact (gtau1_pos _ _ _ _ _ mC mCD ml me mh). Qed.
Lemma mt2 : 0 < tau2. Proof. exact (gtau2_pos _ _ _ _ _ mC mCD ml me mh). Qed.
Lemma mt : tau1 < tau2. Proof. exact (gtau_lt _ _ _ _ _ mC mCD ml me mh). Qed.
Lemma mq1 : 0 < q1. Proof. exact (gq1_pos _ _ _ _ _ mC mCD ml me mh). Qed.
Lemma mq2 : 0 < q2. Proof. exact (gq2_pos _ _ _ _ _ mC mCD ml me mh). Qed.
Lemma mp1 : phi1 < 0. Proof. exact (gphi1_neg _ _ _ _ _ mC mCD ml me mh). Qed.
Lemma mp2 : 0 < phi2. Proof. exact (gphi2_pos _ _ _ _ _ mC mCD ml me mh). Qed.

Lemma mode_T F x1 x2 : dT_dt p F (x1 + x2) (phi1 * x1 + phi2 * x2) = (q1 * F - x1) / tau1 + (q2 * F - x2) / tau2.
Proof.
  pose proof (q_rate _ _ _ _ _ mC mCD ml me mh) as R.
  pose proof (char1 _ _ _ _ _ mC mCD ml me mh) as K1. pose proof (char2 _ _ _ _ _ mC mCD ml me mh) as K2.
  pose proof (tau_phi1 _ _ _ _ _ mC mCD ml me mh) as L1. pose proof (tau_phi2 _ _ _ _ _ mC mCD ml me mh) as L2.
  pose proof mt1 as T1. pose proof mt2 as T2. pose proof mC as C0.
  unfold dT_dt. rewrite ma.
  set (f1 := phi1) in *. set (f2 := phi2) in *. set (t1 := tau1) in *. set (t2 := tau2) in *.
  set (y1 := q1) in *. set (y2 := q2) in *.
  transitivity (F * (y1 / t1 + y2 / t2) - x1 / t1 - x2 / t2); [|field; lra].
  rewrite R.
  transitivity ((F - ((p_lambda0 p + p_eps p * (p_eta p * (1 - f1))) * x1 + (p_lambda0 p + p_eps p * (p_eta p * (1 - f2))) * x2)) / p_C p);
    [unfold Rdiv; ring|]. rewrite K1, K2.
  replace (p_lambda0 p + p_eps p * (- f1 * p_CD p / t1)) with (p_C p / t1).
  2:{ apply Rmult_eq_reg_r with t1; [|lra]. transitivity (p_lambda0 p * t1 - f1 * p_eps p * p_CD p); [rewrite <- L1; field; lra|field; lra]. }
  replace (p_lambda0 p + p_eps p * (- f2 * p_CD p / t2)) with (p_C p / t2).
  2:{ apply Rmult_eq_reg_r with t2; [|lra]. transitivity (p_lambda0 p * t2 - f2 * p_eps p * p_CD p); [rewrite <- L2; field; lra|field; lra]. }
  field. lra.
Qed.
Lemma mode_TD F x1 x2 : dTD_dt p (x1 + x2) (phi1 * x1 + phi2 * x2) =
  phi1 * ((q1 * F - x1) / tau1) + phi2 * ((q2 * F - x2) / tau2).
Proof.
  pose proof (q_phi_rate _ _ _ _ _ mC mCD ml me mh) as R.
  pose proof (char1 _ _ _ _ _ mC mCD ml me mh) as K1. pose proof (char2 _ _ _ _ _ mC mCD ml me mh) as K2.
  pose proof mt1 as T1. pose proof mt2 as T2. pose proof mCD as C0.
  unfold dTD_dt.
  set (f1 := phi1) in *. set (f2 := phi2) in *. set (t1 := tau1) in *. set (t2 := tau2) in *.
  set (y1 := q1) in *. set (y2 := q2) in *.
  transitivity (F * (f1 * (y1 / t1) + f2 * (y2 / t2)) - f1 * x1 / t1 - f2 * x2 / t2); [|field; lra].
  rewrite R.
  transitivity ((p_eta p * (1 - f1) * x1 + p_eta p * (1 - f2) * x2) / p_CD p); [unfold Rdiv; ring|]. rewrite K1, K2.
  field. lra.
Qed.
Lemma mdiff : 0 < phi2 - phi1. Proof. exact (gphi_diff_pos _ _ _ _ _ mC mCD ml me mh). Qed.

(** Coordinates in the two modes. *)
Definition X1 (T TD : R) : R := (phi2 * T - TD) / (phi2 - phi1).
Definition X2 (T TD : R) : R := (TD - phi1 * T) / (phi2 - phi1).
Lemma X_T T TD : X1 T TD + X2 T TD = T.
Proof. unfold X1, X2. pose proof mdiff. field. lra. Qed.
Lemma X_TD T TD : phi1 * X1 T TD + phi2 * X2 T TD = TD.
Proof. unfold X1, X2. pose proof mdiff. field. lra. Qed.
Lemma X1_rate F T TD : X1 (dT_dt p F T TD) (dTD_dt p T TD) = (q1 * F - X1 T TD) / tau1.
Proof.
  pose proof (mode_T F (X1 T TD) (X2 T TD)) as A. pose proof (mode_TD F (X1 T TD) (X2 T TD)) as B.
  rewrite X_T, X_TD in A, B. unfold X1 at 1. rewrite A, B. pose proof mdiff. field. pose proof mt1. pose proof mt2. lra.
Qed.
Lemma X2_rate F T TD : X2 (dT_dt p F T TD) (dTD_dt p T TD) = (q2 * F - X2 T TD) / tau2.
Proof.
  pose proof (mode_T F (X1 T TD) (X2 T TD)) as A. pose proof (mode_TD F (X1 T TD) (X2 T TD)) as B.
  rewrite X_T, X_TD in A, B. unfold X2 at 1. rewrite A, B. pose proof mdiff. field. pose proof mt1. pose proof mt2. lra.
Qed.

(** ** Continuous time *)
Lemma lim_lin (f g : R -> R) a b t x y : derivable_pt_lim f t x -> derivable_pt_lim g t y ->
  derivable_pt_lim (fun s => a * f s + b * g s) t (a * x + b * y).
Proof.
  intros Hf Hg. apply (derivable_pt_lim_plus (fun s => a * f s) (fun s => b * g s)).
  - apply (derivable_pt_lim_scal f a t x Hf).
  - apply (derivable_pt_lim_scal g b t y Hg).
Qed.
Lemma cont_lin (f g : R -> R) a b t : continuity_pt f t -> continuity_pt g t -> continuity_pt (fun s => a * f s + b * g s) t.
Proof.
  intros Hf Hg. apply (continuity_pt_plus (fun s => a * f s) (fun s => b * g s)); [apply (continuity_pt_scal f a t Hf)|apply (continuity_pt_scal g b t Hg)].
Qed.
Lemma lim_eq f t x y : derivable_pt_lim f t x -> x = y -> derivable_pt_lim f t y.
Proof. intros H <-. exact H. Qed.
Lemma lim_ext (f g : R -> R) t x : (forall s, f s = g s) -> derivable_pt_lim f t x -> derivable_pt_lim g t x.
Proof. intros H D e He. destruct (D e He) as (d & Hd). exists d. intros h H1 H2. rewrite <- !H. apply Hd; assumption. Qed.
Lemma cont_ext (f g : R -> R) t : (forall s, f s = g s) -> continuity_pt f t -> continuity_pt g t.
Proof.
  intros H D e He. destruct (D e He) as (d & Hd & K). exists d. split; [exact Hd|]. intros x Hx. rewrite <- !H. apply K, Hx.
Qed.

Lemma boxes_to_layers F T1 T2 : box_forced q1 tau1 F T1 -> box_forced q2 tau2 F T2 ->
  two_layer_forced p F (fun t => T1 t + T2 t) (fun t => phi1 * T1 t + phi2 * T2 t).
Proof.
  intros (Z1 & C1 & D1) (Z2 & C2 & D2). split; [rewrite Z1, Z2; ring|]. split; [rewrite Z1, Z2; ring|]. split.
  - intros t Ht. split; [|apply cont_lin; auto].
    apply cont_ext with (fun s => 1 * T1 s + 1 * T2 s); [intros; ring|apply cont_lin; auto].
  - intros t Ht. split.
    + rewrite mode_T. apply lim_ext with (fun s => 1 * T1 s + 1 * T2 s); [intros; ring|].
      eapply lim_eq; [apply lim_lin; [apply D1, Ht|apply D2, Ht]|]. ring.
    + rewrite (mode_TD (F t)). apply lim_lin; auto.
Qed.
Lemma layers_to_boxes F T TD : two_layer_forced p F T TD ->
  box_forced q1 tau1 F (fun t => X1 (T t) (TD t)) /\ box_forced q2 tau2 F (fun t => X2 (T t) (TD t)).
Proof.
  intros (Z1 & Z2 & C & D). pose proof mdiff as Hd.
  assert (E1 : forall t, phi2 / (phi2 - phi1) * T t + - / (phi2 - phi1) * TD t = X1 (T t) (TD t)) by (intros; unfold X1; field; lra).
  assert (E2 : forall t, - phi1 / (phi2 - phi1) * T t + / (phi2 - phi1) * TD t = X2 (T t) (TD t)) by (intros; unfold X2; field; lra).
  split; (split; [rewrite Z1, Z2; unfold X1, X2, Rdiv; ring|]); (split; [intros t Ht; destruct (C t Ht)|intros t Ht; destruct (D t Ht) as (D1 & D2)]).
  - eapply cont_ext; [exact E1|]. apply cont_lin; assumption.
  - rewrite <- X1_rate. eapply lim_ext; [exact E1|]. eapply lim_eq; [apply lim_lin; eassumption|]. unfold X1. field. lra.
  - eapply cont_ext; [exact E2|]. apply cont_lin; assumption.
  - rewrite <- X2_rate. eapply lim_ext; [exact E2|]. eapply lim_eq; [apply lim_lin; eassumption|]. unfold X2. field. lra.
Qed.

(** ** Forward Euler is forward Euler in each mode *)
Fixpoint ebox (q d dt : R) (F : nat -> R) (n : nat) : R :=
  match n with
  | O => 0
  | S k => ebox q d dt F k + dt * ((q * F k - ebox q d dt F k) / d)
  end.
Lemma euler_modes F n :
  eu p F n = ebox q1 tau1 (p_dt p) F n + ebox q2 tau2 (p_dt p) F n /\
  el p F n = phi1 * ebox q1 tau1 (p_dt p) F n + phi2 * ebox q2 tau2 (p_dt p) F n.
Proof.
  induction n as [|n (I1 & I2)]; [cbn; unfold eu, el; cbn; split; ring|].
  rewrite eu_S, el_S, I1, I2, mode_T, (mode_TD (F n)). cbn [ebox]. split; ring.
Qed.
End Modes.

(** ** Uniqueness of forced box solutions *)
Lemma box_forced_unique q d F y z : d <> 0 -> box_forced q d F y -> box_forced q d F z -> forall t, 0 <= t -> y t = z t.
Proof.
  intros Hd (Y0 & YC & YD) (Z0 & ZC & ZD) t Ht.
  destruct Ht as [Ht|<-]; [|congruence].
  set (g := fun s => (y s - z s) * exp (s / d)).
  assert (Hexp : forall s, derivable_pt_lim (fun x => exp (x / d)) s (exp (s / d) * (1 / d))).
  { intros s. apply (derivable_pt_lim_comp (fun x => x / d) exp).
    - apply lim_ext with (fun x => / d * id x); [intros; unfold id; field; assumption|].
      eapply lim_eq; [apply (derivable_pt_lim_scal id (/ d) s 1), derivable_pt_lim_id|]. field. assumption.
    - apply derivable_pt_lim_exp. }
  assert (HD : forall s, 0 < s -> derivable_pt_lim g s 0).
  { intros s Hs. eapply lim_eq.
    - apply (derivable_pt_lim_mult (fun s => y s - z s) (fun x => exp (x / d))).
      + apply (derivable_pt_lim_minus y z); [apply YD, Hs|apply ZD, Hs].
      + apply Hexp.
    - cbn. field. assumption. }
  assert (HC : forall s, 0 <= s -> continuity_pt g s).
  { intros s Hs. apply (continuity_pt_mult (fun s => y s - z s) (fun x => exp (x / d))).
    - apply (continuity_pt_minus y z); auto.
    - apply derivable_continuous_pt. eexists. apply Hexp. }
  assert (pr : forall x, 0 < x < t -> derivable_pt g x) by (intros x Hx; exists 0; apply HD; lra).
  assert (K : g t = g 0).
  { pose proof (null_derivative_loc g 0 t pr) as K. unfold constant_D_eq in K. apply K; [| |lra].
    - intros x Hx. apply HC. lra.
    - intros x P. apply derive_pt_eq_0, HD. lra. }
  unfold g in K. rewrite Y0, Z0, Rminus_0_r, Rmult_0_l in K. apply Rmult_integral in K as [K|K]; [lra|].
  pose proof (exp_pos (t / d)). lra.
Qed.

(** ** Euler and exact steps of one box *)
Lemma exp_upper h : 0 <= h -> exp (- h) <= 1 - h + h * h / 2.
Proof.
  intros Hh. destruct Hh as [Hh|<-]; [|rewrite Ropp_0, exp_0; lra].
  set (f := fun x => 1 - x + x * x / 2 - exp (- x)). set (f' := fun x => - 1 + x + exp (- x)).
  destruct (MVT_cor2 f f' 0 h Hh) as (c & Hc & Hc').
  { intros c _. unfold f, f'.
    assert (A : derivable_pt_lim (fun x => exp (- x)) c (exp (- c) * - 1)).
    { apply (derivable_pt_lim_comp (fun x => - x) exp); [|apply derivable_pt_lim_exp].
      apply (derivable_pt_lim_opp id c 1), derivable_pt_lim_id. }
    assert (B : derivable_pt_lim (fun x => 1 - x + x * x / 2) c (- 1 + c)).
    { apply lim_ext with (fun x => 1 + (- id x + / 2 * (id x * id x))); [intros; unfold id; field|].
      eapply lim_eq; [apply (derivable_pt_lim_plus (fct_cte 1)); [apply derivable_pt_lim_const|]|].
      - apply (derivable_pt_lim_plus (fun x => - id x) (fun x => / 2 * (id x * id x))).
        + apply (derivable_pt_lim_opp id c 1), derivable_pt_lim_id.
        + apply (derivable_pt_lim_scal (fun x => id x * id x)). apply (derivable_pt_lim_mult id id); apply derivable_pt_lim_id.
      - unfold id. field. }
    eapply lim_eq; [apply (derivable_pt_lim_minus (fun x => 1 - x + x * x / 2) (fun x => exp (- x))); eassumption|]. ring. }
  assert (F0 : f 0 = 0) by (unfold f; rewrite Ropp_0, exp_0; lra).
  assert (Fc : 0 <= f' c) by (unfold f'; pose proof (exp_ineq1_le (- c)); lra).
  rewrite F0, !Rminus_0_r in Hc. assert (0 <= f h) by (rewrite Hc; apply Rmult_le_pos; lra). unfold f in *. lra.
Qed.

Section OneBox.
Variables q d dt M : R.
Variable F : nat -> R.
Hypothesis Hq : 0 < q.
Hypothesis Hd : 0 < d.
Hypothesis Hdt : 0 < dt.
Hypothesis Hs : dt <= d.
Hypothesis HM : 0 <= M.

Lemma ebox_error n : (forall i, (i < n)%nat -> Rabs (F i) <= M) ->
  Rabs (ebox q d dt F n - box_run q d dt F n) <= dt * M * (q / d).
Proof.
  set (h := dt / d). assert (Hh : 0 < h) by (apply pos_div; assumption).
  assert (Hh1 : h <= 1) by (unfold h; apply Rmult_le_reg_r with d; [lra|]; unfold Rdiv; rewrite Rmult_assoc, Rinv_l; lra).
  set (k := exp (- h)).
  assert (K0 : 0 <= k - 1 + h) by (unfold k; pose proof (exp_ineq1_le (- h)); lra).
  assert (K1 : k - 1 + h <= h * h / 2) by (unfold k; pose proof (exp_upper h ltac:(lra)); lra).
  assert (Hb : dt * M * (q / d) = h * (q * M)) by (unfold h; field; lra). rewrite Hb.
  assert (HqM : 0 <= q * M) by (apply Rmult_le_pos; lra).
  induction n as [|n IH]; intros HF.
  - cbn. rewrite Rminus_0_r, Rabs_R0. apply Rmult_le_pos; lra.
  - specialize (IH ltac:(auto with arith)). cbn [ebox box_run]. unfold box_solution.
    replace (exp (- dt / d)) with k by (unfold k, h; f_equal; field; lra).
    set (x := ebox q d dt F n) in *.
    pose proof (run_bound q d dt Hd Hdt F M n (Rlt_le _ _ Hq) ltac:(auto with arith) HM) as HY.
    set (y := box_run q d dt F n) in *.
    replace (x + dt * ((q * F n - x) / d) - (y * k + q * F n * (1 - k)))
      with ((1 - h) * (x - y) + (k - 1 + h) * (q * F n - y)) by (unfold h; field; lra).
    eapply Rle_trans; [apply Rabs_triang|]. rewrite !Rabs_mult, (Rabs_right (1 - h)), (Rabs_right (k - 1 + h)) by lra.
    assert (HqF : Rabs (q * F n) <= q * M).
    { rewrite Rabs_mult, (Rabs_right q) by lra. apply Rmult_le_compat_l; [lra|]. apply HF. lia. }
    assert (H2 : Rabs (q * F n - y) <= 2 * (q * M)).
    { unfold Rminus. eapply Rle_trans; [apply Rabs_triang|]. rewrite Rabs_Ropp. lra. }
    assert (A : (1 - h) * Rabs (x - y) <= (1 - h) * (h * (q * M))) by (apply Rmult_le_compat_l; lra).
    assert (B : (k - 1 + h) * Rabs (q * F n - y) <= h * h / 2 * (2 * (q * M))).
    { apply Rmult_le_compat; try lra. apply Rabs_pos. }
    lra.
Qed.
End OneBox.

(** The two implementations: surface and deep temperature. *)
Section Compare.
Variable p : TLP.
Hypothesis HP : convertible_tl p.
Hypothesis Hdt : 0 < p_dt p.
Notation gg f := (f (p_C p) (p_CD p) (p_lambda0 p) (p_eps p) (p_eta p)).
Hypothesis Hs : p_dt p <= gg gtau1.
Variables (F : nat -> R) (M : R) (n : nat).
Hypothesis HF : forall i, (i < n)%nat -> Rabs (F i) <= M.
Hypothesis HM : 0 <= M.
Notation Y1 := (box_run (gg gq1) (gg gtau1) (p_dt p) F).
Notation Y2 := (box_run (gg gq2) (gg gtau2) (p_dt p) F).

Lemma e1 : Rabs (ebox (gg gq1) (gg gtau1) (p_dt p) F n - Y1 n) <= p_dt p * M * (gg gq1 / gg gtau1).
Proof. apply ebox_error; auto using mq1, mt1. Qed.
Lemma e2 : Rabs (ebox (gg gq2) (gg gtau2) (p_dt p) F n - Y2 n) <= p_dt p * M * (gg gq2 / gg gtau2).
Proof. apply ebox_error; auto using mq2, mt2. pose proof (mt p HP). lra. Qed.

Lemma surface_error : Rabs (eu p F n - (Y1 n + Y2 n)) <= p_dt p * M / p_C p.
Proof.
  destruct (euler_modes p HP F n) as (-> & _).
  pose proof (q_rate _ _ _ _ _ (mC p HP) (mCD p HP) (ml p HP) (me p HP) (mh p HP)) as R.
  pose proof e1 as E1. pose proof e2 as E2. unfold Rdiv at 1. rewrite <- R, Rmult_plus_distr_l.
  match goal with |- Rabs (?a + ?b - (?c + ?d)) <= _ => replace (a + b - (c + d)) with ((a - c) + (b - d)) by ring end.
  eapply Rle_trans; [apply Rabs_triang|]. lra.
Qed.
Lemma deep_error : Rabs (el p F n - (gg gphi1 * Y1 n + gg gphi2 * Y2 n)) <=
  2 * p_eta p / (p_CD p * sqrt (discriminant p)) * (p_dt p * M / p_C p).
Proof.
  destruct (euler_modes p HP F n) as (_ & ->). pose proof e1 as E1. pose proof e2 as E2.
  pose proof (mp1 p HP) as P1. pose proof (mp2 p HP) as P2.
  pose proof (mC p HP) as HC. pose proof (mCD p HP) as HCD. pose proof (ml p HP) as Hl. pose proof (me p HP) as He. pose proof (mh p HP) as Hh.
  pose proof (q1_tau _ _ _ _ _ HC HCD Hl He Hh) as R1. pose proof (q2_tau _ _ _ _ _ HC HCD Hl He Hh) as R2.
  pose proof (phi_prod _ _ _ _ _ HC HCD Hl He Hh) as PP. pose proof (gphi_diff _ _ _ _ _ HC HCD Hl He Hh) as PD.
  pose proof (mdiff p HP) as Hd. rewrite R1 in E1. rewrite R2 in E2.
  assert (Hdisc : discriminant p = gg gdelta) by (unfold discriminant, gdelta, gb, Rdiv; ring).
  assert (Hr : 0 < sqrt (gg gdelta)) by (apply sqrt_lt_R0; apply gdelta_pos; assumption).
  set (f1 := gg gphi1) in *. set (f2 := gg gphi2) in *.
  set (x1 := ebox _ _ _ _ _) in *. set (x2 := ebox (gg gq2) _ _ _ _) in *. set (y1 := box_run _ _ _ _ _) in *. set (y2 := box_run (gg gq2) _ _ _ _) in *.
  replace (f1 * x1 + f2 * x2 - (f1 * y1 + f2 * y2)) with (f1 * (x1 - y1) + f2 * (x2 - y2)) by ring.
  eapply Rle_trans; [apply Rabs_triang|]. rewrite !Rabs_mult, (Rabs_left f1), (Rabs_right f2) by lra.
  assert (A : - f1 * Rabs (x1 - y1) <= - f1 * (p_dt p * M * (f2 / (p_C p * (f2 - f1))))) by (apply Rmult_le_compat_l; lra).
  assert (B : f2 * Rabs (x2 - y2) <= f2 * (p_dt p * M * (- f1 / (p_C p * (f2 - f1))))) by (apply Rmult_le_compat_l; lra).
  eapply Rle_trans; [apply Rplus_le_compat; [exact A|exact B]|]. right.
  transitivity (2 * - (f1 * f2) / (f2 - f1) * (p_dt p * M / p_C p)); [field; lra|].
  rewrite PP, PD, Hdisc. field. repeat split; lra.
Qed.
End Compare.
