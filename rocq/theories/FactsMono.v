(** Property C59: how the temperatures depend on the parameters. *)
From Coq Require Import List String QArith Reals Qreals Bool Arith Lra Lia Psatz.
From Verif Require Import Arith Pint Base TwoLayer Impulse Scm Api Spec Exact SpecReal SpecStep
  GenTL GenTLHist GenIR GenIRHist GenMeta RealUnits RealTL RealGeo RealConv RealIR RealModels RealEuler RealBox RealEquiv
  FactsTL FactsTL2 FactsIR FactsTL3 FactsIR2.
Import ListNotations.
Local Open Scope R_scope.

(** One step of the model with the larger parameters lies below one step of the other. *)
Section Compare.
Variables p p' : TLP.
Hypothesis Hp : positive_tl p.
Hypothesis Hs : small_step p.
Hypothesis Hp' : positive_tl p'.
Hypothesis Hs' : small_step p'.
Hypothesis Eeta : p_eta p' = p_eta p.
Hypothesis Edt : p_dt p' = p_dt p.
Variable F : nat -> R.

Lemma mono_step T TD T' TD' f : T' <= T -> TD' <= TD ->
  T' + p_dt p * dT_dt p f T' TD' <= T + p_dt p * dT_dt p f T TD /\
  TD' + p_dt p * dTD_dt p T' TD' <= TD + p_dt p * dTD_dt p T TD.
Proof.
  intros I1 I2. rewrite !(step_u p Hp), !(step_l p Hp).
  pose proof (al_pos p Hp). pose proof (be_pos p Hp). pose proof (k1_nonneg p Hp Hs). pose proof (k2_nonneg p Hp Hs). pose proof (ee_pos p Hp).
  assert (0 < p_eta p) by apply Hp. split.
  - apply Rplus_le_compat_r. apply Rplus_le_compat; apply Rmult_le_compat_l; auto; try lra. apply Rmult_le_pos; lra.
  - apply Rplus_le_compat; apply Rmult_le_compat_l; auto. apply Rmult_le_pos; lra.
Qed.

Lemma compare_runs n :
  (forall i, (i < n)%nat ->
    dT_dt p' (F i) (eu p' F i) (el p' F i) <= dT_dt p (F i) (eu p' F i) (el p' F i) /\
    dTD_dt p' (eu p' F i) (el p' F i) <= dTD_dt p (eu p' F i) (el p' F i)) ->
  forall i, (i <= n)%nat -> eu p' F i <= eu p F i /\ el p' F i <= el p F i.
Proof.
  intros H i. assert (Pt : 0 < p_dt p) by apply Hp.
  induction i as [|i IH]; intros Hi; [unfold eu, el; cbn; lra|].
  destruct (IH ltac:(lia)) as (I1 & I2). destruct (H i ltac:(lia)) as (H1 & H2).
  destruct (mono_step _ _ _ _ (F i) I1 I2) as (M1 & M2).
  rewrite !eu_S, !el_S, Edt. split.
  - eapply Rle_trans; [|exact M1]. apply Rplus_le_compat_l, Rmult_le_compat_l; lra.
  - eapply Rle_trans; [|exact M2]. apply Rplus_le_compat_l, Rmult_le_compat_l; lra.
Qed.
End Compare.

Lemma div_le a b b' : 0 <= a -> 0 < b -> b <= b' -> a / b' <= a / b.
Proof. intros Ha Hb H. unfold Rdiv. apply Rmult_le_compat_l; [assumption|]. apply Rinv_le_contravar; assumption. Qed.
Lemma cap_le d d' : d <= d' -> water_capacity d <= water_capacity d'.
Proof. intros H. unfold water_capacity. lra. Qed.

(** ** C59 *)

(** A stronger climate feedback gives less warming under every forcing that is
    never negative. *)
Theorem c59_feedback : forall reg parse s s' p lam' e F T TD N T' TD' N',
  tl_setup reg parse s p e F -> tl_reports reg s e T TD N ->
  tl_setup reg parse s' (with_lambda0 lam' p) e F -> tl_reports reg s' e T' TD' N' ->
  positive_tl p -> small_step (with_lambda0 lam' p) -> p_lambda0 p <= lam' ->
  (forall i, (i < npoints e)%nat -> 0 <= F i) ->
  forall i, (i < npoints e)%nat -> 0 <= T' i <= T i /\ 0 <= TD' i <= TD i.
Proof.
  intros reg parse s s' p lam' e F T TD N T' TD' N' HS HR HS' HR' Hp Hs' Hl HF i Hi.
  destruct (setup_inv _ _ _ _ _ _ _ _ _ HS HR) as (_ & HI). destruct (setup_inv _ _ _ _ _ _ _ _ _ HS' HR') as (_ & HI').
  destruct (HI i Hi) as (-> & -> & _). destruct (HI' i Hi) as (-> & -> & _).
  set (p' := with_lambda0 lam' p) in *.
  pose proof Hp as (P1 & P2 & P3 & P4 & P5 & P6 & P7).
  assert (Hp' : positive_tl p') by (unfold positive_tl, p', with_lambda0; cbn; repeat split; lra).
  assert (Hs : small_step p).
  { destruct Hs' as (S1 & S2). split; [|exact S2]. change (p_C p') with (p_C p) in S1.
    cbn [with_lambda0 p_dt p_lambda0 p_eps p_eta p'] in S1.
    assert (p_dt p * p_lambda0 p <= p_dt p * lam') by (apply Rmult_le_compat_l; lra). lra. }
  assert (NN : forall j, (j <= i)%nat -> 0 <= eu p' F j /\ 0 <= el p' F j).
  { intros j Hj. apply euler_nonneg; auto. intros k Hk. apply HF. lia. }
  destruct (NN i (le_n i)) as (N1 & N2).
  enough (K : forall j, (j < i)%nat -> dT_dt p' (F j) (eu p' F j) (el p' F j) <= dT_dt p (F j) (eu p' F j) (el p' F j) /\
    dTD_dt p' (eu p' F j) (el p' F j) <= dTD_dt p (eu p' F j) (el p' F j)).
  { destruct (compare_runs p p' Hp Hs eq_refl F i K i (le_n i)). auto. }
  intros j Hj. destruct (NN j ltac:(lia)) as (J1 & _). split; [|unfold dTD_dt; right; reflexivity].
  unfold dT_dt. change (p_C p') with (p_C p). cbn [with_lambda0 p_lambda0 p_a p_eps p_eta p'].
  unfold Rdiv. apply Rmult_le_compat_r; [left; apply Rinv_0_lt_compat, (pC_pos p Hp)|].
  assert (p_lambda0 p * eu p' F j <= lam' * eu p' F j) by (apply Rmult_le_compat_r; assumption).
  rewrite P4. lra.
Qed.

(** Deeper layers, a stronger feedback and a larger efficacy slow the warming
    of both layers under rising forcing. *)
Theorem c59_slower_warming : forall reg parse s s' p p' e F T TD N T' TD' N',
  tl_setup reg parse s p e F -> tl_reports reg s e T TD N ->
  tl_setup reg parse s' p' e F -> tl_reports reg s' e T' TD' N' ->
  positive_tl p -> small_step p -> positive_tl p' -> small_step p' ->
  p_du p <= p_du p' -> p_dl p <= p_dl p' -> p_lambda0 p <= p_lambda0 p' -> p_eps p <= p_eps p' ->
  p_eta p' = p_eta p -> p_dt p' = p_dt p ->
  0 <= F 0%nat -> (forall i, (S i < npoints e)%nat -> F i <= F (S i)) ->
  forall i, (i < npoints e)%nat -> 0 <= T' i <= T i /\ 0 <= TD' i <= TD i.
Proof.
  intros reg parse s s' p p' e F T TD N T' TD' N' HS HR HS' HR' Hp Hs Hp' Hs' Hu Hd Hl He Eh Et H0 Up i Hi.
  destruct (setup_inv _ _ _ _ _ _ _ _ _ HS HR) as (_ & HI). destruct (setup_inv _ _ _ _ _ _ _ _ _ HS' HR') as (_ & HI').
  destruct (HI i Hi) as (-> & -> & _). destruct (HI' i Hi) as (-> & -> & _).
  pose proof (warm p' Hp' Hs' F (npoints e) H0 Up) as W.
  destruct (W i ltac:(lia)) as (W1 & W2 & _).
  enough (K : forall j, (j < i)%nat -> dT_dt p' (F j) (eu p' F j) (el p' F j) <= dT_dt p (F j) (eu p' F j) (el p' F j) /\
    dTD_dt p' (eu p' F j) (el p' F j) <= dTD_dt p (eu p' F j) (el p' F j)).
  { destruct (compare_runs p p' Hp Hs Et F i K i (le_n i)). split; lra. }
  intros j Hj. destruct (W j ltac:(lia)) as (J1 & J2 & J3). destruct (J3 ltac:(lia)) as (J4 & J5).
  pose proof (pC_pos p Hp) as PC. pose proof (pCD_pos p Hp) as PCD. pose proof (pC_pos p' Hp') as PC'. pose proof (pCD_pos p' Hp') as PCD'.
  pose proof Hp as (P1 & P2 & P3 & P4 & P5 & P6 & P7). pose proof Hp' as (P1' & P2' & P3' & P4' & P5' & P6' & P7').
  pose proof (cap_le _ _ Hu) as LC. pose proof (cap_le _ _ Hd) as LCD. fold (p_C p) (p_C p') in LC. fold (p_CD p) (p_CD p') in LCD.
  rewrite eu_S in J4. rewrite el_S in J5.
  set (t := eu p' F j) in *. set (td := el p' F j) in *.
  assert (R1 : 0 <= dT_dt p' (F j) t td).
  { apply Rmult_le_reg_l with (p_dt p'); [assumption|]. lra. }
  assert (G : 0 <= F j - (p_lambda0 p' - p_a p' * t) * t - p_eps p' * p_eta p' * (t - td)).
  { unfold dT_dt in R1. apply Rmult_le_reg_r with (/ p_C p'); [apply Rinv_0_lt_compat; assumption|].
    rewrite Rmult_0_l. exact R1. }
  split.
  - unfold dT_dt. eapply Rle_trans; [apply div_le; [exact G|exact PC|exact LC]|].
    unfold Rdiv. apply Rmult_le_compat_r; [left; apply Rinv_0_lt_compat, PC|].
    rewrite P4, P4', Eh.
    assert (p_lambda0 p * t <= p_lambda0 p' * t) by (apply Rmult_le_compat_r; lra).
    assert (p_eps p * (p_eta p * (t - td)) <= p_eps p' * (p_eta p * (t - td))).
    { apply Rmult_le_compat_r; [apply Rmult_le_pos; lra|assumption]. }
    lra.
  - unfold dTD_dt. rewrite Eh. apply div_le; [apply Rmult_le_pos; lra|exact PCD|exact LCD].
Qed.

(** Impulse-response model: larger sensitivities give more warming under every
    forcing that is never negative, for every step size. *)
Lemma box_q q d dt F n : box_run q d dt F n = q * box_run 1 d dt F n.
Proof. induction n as [|n IH]; cbn [box_run]; [ring|]. rewrite IH. unfold box_solution. ring. Qed.
Lemma box_mono_q q q' d dt F n : 0 < d -> 0 < dt -> 0 <= q <= q' -> (forall i, (i < n)%nat -> 0 <= F i) ->
  0 <= box_run q d dt F n <= box_run q' d dt F n.
Proof.
  intros Hd Ht Hq HF. rewrite (box_q q), (box_q q').
  assert (B : 0 <= box_run 1 d dt F n).
  { pose proof (run_order 1 d dt Hd Ht (fun _ => 0) F n ltac:(lra) HF) as K. rewrite run_zero in K by reflexivity. exact K. }
  split; [apply Rmult_le_pos; lra|]. apply Rmult_le_compat_r; lra.
Qed.
Theorem c59_sensitivities : forall reg parse s s' p q1' q2' e e' F T1 T2 T N T1' T2' T' N',
  ir_setup reg parse s p e F -> ir_reports reg s e T1 T2 T N ->
  ir_setup reg parse s' (with_sensitivities q1' q2' p) e' F -> ir_reports reg s' e' T1' T2' T' N' ->
  npoints e' = npoints e -> positive_ir p -> p_q1 p <= q1' -> p_q2 p <= q2' ->
  (forall i, (i < npoints e)%nat -> 0 <= F i) ->
  forall i, (i < npoints e)%nat -> 0 <= T1 i <= T1' i /\ 0 <= T2 i <= T2' i /\ 0 <= T i <= T' i.
Proof.
  intros reg parse s s' p q1' q2' e e' F T1 T2 T N T1' T2' T' N' HS HR HS' HR' L (Q1 & Q2 & D1 & D2 & Pt) H1 H2 HF i Hi.
  destruct (ir_setup_inv _ _ _ _ _ _ _ _ _ _ HS HR) as (HI & _). destruct (ir_setup_inv _ _ _ _ _ _ _ _ _ _ HS' HR') as (HI' & _).
  destruct (HI i Hi) as (-> & -> & ->). destruct (HI' i ltac:(lia)) as (-> & -> & ->).
  unfold bt1, bt2. cbn [with_sensitivities p_q1 p_q2 p_d1 p_d2 p_idt].
  pose proof (box_mono_q (p_q1 p) q1' (p_d1 p) (p_idt p) F i D1 Pt ltac:(lra) ltac:(intros; apply HF; lia)).
  pose proof (box_mono_q (p_q2 p) q2' (p_d2 p) (p_idt p) F i D2 Pt ltac:(lra) ltac:(intros; apply HF; lia)).
  lra.
Qed.

(** Longer timescales slow the warming under rising forcing, for every step size. *)
Lemma box_mono_d q d d' dt F n : 0 < q -> 0 < d -> d <= d' -> 0 < dt ->
  0 <= F 0%nat -> (forall i, (S i < n)%nat -> F i <= F (S i)) ->
  forall i, (i < n)%nat -> 0 <= box_run q d' dt F i <= box_run q d dt F i /\ box_run q d' dt F i <= q * F i.
Proof.
  intros Hq Hd Hdd Ht H0 Up. assert (Hd' : 0 < d') by lra.
  pose proof (k_range d dt Hd Ht) as K1. pose proof (k_range d' dt Hd' Ht) as K2.
  assert (K12 : exp (- dt / d) <= exp (- dt / d')).
  { destruct Hdd as [Hdd| ->]; [|lra]. left. apply exp_increasing. unfold Rdiv. rewrite <- !Ropp_mult_distr_l. apply Ropp_lt_contravar.
    apply Rmult_lt_compat_l; [assumption|]. apply Rinv_lt_contravar; [apply pos_mul; assumption|assumption]. }
  induction i as [|i IH]; intros Hi.
  - cbn [box_run]. assert (0 <= q * F 0%nat) by (apply Rmult_le_pos; lra). lra.
  - destruct (IH ltac:(lia)) as (I1 & I2). specialize (Up i Hi). rewrite !run_S.
    set (x := exp (- dt / d)) in *. set (x' := exp (- dt / d')) in *.
    set (a := box_run q d dt F i) in *. set (b := box_run q d' dt F i) in *.
    assert (0 <= x' * b) by (apply Rmult_le_pos; lra).
    assert (0 <= (1 - x') * (q * F i - 0)) by (apply Rmult_le_pos; lra).
    assert (0 <= (x' - x) * (q * F i - b)) by (apply Rmult_le_pos; lra).
    assert (0 <= x * (a - b)) by (apply Rmult_le_pos; lra).
    assert (0 <= x' * (q * F i - b)) by (apply Rmult_le_pos; lra).
    assert (q * F i <= q * F (S i)) by (apply Rmult_le_compat_l; lra).
    split; [split; lra|lra].
Qed.
Theorem c59_timescales : forall reg parse s s' p d1' d2' e e' F T1 T2 T N T1' T2' T' N',
  ir_setup reg parse s p e F -> ir_reports reg s e T1 T2 T N ->
  ir_setup reg parse s' (with_timescales d1' d2' p) e' F -> ir_reports reg s' e' T1' T2' T' N' ->
  npoints e' = npoints e -> positive_ir p -> p_d1 p <= d1' -> p_d2 p <= d2' ->
  0 <= F 0%nat -> (forall i, (S i < npoints e)%nat -> F i <= F (S i)) ->
  forall i, (i < npoints e)%nat -> 0 <= T1' i <= T1 i /\ 0 <= T2' i <= T2 i /\ 0 <= T' i <= T i.
Proof.
  intros reg parse s s' p d1' d2' e e' F T1 T2 T N T1' T2' T' N' HS HR HS' HR' L (Q1 & Q2 & D1 & D2 & Pt) H1 H2 H0 Up i Hi.
  destruct (ir_setup_inv _ _ _ _ _ _ _ _ _ _ HS HR) as (HI & _). destruct (ir_setup_inv _ _ _ _ _ _ _ _ _ _ HS' HR') as (HI' & _).
  destruct (HI i Hi) as (-> & -> & ->). destruct (HI' i ltac:(lia)) as (-> & -> & ->).
  unfold bt1, bt2. cbn [with_timescales p_q1 p_q2 p_d1 p_d2 p_idt].
  destruct (box_mono_d (p_q1 p) (p_d1 p) d1' (p_idt p) F (npoints e) Q1 D1 H1 Pt H0 Up i Hi) as (A & _).
  destruct (box_mono_d (p_q2 p) (p_d2 p) d2' (p_idt p) F (npoints e) Q2 D2 H2 Pt H0 Up i Hi) as (B & _).
  lra.
Qed.

(** The hypotheses can be met with different parameters and results. *)
Example c59_two_layer_case : forall reg parse, exists s s' e T TD N T' TD' N',
  tl_setup reg parse s ex_tl e (fun i => INR i) /\ tl_reports reg s e T TD N /\ npoints e = 4%nat /\
  tl_setup reg parse s' (with_lambda0 2 ex_tl) e (fun i => INR i) /\ tl_reports reg s' e T' TD' N' /\
  positive_tl ex_tl /\ small_step (with_lambda0 2 ex_tl) /\ T' 3%nat < T 3%nat.
Proof.
  intros reg parse. destruct (tl_run_exists reg parse ex_tl (fun i => INR i) 4) as (s & e & Hr & Hv & Hn & HF & HR); cbn; try lra.
  destruct (tl_model reg parse (with_lambda0 2 ex_tl)) as (s' & Hr' & Hv').
  exists s, s', e. do 6 eexists. split; [split; auto|]. split; [exact HR|]. split; [exact Hn|]. split; [split; auto|].
  split; [apply (run_reports reg parse s' _ e _ Hr' Hv' HF); cbn; lra|].
  split; [unfold positive_tl; cbn; lra|]. split; [unfold small_step, p_C, p_CD, water_capacity; cbn; lra|].
  unfold eu, el; cbn; unfold dT_dt, dTD_dt, p_C, p_CD, water_capacity; cbn; lra.
Qed.
Example c59_slower_case : forall reg parse, let p' := mkTLPhys 80 2000 (3/2) 0 (6/5) (4/5) 31557600 in
  exists s s' e T TD N T' TD' N',
  tl_setup reg parse s ex_tl e (fun i => INR i) /\ tl_reports reg s e T TD N /\ npoints e = 4%nat /\
  tl_setup reg parse s' p' e (fun i => INR i) /\ tl_reports reg s' e T' TD' N' /\
  positive_tl p' /\ small_step p' /\ T' 3%nat < T 3%nat /\ TD' 3%nat < TD 3%nat.
Proof.
  intros reg parse p'. destruct (tl_run_exists reg parse ex_tl (fun i => INR i) 4) as (s & e & Hr & Hv & Hn & HF & HR); cbn; try lra.
  destruct (tl_model reg parse p') as (s' & Hr' & Hv').
  exists s, s', e. do 6 eexists. split; [split; auto|]. split; [exact HR|]. split; [exact Hn|]. split; [split; auto|].
  split; [apply (run_reports reg parse s' _ e _ Hr' Hv' HF); cbn; lra|].
  split; [unfold positive_tl; cbn; lra|]. split; [unfold small_step, p_C, p_CD, water_capacity; cbn; lra|].
  unfold eu, el; cbn; unfold dT_dt, dTD_dt, p_C, p_CD, water_capacity; cbn; lra.
Qed.
(** After a pulse a deeper layer stays warmer, so rising forcing is needed. *)
Example c59_pulse : forall reg parse, let F := fun i => if (i =? 0)%nat then 4 else 0 in
  let p := mkTLPhys (21/5) 1200 (1/4) 0 1 (1/4) 31557600 in let p' := mkTLPhys (42/5) 1200 (1/4) 0 1 (1/4) 31557600 in
  exists s s' e T TD N T' TD' N',
  tl_setup reg parse s p e F /\ tl_reports reg s e T TD N /\ npoints e = 3%nat /\
  tl_setup reg parse s' p' e F /\ tl_reports reg s' e T' TD' N' /\
  positive_tl p /\ small_step p /\ positive_tl p' /\ small_step p' /\ T 2%nat < T' 2%nat.
Proof.
  intros reg parse F p p'. destruct (tl_run_exists reg parse p F 3) as (s & e & Hr & Hv & Hn & HF & HR); cbn; try lra.
  destruct (tl_model reg parse p') as (s' & Hr' & Hv').
  exists s, s', e. do 6 eexists. split; [split; auto|]. split; [exact HR|]. split; [exact Hn|]. split; [split; auto|].
  split; [apply (run_reports reg parse s' _ e _ Hr' Hv' HF); cbn; lra|].
  do 4 (split; [unfold positive_tl, small_step, p_C, p_CD, water_capacity; cbn; lra|]).
  unfold eu, el; cbn; unfold dT_dt, dTD_dt, p_C, p_CD, water_capacity; cbn; lra.
Qed.
Example c59_impulse_response_case : forall reg parse, exists s s' s'' e e' e'' T1 T2 T N T1' T2' T' N' T1'' T2'' T'' N'',
  ir_setup reg parse s ex_ir2 e (fun i => INR i) /\ npoints e = 4%nat /\ ir_reports reg s e T1 T2 T N /\
  ir_setup reg parse s' (with_sensitivities 1 2 ex_ir2) e' (fun i => INR i) /\ npoints e' = 4%nat /\ ir_reports reg s' e' T1' T2' T' N' /\
  ir_setup reg parse s'' (with_timescales 20 1000 ex_ir2) e'' (fun i => INR i) /\ npoints e'' = 4%nat /\ ir_reports reg s'' e'' T1'' T2'' T'' N'' /\
  positive_ir ex_ir2 /\ p_q1 ex_ir2 <= 1 /\ p_q2 ex_ir2 <= 2 /\ p_d1 ex_ir2 <= 20 /\ p_d2 ex_ir2 <= 1000.
Proof.
  intros reg parse.
  destruct (ir_run_eff reg parse ex_ir2 (fun i => INR i) 4) as (s & e & T1 & T2 & T & N & K1 & K2 & K3 & _); [unfold convertible_ir; cbn; lra|cbn; lra|].
  destruct (ir_run_eff reg parse (with_sensitivities 1 2 ex_ir2) (fun i => INR i) 4) as (s' & e' & T1' & T2' & T' & N' & K1' & K2' & K3' & _); [unfold convertible_ir; cbn; lra|cbn; lra|].
  destruct (ir_run_eff reg parse (with_timescales 20 1000 ex_ir2) (fun i => INR i) 4) as (s'' & e'' & T1'' & T2'' & T'' & N'' & K1'' & K2'' & K3'' & _); [unfold convertible_ir; cbn; lra|cbn; lra|].
  exists s, s', s'', e, e', e'', T1, T2, T, N, T1', T2', T', N', T1'', T2'', T'', N''. do 9 (split; [assumption|]).
  unfold positive_ir. cbn. lra.
Qed.
