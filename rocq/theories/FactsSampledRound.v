(** Property C71, continued: the doubles of a run against the solution under a forcing that changes all the time. *)
From Coq Require Import List String QArith Reals Qreals Bool Arith Lra Lia Psatz.
From Flocq Require Import Core IEEE754.BinarySingleNaN.
From Verif Require Import Arith Pint Base TwoLayer Impulse Scm Api Spec Demo Exact SpecReal SpecRefine SpecSampled SpecRound SpecPhysical
  Float RealUnits RealGeo RealEuler RealBox RealEquiv RealTrace FloatPhys FloatPert FactsFloat FactsRefine FactsPhys FactsSampled.
Import ListNotations.
Local Open Scope R_scope.

Lemma close_trans {bexp nd sd rf} (l : list (num (fenv bexp nd sd rf))) X Y a b :
  close_series bexp nd sd rf l X a -> (forall i, (i < List.length l)%nat -> Rabs (X i - Y i) <= b) ->
  close_series bexp nd sd rf l Y (a + b).
Proof.
  intros H K i z Hz. destruct (H i z Hz) as (F & B). split; [exact F|].
  assert (Hi : (i < List.length l)%nat) by (apply nth_error_Some; rewrite Hz; discriminate).
  replace (B2R z - Y i) with ((B2R z - X i) + (X i - Y i)) by ring.
  eapply Rle_trans; [apply Rabs_triang|]. apply Rplus_le_compat; [exact B|apply K, Hi].
Qed.
Lemma box_run_exact q d dt F : d <> 0 -> exact_box_run q d dt F (box_run q d dt F).
Proof.
  intros Hd. split; [reflexivity|]. intros i.
  exists (box_solution q d (F i) (box_run q d dt F i)). split; [|reflexivity]. split; [exact (proj1 (box_ode_exists q d (F i) (box_run q d dt F i) dt Hd))|].
  exact (proj2 (box_ode_exists q d (F i) (box_run q d dt F i) dt Hd)).
Qed.

(** Everything added up: parameters and driver in whatever units the user chose, rounded conversion
    factors, binary64 arithmetic, the model's own steps, and a forcing that changes within them. *)
Theorem c71_two_layer_binary64 : forall reg bexp rf parse s p e F G M D Y YD,
  let E := fenv bexp (rg_ndim reg) (rg_dim reg) rf in
  accurate_registry reg rf -> tl_reachable E parse s ->
  tl_stands_for reg bexp rf s p -> ordinary_tl p -> series_stands_for reg bexp rf e F u_Wm2 ->
  p_dt p * ((p_lambda0 p + p_eps p * p_eta p) / p_C p + p_eta p / p_CD p) <= 1 ->
  half 42 * (1 + theta (coefficients p)) <= damping (coefficients p) ->
  ordinary M -> ordinary (p_lambda0 p * M) ->
  (forall i, (i < List.length (mags e))%nat -> Rabs (F i) <= p_lambda0 p * M) ->
  two_layer_forced p G Y YD -> stays_within (p_dt p) D G F (List.length (mags e)) ->
  exists U L N, tl_gives bexp (rg_ndim reg) (rg_dim reg) rf s e U L N /\
    close_series bexp (rg_ndim reg) (rg_dim reg) rf U (fun i => Y (INR i * p_dt p))
      (half 42 * M / damping (coefficients p) + p_dt p * (p_lambda0 p * M) / p_C p + D / p_lambda0 p) /\
    close_series bexp (rg_ndim reg) (rg_dim reg) rf L (fun i => YD (INR i * p_dt p))
      ((1 + theta (coefficients p)) * (half 42 * M / damping (coefficients p)) +
       2 * p_eta p / (p_CD p * sqrt (discriminant p)) * (p_dt p * (p_lambda0 p * M) / p_C p) + D / p_lambda0 p).
Proof.
  intros reg bexp rf parse s p e F G M D Y YD E acc Hr HS HO He Hdt Hk OM OF HF HG HW.
  pose proof HO as (O1 & O2 & O3 & O4 & O5 & O6 & O7).
  pose proof (ordinary_pos _ O1) as P1. pose proof (ordinary_pos _ O2) as P2. pose proof (ordinary_pos _ O3) as P3.
  pose proof (ordinary_pos _ O5) as P5. pose proof (ordinary_pos _ O6) as P6. pose proof (ordinary_pos _ O7) as P7.
  assert (HP : convertible_tl p) by (repeat split; assumption).
  pose proof (exact_exists p HP P7 F) as HE.
  destruct (c60_two_layer reg bexp rf parse s p e F M _ _ acc Hr HS HO He Hdt Hk OM OF HF HE) as (U & L & N & Hg & A & B).
  exists U, L, N. split; [exact Hg|]. pose proof Hg as (s' & _ & _ & LU & LL & _).
  assert (K : forall i, (i < List.length (mags e))%nat ->
    Rabs (box_run (gq1 (p_C p) (p_CD p) (p_lambda0 p) (p_eps p) (p_eta p)) (gtau1 (p_C p) (p_CD p) (p_lambda0 p) (p_eps p) (p_eta p)) (p_dt p) F i +
          box_run (gq2 (p_C p) (p_CD p) (p_lambda0 p) (p_eps p) (p_eta p)) (gtau2 (p_C p) (p_CD p) (p_lambda0 p) (p_eps p) (p_eta p)) (p_dt p) F i -
          Y (INR i * p_dt p)) <= D / p_lambda0 p /\
    Rabs (gphi1 (p_C p) (p_CD p) (p_lambda0 p) (p_eps p) (p_eta p) * box_run (gq1 (p_C p) (p_CD p) (p_lambda0 p) (p_eps p) (p_eta p)) (gtau1 (p_C p) (p_CD p) (p_lambda0 p) (p_eps p) (p_eta p)) (p_dt p) F i +
          gphi2 (p_C p) (p_CD p) (p_lambda0 p) (p_eps p) (p_eta p) * box_run (gq2 (p_C p) (p_CD p) (p_lambda0 p) (p_eps p) (p_eta p)) (gtau2 (p_C p) (p_CD p) (p_lambda0 p) (p_eps p) (p_eta p)) (p_dt p) F i -
          YD (INR i * p_dt p)) <= D / p_lambda0 p).
  { intros i Hi. pose proof (within_pos _ _ _ _ _ (Rlt_le _ _ P7) (Nat.le_lt_trans _ _ _ (Nat.le_0_l i) Hi) HW) as D0.
    exact (held_close_layers p HP P7 F G Y YD _ _ D _ HG HE HW D0 i (Nat.lt_le_incl _ _ Hi)). }
  split.
  - refine (close_trans _ _ _ _ _ A _). intros i Hi. apply (K i). rewrite <- LU. exact Hi.
  - refine (close_trans _ _ _ _ _ B _). intros i Hi. apply (K i). rewrite <- LL. exact Hi.
Qed.
(** The same for the impulse-response model. *)
Theorem c71_impulse_response_binary64 : forall reg bexp rf parse s p e F G M D T1 T2 T N Y1 Y2,
  let E := fenv bexp (rg_ndim reg) (rg_dim reg) rf in
  good_exp bexp -> accurate_registry reg rf -> ir_reachable E parse s ->
  ir_stands_for reg bexp rf s p -> ordinary_ir p -> series_stands_for reg bexp rf e F u_Wm2 ->
  ir_gives bexp (rg_ndim reg) (rg_dim reg) rf s e T1 T2 T N ->
  half 43 <= 1 - exp (- p_idt p / p_d1 p) -> half 43 <= 1 - exp (- p_idt p / p_d2 p) -> ordinary M ->
  (forall i, (i < List.length (mags e))%nat -> Rabs (F i) <= two 100 /\ Rabs (p_q1 p * F i) <= M /\ Rabs (p_q2 p * F i) <= M) ->
  box_forced (p_q1 p) (p_d1 p) G Y1 -> box_forced (p_q2 p) (p_d2 p) G Y2 ->
  stays_within (p_idt p) D G F (List.length (mags e)) ->
  close_series bexp (rg_ndim reg) (rg_dim reg) rf T1 (fun i => Y1 (INR i * p_idt p))
    (half 43 * M / (1 - exp (- p_idt p / p_d1 p)) + p_q1 p * D) /\
  close_series bexp (rg_ndim reg) (rg_dim reg) rf T2 (fun i => Y2 (INR i * p_idt p))
    (half 43 * M / (1 - exp (- p_idt p / p_d2 p)) + p_q2 p * D) /\
  close_series bexp (rg_ndim reg) (rg_dim reg) rf T (fun i => Y1 (INR i * p_idt p) + Y2 (INR i * p_idt p))
    (half 43 * M / (1 - exp (- p_idt p / p_d1 p)) + half 43 * M / (1 - exp (- p_idt p / p_d2 p)) + half 51 * M + (p_q1 p + p_q2 p) * D).
Proof.
  intros reg bexp rf parse s p e F G M D T1 T2 T N Y1 Y2 E Hx acc Hr HS HO He Hg G1 G2 OM HF H1 H2 HW.
  pose proof HO as (O1 & O2 & O3 & O4 & O5).
  pose proof (ordinary_pos _ O1) as P1. pose proof (ordinary_pos _ O2) as P2. pose proof (ordinary_pos _ O3) as P3.
  pose proof (ordinary_pos _ O4) as P4. pose proof (ordinary_pos _ O5) as P5.
  destruct (c60_impulse_response reg bexp rf parse s p e F M T1 T2 T N _ _ Hx acc Hr HS HO He Hg G1 G2 OM HF
    (box_run_exact (p_q1 p) (p_d1 p) (p_idt p) F (Rgt_not_eq _ _ P3)) (box_run_exact (p_q2 p) (p_d2 p) (p_idt p) F (Rgt_not_eq _ _ P4))) as (A & B & C).
  assert (LEN : List.length T1 = List.length (mags e) /\ List.length T2 = List.length (mags e) /\ List.length T = List.length (mags e)).
  { destruct (series_read reg bexp rf acc e F u_Wm2 eq_refl He) as (F' & HF1 & _).
    { intros i Hi. eapply Rle_trans; [apply HF, Hi|]. apply two_le. lia. }
    destruct (ir_gives_series bexp _ _ rf s e F' T1 T2 T N Hg HF1) as (fs & Ser & Len & _). destruct Ser as (L1 & L2 & L3 & _).
    rewrite <- Len. auto. }
  destruct LEN as (LE1 & LE2 & LE3).
  assert (K1 : forall i, (i < List.length (mags e))%nat -> Rabs (box_run (p_q1 p) (p_d1 p) (p_idt p) F i - Y1 (INR i * p_idt p)) <= p_q1 p * D).
  { intros i Hi. pose proof (within_pos _ _ _ _ _ (Rlt_le _ _ P5) (Nat.le_lt_trans _ _ _ (Nat.le_0_l i) Hi) HW) as D0.
    apply (box_within _ _ _ D G F Y1 _ (Rlt_le _ _ P1) P3 P5 H1 HW D0). lia. }
  assert (K2 : forall i, (i < List.length (mags e))%nat -> Rabs (box_run (p_q2 p) (p_d2 p) (p_idt p) F i - Y2 (INR i * p_idt p)) <= p_q2 p * D).
  { intros i Hi. pose proof (within_pos _ _ _ _ _ (Rlt_le _ _ P5) (Nat.le_lt_trans _ _ _ (Nat.le_0_l i) Hi) HW) as D0.
    apply (box_within _ _ _ D G F Y2 _ (Rlt_le _ _ P2) P4 P5 H2 HW D0). lia. }
  split; [|split].
  - refine (close_trans _ _ _ _ _ A _). intros i Hi. apply K1. rewrite <- LE1. exact Hi.
  - refine (close_trans _ _ _ _ _ B _). intros i Hi. apply K2. rewrite <- LE2. exact Hi.
  - refine (close_trans _ _ _ _ _ C _). intros i Hi. specialize (K1 i ltac:(rewrite <- LE3; exact Hi)). specialize (K2 i ltac:(rewrite <- LE3; exact Hi)).
    match goal with |- Rabs (?a + ?b - (?x + ?y)) <= _ => replace (a + b - (x + y)) with ((a - x) + (b - y)) by ring end.
    eapply Rle_trans; [apply Rabs_triang|]. rewrite Rmult_plus_distr_r. apply Rplus_le_compat; assumption.
Qed.

(** ** Cases: the forcing is the parabola through the three driver values. *)
Definition parabola (dt t : R) : R := 4 + 13/2 * (t / dt) - 11/2 * ((t / dt) * (t / dt)).
Lemma parabola_cont dt t : continuity_pt (parabola dt) t.
Proof.
  unfold parabola. apply (continuity_pt_minus (fun t => 4 + 13/2 * (t / dt)) (fun t => 11/2 * ((t / dt) * (t / dt)))).
  - apply (continuity_pt_plus (fun _ => 4) (fun t => 13/2 * (t / dt))); [apply continuity_pt_const; now intros a b|].
    apply (continuity_pt_scal (fun t => t / dt)). apply cont_ext with (fun s => / dt * s); [intros; unfold Rdiv; ring|apply ramp_cont].
  - apply (continuity_pt_scal (fun t => t / dt * (t / dt))).
    assert (C : continuity_pt (fun t => t / dt) t) by (apply cont_ext with (fun s => / dt * s); [intros; unfold Rdiv; ring|apply ramp_cont]).
    apply (continuity_pt_mult (fun t => t / dt) (fun t => t / dt)); exact C.
Qed.
Lemma parabola_within dt : 0 < dt -> stays_within dt 21 (parabola dt) fcase_F 3.
Proof.
  intros Hd i t Hi Ht. rewrite time_S in Ht. unfold parabola. set (x := t / dt).
  assert (E : t = x * dt) by (unfold x; field; lra). rewrite E in Ht.
  assert (B : INR i <= x <= INR i + 1).
  { split; (apply Rmult_le_reg_r with dt; [exact Hd|]); lra. }
  destruct i as [|[|[|i]]]; [| | |lia]; cbn in B; cbn [fcase_F]; apply Rabs_le; split; nra.
Qed.
Lemma parabola_samples dt : 0 < dt -> forall i, (i < 3)%nat -> fcase_F i = parabola dt (INR i * dt).
Proof.
  intros Hd i Hi. unfold parabola. destruct i as [|[|[|i]]]; [| | |lia]; cbn [fcase_F INR]; field; lra.
Qed.
Example c71_two_layer_binary64_case : forall bexp parse, exists s Y YD,
  accurate_registry si (rounded_factors si) /\
  tl_reachable (phys_env bexp) parse s /\ tl_stands_for si bexp (rounded_factors si) s phys_p /\ ordinary_tl phys_p /\
  series_stands_for si bexp (rounded_factors si) (phys_erf bexp) fcase_F u_Wm2 /\
  p_dt phys_p * ((p_lambda0 phys_p + p_eps phys_p * p_eta phys_p) / p_C phys_p + p_eta phys_p / p_CD phys_p) <= 1 /\
  half 42 * (1 + theta (coefficients phys_p)) <= damping (coefficients phys_p) /\
  ordinary 4 /\ ordinary (p_lambda0 phys_p * 4) /\ (forall i, Rabs (fcase_F i) <= p_lambda0 phys_p * 4) /\
  two_layer_forced phys_p (parabola (p_dt phys_p)) Y YD /\
  stays_within (p_dt phys_p) 21 (parabola (p_dt phys_p)) fcase_F (List.length (mags (phys_erf bexp))) /\
  (forall i, (i < 3)%nat -> fcase_F i = parabola (p_dt phys_p) (INR i * p_dt phys_p)).
Proof.
  intros bexp parse. destruct (c60_two_layer_case bexp parse) as (s & T & TD & K1 & K2 & K3 & K4 & _ & _ & K5 & K6 & K7 & K8 & K9 & K10 & _).
  assert (HP : convertible_tl phys_p) by (unfold convertible_tl, phys_p; cbn; lra).
  destruct (proj2 (c71_exact_solutions 1 1 phys_p (parabola (p_dt phys_p)) ltac:(lra) HP (fun t _ => parabola_cont _ t))) as (Y & YD & HY & _).
  exists s, Y, YD. do 11 (split; [assumption|]). assert (0 < p_dt phys_p) by (cbn; lra).
  split; [apply parabola_within; assumption|apply parabola_samples; assumption].
Qed.
Example c71_impulse_response_binary64_case : forall parse, exists s T1 T2 T N Y1 Y2,
  good_exp floor_exp /\ accurate_registry si month_factors /\ ir_reachable month_env parse s /\
  ir_stands_for si floor_exp month_factors s phys_ip /\ ordinary_ir phys_ip /\
  series_stands_for si floor_exp month_factors month_erf fcase_F u_Wm2 /\
  ir_gives floor_exp 4 si_dim month_factors s month_erf T1 T2 T N /\
  half 43 <= 1 - exp (- p_idt phys_ip / p_d1 phys_ip) /\ half 43 <= 1 - exp (- p_idt phys_ip / p_d2 phys_ip) /\ ordinary 4 /\
  (forall i, Rabs (fcase_F i) <= two 100 /\ Rabs (p_q1 phys_ip * fcase_F i) <= 4 /\ Rabs (p_q2 phys_ip * fcase_F i) <= 4) /\
  box_forced (p_q1 phys_ip) (p_d1 phys_ip) (parabola (p_idt phys_ip)) Y1 /\
  box_forced (p_q2 phys_ip) (p_d2 phys_ip) (parabola (p_idt phys_ip)) Y2 /\
  stays_within (p_idt phys_ip) 21 (parabola (p_idt phys_ip)) fcase_F (List.length (mags month_erf)) /\
  (forall i, (i < 3)%nat -> fcase_F i = parabola (p_idt phys_ip) (INR i * p_idt phys_ip)).
Proof.
  intros parse.
  destruct (c60_impulse_response_case parse) as (s & T1 & T2 & T & N & X1 & X2 & K1 & K2 & K3 & K4 & K5 & _ & K6 & K7 & K8 & K9 & K10 & K11 & _).
  destruct (box_forced_exists (p_q1 phys_ip) (p_d1 phys_ip) (parabola (p_idt phys_ip)) ltac:(cbn; lra) (fun t _ => parabola_cont _ t)) as (Y1 & H1).
  destruct (box_forced_exists (p_q2 phys_ip) (p_d2 phys_ip) (parabola (p_idt phys_ip)) ltac:(cbn; lra) (fun t _ => parabola_cont _ t)) as (Y2 & H2).
  exists s, T1, T2, T, N, Y1, Y2. do 13 (split; [assumption|]). assert (0 < p_idt phys_ip) by (cbn; lra).
  split; [apply parabola_within; assumption|apply parabola_samples; assumption].
Qed.
