(** Property C60, continued: the reported heat uptake against the rate at which the exact solution stores heat. *)
From Coq Require Import List String QArith Qreals Reals Bool Arith Lra Lia Psatz.
From Flocq Require Import Core IEEE754.BinarySingleNaN.
From Verif Require FactsRun FactsConv.
From Verif Require Import Arith Pint Base TwoLayer Impulse Scm Api Spec Demo Exact SpecReal RealUnits RealConv RealGeo RealEuler RealBox RealEquiv
  GenTL GenTLHist GenIR GenIRHist Float SpecRound FloatTL FloatRun FloatBox SpecRefine FactsFloat FactsRefine SpecPhysical FloatPhys FloatPert FactsPhys.
Import ListNotations.
Local Open Scope R_scope.

(** The float formula of the heat uptake, whatever finite temperatures it is given. *)
Lemma uptake_near bexp nd sd rf (dt cu cl : b64) (M : R) : let E := fenv bexp nd sd rf in
  is_finite dt = true -> is_finite cu = true -> is_finite cl = true ->
  0 < B2R dt -> 0 < B2R cu -> 0 < B2R cl -> moderate (B2R dt) -> moderate_divisor (B2R dt) -> moderate (B2R cu) -> moderate (B2R cl) ->
  moderate_divisor (B2R cu) -> half 400 <= M -> moderate (2 * M) ->
  forall u d u' d' : b64, is_finite u = true -> is_finite d = true -> is_finite u' = true -> is_finite d' = true ->
  Rabs (B2R u' - B2R u) <= 4 * M -> Rabs (B2R d' - B2R d) <= 4 * M ->
  is_finite (calculate_next_rndt E dt d' d cl u' u cu : b64) = true /\
  Rabs (B2R (calculate_next_rndt E dt d' d cl u' u cu : b64) -
    (B2R cu * (B2R u' - B2R u) / B2R dt + B2R cl * (B2R d' - B2R d) / B2R dt)) <= half 50 * ((B2R cu + B2R cl) / B2R dt * (5 * M)).
Proof.
  intros E G1 G6 G7 S1 S6 S7 D1 Hdt D6 D7 D8 M1 M2 u d u' d' F1 F2 F3 F4 H1 H2.
  unfold moderate in *. fold P in *.
  destruct P_powers as (E2 & E3 & E4 & E5 & E6). destruct P_chain as (Q1 & Q2 & Q3 & Q4 & Q5 & Q6 & Q7).
  pose proof omega_pos as W. pose proof omega_le as W1. pose proof (half_pos 400) as H400.
  rewrite (Rabs_right (2 * M)) in M2 by lra. rewrite (Rabs_right (B2R cu)) in D6 by lra.
  rewrite (Rabs_right (B2R cl)) in D7 by lra. rewrite (Rabs_right (B2R dt)) in D1 by lra.
  assert (Pdt : B2R dt <> 0) by lra.
  assert (aux : forall (C x y : b64), is_finite C = true -> is_finite x = true -> is_finite y = true -> 0 < B2R C <= P ->
    Rabs (B2R x - B2R y) <= 4 * M ->
    ap 3 (Bdiv mode_NE (Bmult mode_NE C (Bminus mode_NE x y)) dt) (B2R C * (B2R x - B2R y) / B2R dt) ((B2R C * (4 * M) + omega) / B2R dt + omega) /\
    (B2R C * (4 * M) + omega) / B2R dt + omega <= 3 * P ^ 3).
  { intros C x y FC Fx Fy HC Hxy.
    pose proof (ap_dif0 _ _ Fx Fy ltac:(lra)) as A1. pose proof (ap_in _ FC) as AC. rewrite (Rabs_right (B2R C)) in AC by lra.
    pose proof (Rabs_pos (B2R x - B2R y)) as N0.
    assert (A1' : ap 1 (Bminus mode_NE x y) (B2R x - B2R y) (4 * M)) by (eapply ap_weaken; [exact A1|lia|exact Hxy]).
    assert (N1 : 0 <= B2R C * (4 * M)) by (apply Rmult_le_pos; lra).
    assert (K1 : B2R C * (4 * M) <= 2 * P ^ 2) by (replace (2 * P ^ 2) with (P * (2 * P)) by (rewrite E2; ring); apply mulle; lra).
    pose proof (ap_mul _ _ _ _ _ _ _ _ AC A1' ltac:(cbn; lia) ltac:(lra)) as A2. cbn [Nat.add] in A2.
    pose proof (divP (B2R C * (4 * M) + omega) (B2R dt) (2 * P ^ 2 + 1) ltac:(lra) ltac:(lra) Hdt) as K2.
    rewrite (Rabs_right (B2R dt)) in K2 by lra.
    replace ((2 * P ^ 2 + 1) * P) with (2 * P ^ 3 + P) in K2 by (rewrite E3; ring).
    pose proof (ap_div _ _ dt _ _ A2 Pdt ltac:(lia) ltac:(rewrite (Rabs_right (B2R dt)) by lra; lra)) as A3.
    rewrite (Rabs_right (B2R dt)) in A3 by lra. split; [exact A3|lra]. }
  destruct (aux cl d' d G7 F4 F2 ltac:(lra) H2) as [AL BL]. destruct (aux cu u' u G6 F3 F1 ltac:(lra) H1) as [AU BU].
  pose proof (ap_sum _ _ _ _ _ _ _ _ AU AL ltac:(lia) ltac:(lia) ltac:(lra)) as A. cbn [Nat.max] in A.
  assert (A' : ap 4 (calculate_next_rndt E dt d' d cl u' u cu : b64)
    (B2R cu * (B2R u' - B2R u) / B2R dt + B2R cl * (B2R d' - B2R d) / B2R dt)
    ((B2R cu * (4 * M) + omega) / B2R dt + omega + ((B2R cl * (4 * M) + omega) / B2R dt + omega))) by exact A.
  clear A. split; [exact (ap_fin _ _ _ _ A')|].
  pose proof (ap_err _ _ _ _ A') as Er. pose proof (ap_size _ _ _ _ A') as Sz.
  assert (Tiny : omega / B2R dt + omega + (omega / B2R dt + omega) <= (B2R cu + B2R cl) / B2R dt * M).
  { unfold moderate_divisor in *. rewrite (Rabs_right (B2R dt)) in * by lra. rewrite (Rabs_right (B2R cu)) in D8 by lra.
    rewrite P_half in *. pose proof omega_P4 as O4.
    apply Rmult_le_reg_r with (B2R dt); [lra|].
    replace ((omega / B2R dt + omega + (omega / B2R dt + omega)) * B2R dt) with (2 * omega * (1 + B2R dt)) by (field; lra).
    replace ((B2R cu + B2R cl) / B2R dt * M * B2R dt) with ((B2R cu + B2R cl) * M) by (field; lra).
    apply Rle_trans with (/ P * (omega * P ^ 4)).
    - replace (/ P * (omega * P ^ 4)) with (omega * P ^ 3) by (rewrite E4; field; lra). nra.
    - assert (0 < / P) by (apply Rinv_0_lt_compat; lra). apply mulle; try lra. apply Rmult_le_pos; lra. }
  assert (Sm : (B2R cu * (4 * M) + omega) / B2R dt + omega + ((B2R cl * (4 * M) + omega) / B2R dt + omega) <= (B2R cu + B2R cl) / B2R dt * (5 * M)).
  { replace ((B2R cu * (4 * M) + omega) / B2R dt + omega + ((B2R cl * (4 * M) + omega) / B2R dt + omega)) with
      ((B2R cu + B2R cl) / B2R dt * (4 * M) + (omega / B2R dt + omega + (omega / B2R dt + omega))) by (field; lra). lra. }
  pose proof grow_4 as G4. pose proof (grow_nonneg 4) as G4'.
  pose proof (Rabs_pos (B2R cu * (B2R u' - B2R u) / B2R dt + B2R cl * (B2R d' - B2R d) / B2R dt)) as Px.
  eapply Rle_trans; [exact Er|]. apply mulle; lra.
Qed.

(** A product with a coefficient read with errors. *)
Lemma coeff_pert C dt C' dt' x X : 0 < C -> 0 < dt -> rel (half 48) C C' -> rel (half 48) dt dt' -> Rabs x <= X ->
  Rabs (C' * x / dt' - C * x / dt) <= 4 * half 48 * (C / dt * X) /\ 0 < C' / dt' <= 2 * (C / dt).
Proof.
  intros PC Pt RC Rt Hx. destruct h_small as [H0 H1].
  pose proof (rel_bounds _ _ _ PC RC) as BC. pose proof (rel_bounds _ _ _ Pt Rt) as Bt.
  assert (QC : 0 < C') by nra. assert (Qt : 0 < dt') by nra.
  assert (Rx : rel (4 * half 48) (C / dt) (C' / dt')).
  { apply rel_weak with (half 48 + 2 * half 48 + half 48 * (2 * half 48)); [|nra]. unfold Rdiv. apply rel_mul; try assumption; try lra.
    apply rel_inv; try assumption; lra. }
  assert (K : 0 < C / dt) by (apply Rdiv_lt_0_compat; assumption). pose proof (rel_bounds _ _ _ K Rx) as B.
  split; [|split; [apply Rdiv_lt_0_compat; assumption|nra]].
  replace (C' * x / dt' - C * x / dt) with ((C' / dt' - C / dt) * x) by (field; lra). rewrite Rabs_mult.
  unfold rel in Rx. rewrite (Rabs_right (C / dt)) in Rx by lra.
  replace (4 * half 48 * (C / dt * X)) with (4 * half 48 * (C / dt) * X) by ring.
  apply mulle; try apply Rabs_pos; assumption.
Qed.

(** The doubles of the heat uptake against the recurrence with the user's parameters. *)
Lemma tl_uptake_near : forall reg bexp rf parse s p e F M U L N,
  let E := fenv bexp (rg_ndim reg) (rg_dim reg) rf in
  accurate_registry reg rf -> tl_reachable E parse s ->
  tl_stands_for reg bexp rf s p -> ordinary_tl p -> series_stands_for reg bexp rf e F u_Wm2 ->
  p_dt p * ((p_lambda0 p + p_eps p * p_eta p) / p_C p + p_eta p / p_CD p) <= 1 ->
  half 42 * (1 + theta (coefficients p)) <= damping (coefficients p) ->
  ordinary M -> ordinary (p_lambda0 p * M) ->
  (forall i, (i < List.length (mags e))%nat -> Rabs (F i) <= p_lambda0 p * M) ->
  tl_gives bexp (rg_ndim reg) (rg_dim reg) rf s e U L N ->
  close_series bexp (rg_ndim reg) (rg_dim reg) rf N (exact_uptakes (coefficients p) F)
    (half 40 * ((p_C p + p_CD p) / p_dt p) * ((1 + theta (coefficients p)) * M / damping (coefficients p))).
Proof.
  intros reg bexp rf parse s p e F M U L N E acc Hr HS HO He Hdt Hk OM OF HF Hg. subst E.
  destruct (tl_run_near reg bexp rf parse s p e F M U L N acc Hr HS HO He Hdt Hk OM OF HF Hg) as (NU & NL).
  destruct (tl_read reg bexp rf acc s p HS HO) as (c' & Hn & Hm & Ha & N1 & N2 & N3 & N4 & N5 & N6).
  pose proof HO as (O1 & O2 & O3 & O4 & O5 & O6 & O7).
  pose proof (ordinary_pos _ O1) as P1. pose proof (ordinary_pos _ O2) as P2. pose proof (ordinary_pos _ O3) as P3.
  pose proof (ordinary_pos _ O5) as P5. pose proof (ordinary_pos _ O6) as P6. pose proof (ordinary_pos _ O7) as P7.
  pose proof (ordinary_pos _ OM) as PM.
  assert (QC : 0 < p_C p) by (unfold p_C, water_capacity; lra). assert (QD : 0 < p_CD p) by (unfold p_CD, water_capacity; lra).
  destruct (series_read reg bexp rf acc e F u_Wm2 eq_refl He) as (F' & HF1 & HF2).
  { intros i Hi. eapply Rle_trans; [apply HF, Hi|]. destruct OF as [_ OF]. eapply Rle_trans; [exact OF|]. apply two_le. lia. }
  destruct (tl_gives_series bexp _ _ rf s e F' U L N Hg HF1) as (fs & Ser & Len & _).
  destruct (tl_nums bexp _ _ rf parse s c' Hr Hn) as (Ec & f1 & f2 & f3 & f4 & f5 & f6 & f7).
  pose proof Ser as (LU & LL & LN & Z & St).
  change (@List.length b64 U = @List.length b64 fs) in LU. change (@List.length b64 L = @List.length b64 fs) in LL.
  change (@List.length b64 N = @List.length b64 fs) in LN.
  set (c := coefficients p) in *. set (k := (p_C p + p_CD p) / p_dt p) in *. set (G := (1 + theta c) * M / damping c) in *.
  assert (Qx : 0 < p_dt p * ((p_lambda0 p + p_eps p * p_eta p) / p_C p) /\ 0 < p_dt p * (p_eta p / p_CD p)).
  { assert (0 < p_eps p * p_eta p) by (apply Rmult_lt_0_compat; assumption).
    split; (apply Rmult_lt_0_compat; [assumption|]); apply Rdiv_lt_0_compat; lra. }
  assert (st : stable_tl c).
  { unfold stable_tl. cbn [c coefficients n_dt n_lambda0 n_a n_eps n_eta n_C n_CD]. repeat (split; [assumption|]).
    split.
    - apply Rmult_le_reg_r with (/ p_C p); [now apply Rinv_0_lt_compat|]. rewrite Rinv_r by lra.
      replace (p_dt p * (p_lambda0 p + p_eps p * p_eta p) * / p_C p) with (p_dt p * ((p_lambda0 p + p_eps p * p_eta p) / p_C p)) by (field; lra). lra.
    - apply Rmult_le_reg_r with (/ p_CD p); [now apply Rinv_0_lt_compat|]. rewrite Rinv_r by lra.
      replace (p_dt p * p_eta p * / p_CD p) with (p_dt p * (p_eta p / p_CD p)) by (field; lra). lra. }
  destruct (damping_pos c st) as [Dp Dp1]. pose proof (theta_pos c st) as T1.
  assert (kp : 0 < k) by (unfold k; apply Rdiv_lt_0_compat; lra).
  assert (K1 : M <= G).
  { unfold G. apply Rmult_le_reg_r with (damping c); [lra|]. unfold Rdiv. rewrite Rmult_assoc, Rinv_l by lra.
    assert (0 <= theta c * M) by (apply Rmult_le_pos; lra). assert (M * damping c <= M * 1) by (apply Rmult_le_compat_l; lra). lra. }
  pose proof (half_pos 40) as h40.
  intros [|i] z Hz.
  - assert (Z3 : nth_error N 0 = Some (nQ (fenv bexp (rg_ndim reg) (rg_dim reg) rf) 0)).
    { apply Z. intros ->. destruct N; [discriminate Hz|discriminate LN]. }
    pose proof (some_inj _ _ (eq_trans (eq_sym Hz) (Z3 : nth_error (N : list b64) 0 = Some (b64_of_Q 0)))) as Q1. rewrite b64_zero in Q1. subst z.
    cbn [is_finite exact_uptakes B2R]. rewrite Rminus_0_r, Rabs_R0. split; [reflexivity|].
    apply Rmult_le_pos; [apply Rmult_le_pos|]; lra.
  - assert (Hi : (S i < @List.length b64 fs)%nat).
    { rewrite <- LN. apply nth_error_Some. intros K. pose proof (eq_trans (eq_sym Hz) K). discriminate. }
    destruct (nth_error fs i) as [f|] eqn:Ef; [|apply nth_error_None in Ef; lia].
    destruct (nth_error (U : list b64) i) as [u|] eqn:EU; [|apply nth_error_None in EU; lia].
    destruct (nth_error (L : list b64) i) as [d|] eqn:EL; [|apply nth_error_None in EL; lia].
    destruct (nth_error (U : list b64) (S i)) as [u'|] eqn:EU'; [|apply nth_error_None in EU'; lia].
    destruct (nth_error (L : list b64) (S i)) as [d'|] eqn:EL'; [|apply nth_error_None in EL'; lia].
    destruct (St i f u d Hi Ef EU EL) as (S1 & S2 & S3).
    pose proof (some_inj _ _ (eq_trans (eq_sym EU') S1)) as Q1. pose proof (some_inj _ _ (eq_trans (eq_sym EL') S2)) as Q2.
    cbv zeta in S3. rewrite <- Q1, <- Q2 in S3. pose proof (some_inj _ _ (eq_trans (eq_sym Hz) S3)) as Q3.
    destruct (NU i u EU) as (F1 & B1). destruct (NL i d EL) as (F2 & B2).
    destruct (NU (S i) u' EU') as (F3 & B3). destruct (NL (S i) d' EL') as (F4 & B4). cbv beta in B1, B2, B3, B4.
    set (r := half 42 * M / damping c) in *.
    assert (HF' : forall j, (j < @List.length b64 fs)%nat -> Rabs (F j) <= n_lambda0 c * M).
    { intros j Hj. apply HF. rewrite <- Len. exact Hj. }
    destruct (exact_bound c st F M (@List.length b64 fs) i HF' ltac:(lra) ltac:(lia)) as [X1 X2].
    destruct (exact_bound c st F M (@List.length b64 fs) (S i) HF' ltac:(lra) ltac:(lia)) as [X3 X4].
    unfold exact_uptakes.
    set (T := fst (exact_run c F i)) in *. set (TD := snd (exact_run c F i)) in *.
    set (T' := fst (exact_run c F (S i))) in *. set (TD' := snd (exact_run c F (S i))) in *.
    pose proof (half_pos 42) as h42.
    assert (R0 : 0 <= r) by (unfold r; apply Rmult_le_pos; [apply Rmult_le_pos; lra|left; now apply Rinv_0_lt_compat]).
    assert (R1 : (1 + theta c) * r = half 42 * G) by (unfold r, G; field; lra).
    assert (R2 : (1 + theta c) * r <= M).
    { apply Rmult_le_reg_l with (damping c); [lra|]. unfold r.
      replace (damping c * ((1 + theta c) * (half 42 * M / damping c))) with (half 42 * (1 + theta c) * M) by (field; lra).
      apply Rmult_le_compat_r; lra. }
    assert (R3 : r <= (1 + theta c) * r) by (assert (0 <= theta c * r) by (apply Rmult_le_pos; lra); lra).
    apply Rabs_elim in B1. apply Rabs_elim in B2. apply Rabs_elim in B3. apply Rabs_elim in B4.
    apply Rabs_elim in X1. apply Rabs_elim in X2. apply Rabs_elim in X3. apply Rabs_elim in X4.
    assert (DU : Rabs (B2R u' - B2R u) <= 4 * M) by (apply Rabs_le3; lra).
    assert (DL : Rabs (B2R d' - B2R d) <= 4 * M) by (apply Rabs_le3; lra).
    destruct (ordinary_140 _ O7) as [Q7 Q7']. destruct (capacity_140 _ O1) as [Qc Qc']. destruct (capacity_140 _ O2) as [Qd Qd'].
    pose proof (moderate_rel _ _ Q7 N1) as MM1. pose proof (divisor_rel _ _ Q7' N1) as MM2.
    pose proof (moderate_rel _ _ Qc N5) as MM3. pose proof (moderate_rel _ _ Qd N6) as MM4. pose proof (divisor_rel _ _ Qc' N5) as MM5.
    pose proof h_small as [hs0 hs1].
    pose proof (rel_bounds _ _ _ P7 N1) as W1. pose proof (rel_bounds _ _ _ QC N5) as W5. pose proof (rel_bounds _ _ _ QD N6) as W6.
    assert (V1 : 0 < n_dt c') by nra. assert (V5 : 0 < n_C c') by nra. assert (V6 : 0 < n_CD c') by nra.
    assert (M4 : half 400 <= M). { apply Rle_trans with (half 100); [apply half_le_half; lia|apply OM]. }
    assert (M2 : moderate (2 * M)).
    { assert (two 100 * 2 <= two 150) by (unfold two; rewrite <- mult_IZR; apply IZR_le; vm_compute; discriminate).
      unfold moderate. rewrite Rabs_right by lra. destruct OM. lra. }
    rewrite Ec in MM1, MM2, MM3, MM4, MM5, V1, V5, V6, N1, N5, N6. cbn [n_dt n_C n_CD] in MM1, MM2, MM3, MM4, MM5, V1, V5, V6, N1, N5, N6.
    destruct (uptake_near bexp (rg_ndim reg) (rg_dim reg) rf _ _ _ M f1 f6 f7 V1 V5 V6 MM1 MM2 MM3 MM4 MM5 M4 M2 u d u' d' F1 F2 F3 F4 DU DL) as (Fz & Bz).
    assert (Ez : z = (calculate_next_rndt (fenv bexp (rg_ndim reg) (rg_dim reg) rf) (tl_delta_t_mag (fenv bexp (rg_ndim reg) (rg_dim reg) rf) s) d' d (tl_hcl_mag (fenv bexp (rg_ndim reg) (rg_dim reg) rf) s) u' u (tl_hcu_mag (fenv bexp (rg_ndim reg) (rg_dim reg) rf) s) : b64)) by exact Q3.
    rewrite <- Ez in Fz, Bz. split; [exact Fz|].
    destruct (coeff_pert _ _ _ _ _ _ QC P7 N5 N1 DU) as (CU & KU & KU'). destruct (coeff_pert _ _ _ _ _ _ QD P7 N6 N1 DL) as (CL & KL & KL').
    set (C' := B2R (tl_hcu_mag (fenv bexp (rg_ndim reg) (rg_dim reg) rf) s : b64)) in *. set (CD' := B2R (tl_hcl_mag (fenv bexp (rg_ndim reg) (rg_dim reg) rf) s : b64)) in *. set (dt' := B2R (tl_delta_t_mag (fenv bexp (rg_ndim reg) (rg_dim reg) rf) s : b64)) in *.
    assert (kk : (C' + CD') / dt' <= 2 * k).
    { unfold k. replace ((C' + CD') / dt') with (C' / dt' + CD' / dt') by (field; lra).
      replace ((p_C p + p_CD p) / p_dt p) with (p_C p / p_dt p + p_CD p / p_dt p) by (field; lra). lra. }
    set (x := B2R u' - T' - (B2R u - T)). set (y := B2R d' - TD' - (B2R d - TD)).
    assert (Hx : Rabs x <= 2 * ((1 + theta c) * r)) by (apply Rabs_le3; unfold x; lra).
    assert (Hy : Rabs y <= 2 * ((1 + theta c) * r)) by (apply Rabs_le3; unfold y; lra).
    assert (PU : 0 < p_C p / p_dt p) by (apply Rdiv_lt_0_compat; lra). assert (PL : 0 < p_CD p / p_dt p) by (apply Rdiv_lt_0_compat; lra).
    assert (Dx : Rabs (p_C p / p_dt p * x + p_CD p / p_dt p * y) <= k * (2 * ((1 + theta c) * r))).
    { eapply Rle_trans; [apply Rabs_triang|]. rewrite !Rabs_mult, (Rabs_right (p_C p / p_dt p)), (Rabs_right (p_CD p / p_dt p)) by lra.
      replace (k * (2 * ((1 + theta c) * r))) with (p_C p / p_dt p * (2 * ((1 + theta c) * r)) + p_CD p / p_dt p * (2 * ((1 + theta c) * r)))
        by (unfold k; field; lra).
      apply Rplus_le_compat; apply Rmult_le_compat_l; lra. }
    rewrite R1 in Dx.
    change (exact_uptake c T TD T' TD') with (p_C p * (T' - T) / p_dt p + p_CD p * (TD' - TD) / p_dt p).
    replace (B2R z - (p_C p * (T' - T) / p_dt p + p_CD p * (TD' - TD) / p_dt p)) with
      ((B2R z - (C' * (B2R u' - B2R u) / dt' + CD' * (B2R d' - B2R d) / dt')) +
       (C' * (B2R u' - B2R u) / dt' - p_C p * (B2R u' - B2R u) / p_dt p) +
       (CD' * (B2R d' - B2R d) / dt' - p_CD p * (B2R d' - B2R d) / p_dt p) +
       (p_C p / p_dt p * x + p_CD p / p_dt p * y)) by (unfold x, y; field; lra).
    eapply Rle_trans; [apply Rabs_triang|]. eapply Rle_trans; [apply Rplus_le_compat; [|exact Dx]|].
    { eapply Rle_trans; [apply Rabs_triang|]. apply Rplus_le_compat; [|exact CL].
      eapply Rle_trans; [apply Rabs_triang|]. apply Rplus_le_compat; [exact Bz|exact CU]. }
    assert (kM : k * M <= k * G) by (apply Rmult_le_compat_l; lra).
    assert (kM0 : 0 < k * M) by (apply Rmult_lt_0_compat; lra).
    assert (A1 : half 50 * ((C' + CD') / dt' * (5 * M)) <= half 50 * (2 * k * (5 * M))).
    { apply Rmult_le_compat_l; [left; apply half_pos|]. apply Rmult_le_compat_r; lra. }
    assert (A2 : 4 * half 48 * (p_C p / p_dt p * (4 * M)) + 4 * half 48 * (p_CD p / p_dt p * (4 * M)) = 16 * (half 48 * (k * M))).
    { unfold k. field. lra. }
    pose proof halves as (_ & E50 & _ & _ & _ & _ & E48 & _ & _ & _ & E42).
    assert (E40 : half 40 = 4 * half 42).
    { replace (half 42) with (half 40 * half 2) by (rewrite half_mul; reflexivity). replace (half 2) with (/ 4) by reflexivity. field. }
    rewrite E50 in A1. rewrite E48 in A2. rewrite E40, E42, E50, E48 in *. set (u0 := half 53) in *.
    assert (Pu : 0 < u0) by apply half_pos.
    assert (B0 : u0 * (k * M) <= u0 * (k * G)) by (apply Rmult_le_compat_l; lra).
    assert (B5 : 0 < u0 * (k * M)) by (apply Rmult_lt_0_compat; lra).
    replace (4 * (2048 * u0) * k * G) with (8192 * (u0 * (k * G))) by ring.
    replace (k * (2 * (2048 * u0 * G))) with (4096 * (u0 * (k * G))) by ring.
    replace (8 * u0 * (2 * k * (5 * M))) with (80 * (u0 * (k * M))) in A1 by ring.
    lra.
Qed.

(** One heat uptake of a run against the temperatures around it. *)
Lemma tl_uptake_step : forall reg bexp rf parse s p e F M U L N,
  let E := fenv bexp (rg_ndim reg) (rg_dim reg) rf in
  accurate_registry reg rf -> tl_reachable E parse s ->
  tl_stands_for reg bexp rf s p -> ordinary_tl p -> series_stands_for reg bexp rf e F u_Wm2 ->
  p_dt p * ((p_lambda0 p + p_eps p * p_eta p) / p_C p + p_eta p / p_CD p) <= 1 ->
  half 42 * (1 + theta (coefficients p)) <= damping (coefficients p) ->
  ordinary M -> ordinary (p_lambda0 p * M) ->
  (forall i, (i < List.length (mags e))%nat -> Rabs (F i) <= p_lambda0 p * M) ->
  tl_gives bexp (rg_ndim reg) (rg_dim reg) rf s e U L N ->
  forall i (z u d u' d' : b64), nth_error N (S i) = Some (z : num E) ->
    nth_error U i = Some (u : num E) -> nth_error L i = Some (d : num E) ->
    nth_error U (S i) = Some (u' : num E) -> nth_error L (S i) = Some (d' : num E) ->
    is_finite z = true /\ is_finite u = true /\ is_finite d = true /\ is_finite u' = true /\ is_finite d' = true /\
    Rabs (B2R z - (p_C p * (B2R u' - B2R u) / p_dt p + p_CD p * (B2R d' - B2R d) / p_dt p)) <= half 43 * ((p_C p + p_CD p) / p_dt p * M).
Proof.
  intros reg bexp rf parse s p e F M U L N E acc Hr HS HO He Hdt Hk OM OF HF Hg. subst E.
  destruct (tl_run_near reg bexp rf parse s p e F M U L N acc Hr HS HO He Hdt Hk OM OF HF Hg) as (NU & NL).
  destruct (tl_read reg bexp rf acc s p HS HO) as (c' & Hn & Hm & Ha & N1 & N2 & N3 & N4 & N5 & N6).
  pose proof HO as (O1 & O2 & O3 & O4 & O5 & O6 & O7).
  pose proof (ordinary_pos _ O1) as P1. pose proof (ordinary_pos _ O2) as P2. pose proof (ordinary_pos _ O3) as P3.
  pose proof (ordinary_pos _ O5) as P5. pose proof (ordinary_pos _ O6) as P6. pose proof (ordinary_pos _ O7) as P7.
  pose proof (ordinary_pos _ OM) as PM.
  assert (QC : 0 < p_C p) by (unfold p_C, water_capacity; lra). assert (QD : 0 < p_CD p) by (unfold p_CD, water_capacity; lra).
  destruct (series_read reg bexp rf acc e F u_Wm2 eq_refl He) as (F' & HF1 & HF2).
  { intros i Hi. eapply Rle_trans; [apply HF, Hi|]. destruct OF as [_ OF]. eapply Rle_trans; [exact OF|]. apply two_le. lia. }
  destruct (tl_gives_series bexp _ _ rf s e F' U L N Hg HF1) as (fs & Ser & Len & _).
  destruct (tl_nums bexp _ _ rf parse s c' Hr Hn) as (Ec & f1 & f2 & f3 & f4 & f5 & f6 & f7).
  pose proof Ser as (LU & LL & LN & Z & St).
  change (@List.length b64 U = @List.length b64 fs) in LU. change (@List.length b64 L = @List.length b64 fs) in LL.
  change (@List.length b64 N = @List.length b64 fs) in LN.
  set (c := coefficients p) in *. set (k := (p_C p + p_CD p) / p_dt p) in *. set (G := (1 + theta c) * M / damping c) in *.
  assert (Qx : 0 < p_dt p * ((p_lambda0 p + p_eps p * p_eta p) / p_C p) /\ 0 < p_dt p * (p_eta p / p_CD p)).
  { assert (0 < p_eps p * p_eta p) by (apply Rmult_lt_0_compat; assumption).
    split; (apply Rmult_lt_0_compat; [assumption|]); apply Rdiv_lt_0_compat; lra. }
  assert (st : stable_tl c).
  { unfold stable_tl. cbn [c coefficients n_dt n_lambda0 n_a n_eps n_eta n_C n_CD]. repeat (split; [assumption|]).
    split.
    - apply Rmult_le_reg_r with (/ p_C p); [now apply Rinv_0_lt_compat|]. rewrite Rinv_r by lra.
      replace (p_dt p * (p_lambda0 p + p_eps p * p_eta p) * / p_C p) with (p_dt p * ((p_lambda0 p + p_eps p * p_eta p) / p_C p)) by (field; lra). lra.
    - apply Rmult_le_reg_r with (/ p_CD p); [now apply Rinv_0_lt_compat|]. rewrite Rinv_r by lra.
      replace (p_dt p * p_eta p * / p_CD p) with (p_dt p * (p_eta p / p_CD p)) by (field; lra). lra. }
  destruct (damping_pos c st) as [Dp Dp1]. pose proof (theta_pos c st) as T1.
  assert (kp : 0 < k) by (unfold k; apply Rdiv_lt_0_compat; lra).
  assert (K1 : M <= G).
  { unfold G. apply Rmult_le_reg_r with (damping c); [lra|]. unfold Rdiv. rewrite Rmult_assoc, Rinv_l by lra.
    assert (0 <= theta c * M) by (apply Rmult_le_pos; lra). assert (M * damping c <= M * 1) by (apply Rmult_le_compat_l; lra). lra. }
  intros i z u d u' d' Hz EU EL EU' EL'.
    assert (Hi : (S i < @List.length b64 fs)%nat).
    { rewrite <- LN. apply nth_error_Some. intros K. pose proof (eq_trans (eq_sym Hz) K). discriminate. }
    destruct (nth_error fs i) as [f|] eqn:Ef; [|apply nth_error_None in Ef; lia].
    destruct (St i f u d Hi Ef EU EL) as (S1 & S2 & S3).
    pose proof (some_inj _ _ (eq_trans (eq_sym EU') S1)) as Q1. pose proof (some_inj _ _ (eq_trans (eq_sym EL') S2)) as Q2.
    cbv zeta in S3. rewrite <- Q1, <- Q2 in S3. pose proof (some_inj _ _ (eq_trans (eq_sym Hz) S3)) as Q3.
    destruct (NU i u EU) as (F1 & B1). destruct (NL i d EL) as (F2 & B2).
    destruct (NU (S i) u' EU') as (F3 & B3). destruct (NL (S i) d' EL') as (F4 & B4). cbv beta in B1, B2, B3, B4.
    set (r := half 42 * M / damping c) in *.
    assert (HF' : forall j, (j < @List.length b64 fs)%nat -> Rabs (F j) <= n_lambda0 c * M).
    { intros j Hj. apply HF. rewrite <- Len. exact Hj. }
    destruct (exact_bound c st F M (@List.length b64 fs) i HF' ltac:(lra) ltac:(lia)) as [X1 X2].
    destruct (exact_bound c st F M (@List.length b64 fs) (S i) HF' ltac:(lra) ltac:(lia)) as [X3 X4].
    set (T := fst (exact_run c F i)) in *. set (TD := snd (exact_run c F i)) in *.
    set (T' := fst (exact_run c F (S i))) in *. set (TD' := snd (exact_run c F (S i))) in *.
    pose proof (half_pos 42) as h42.
    assert (R0 : 0 <= r) by (unfold r; apply Rmult_le_pos; [apply Rmult_le_pos; lra|left; now apply Rinv_0_lt_compat]).
    assert (R1 : (1 + theta c) * r = half 42 * G) by (unfold r, G; field; lra).
    assert (R2 : (1 + theta c) * r <= M).
    { apply Rmult_le_reg_l with (damping c); [lra|]. unfold r.
      replace (damping c * ((1 + theta c) * (half 42 * M / damping c))) with (half 42 * (1 + theta c) * M) by (field; lra).
      apply Rmult_le_compat_r; lra. }
    assert (R3 : r <= (1 + theta c) * r) by (assert (0 <= theta c * r) by (apply Rmult_le_pos; lra); lra).
    apply Rabs_elim in B1. apply Rabs_elim in B2. apply Rabs_elim in B3. apply Rabs_elim in B4.
    apply Rabs_elim in X1. apply Rabs_elim in X2. apply Rabs_elim in X3. apply Rabs_elim in X4.
    assert (DU : Rabs (B2R u' - B2R u) <= 4 * M) by (apply Rabs_le3; lra).
    assert (DL : Rabs (B2R d' - B2R d) <= 4 * M) by (apply Rabs_le3; lra).
    destruct (ordinary_140 _ O7) as [Q7 Q7']. destruct (capacity_140 _ O1) as [Qc Qc']. destruct (capacity_140 _ O2) as [Qd Qd'].
    pose proof (moderate_rel _ _ Q7 N1) as MM1. pose proof (divisor_rel _ _ Q7' N1) as MM2.
    pose proof (moderate_rel _ _ Qc N5) as MM3. pose proof (moderate_rel _ _ Qd N6) as MM4. pose proof (divisor_rel _ _ Qc' N5) as MM5.
    pose proof h_small as [hs0 hs1].
    pose proof (rel_bounds _ _ _ P7 N1) as W1. pose proof (rel_bounds _ _ _ QC N5) as W5. pose proof (rel_bounds _ _ _ QD N6) as W6.
    assert (V1 : 0 < n_dt c') by nra. assert (V5 : 0 < n_C c') by nra. assert (V6 : 0 < n_CD c') by nra.
    assert (M4 : half 400 <= M). { apply Rle_trans with (half 100); [apply half_le_half; lia|apply OM]. }
    assert (M2 : moderate (2 * M)).
    { assert (two 100 * 2 <= two 150) by (unfold two; rewrite <- mult_IZR; apply IZR_le; vm_compute; discriminate).
      unfold moderate. rewrite Rabs_right by lra. destruct OM. lra. }
    rewrite Ec in MM1, MM2, MM3, MM4, MM5, V1, V5, V6, N1, N5, N6. cbn [n_dt n_C n_CD] in MM1, MM2, MM3, MM4, MM5, V1, V5, V6, N1, N5, N6.
    destruct (uptake_near bexp (rg_ndim reg) (rg_dim reg) rf _ _ _ M f1 f6 f7 V1 V5 V6 MM1 MM2 MM3 MM4 MM5 M4 M2 u d u' d' F1 F2 F3 F4 DU DL) as (Fz & Bz).
    assert (Ez : z = (calculate_next_rndt (fenv bexp (rg_ndim reg) (rg_dim reg) rf) (tl_delta_t_mag (fenv bexp (rg_ndim reg) (rg_dim reg) rf) s) d' d (tl_hcl_mag (fenv bexp (rg_ndim reg) (rg_dim reg) rf) s) u' u (tl_hcu_mag (fenv bexp (rg_ndim reg) (rg_dim reg) rf) s) : b64)) by exact Q3.
    rewrite <- Ez in Fz, Bz. do 5 (split; [assumption|]).
    destruct (coeff_pert _ _ _ _ _ _ QC P7 N5 N1 DU) as (CU & KU & KU'). destruct (coeff_pert _ _ _ _ _ _ QD P7 N6 N1 DL) as (CL & KL & KL').
    set (C' := B2R (tl_hcu_mag (fenv bexp (rg_ndim reg) (rg_dim reg) rf) s : b64)) in *. set (CD' := B2R (tl_hcl_mag (fenv bexp (rg_ndim reg) (rg_dim reg) rf) s : b64)) in *. set (dt' := B2R (tl_delta_t_mag (fenv bexp (rg_ndim reg) (rg_dim reg) rf) s : b64)) in *.
    assert (kk : (C' + CD') / dt' <= 2 * k).
    { unfold k. replace ((C' + CD') / dt') with (C' / dt' + CD' / dt') by (field; lra).
      replace ((p_C p + p_CD p) / p_dt p) with (p_C p / p_dt p + p_CD p / p_dt p) by (field; lra). lra. }
    replace (B2R z - (p_C p * (B2R u' - B2R u) / p_dt p + p_CD p * (B2R d' - B2R d) / p_dt p)) with
      ((B2R z - (C' * (B2R u' - B2R u) / dt' + CD' * (B2R d' - B2R d) / dt')) +
       (C' * (B2R u' - B2R u) / dt' - p_C p * (B2R u' - B2R u) / p_dt p) +
       (CD' * (B2R d' - B2R d) / dt' - p_CD p * (B2R d' - B2R d) / p_dt p)) by ring.
    assert (PU : 0 < p_C p / p_dt p) by (apply Rdiv_lt_0_compat; lra). assert (PL : 0 < p_CD p / p_dt p) by (apply Rdiv_lt_0_compat; lra).
    eapply Rle_trans; [apply Rabs_triang|]. eapply Rle_trans; [apply Rplus_le_compat; [|exact CL]|].
    { eapply Rle_trans; [apply Rabs_triang|]. apply Rplus_le_compat; [exact Bz|exact CU]. }
    assert (kM0 : 0 < k * M) by (apply Rmult_lt_0_compat; lra).
    assert (A1 : half 50 * ((C' + CD') / dt' * (5 * M)) <= half 50 * (2 * k * (5 * M))).
    { apply Rmult_le_compat_l; [left; apply half_pos|]. apply Rmult_le_compat_r; lra. }
    assert (A2 : 4 * half 48 * (p_C p / p_dt p * (4 * M)) + 4 * half 48 * (p_CD p / p_dt p * (4 * M)) = 16 * (half 48 * (k * M))).
    { unfold k. field. lra. }
    pose proof halves as (_ & E50 & _ & _ & _ & _ & E48 & _ & _ & E43 & _).
    rewrite E50 in A1. rewrite E48 in A2. rewrite E43, E50, E48 in *. set (u0 := half 53) in *.
    assert (B5 : 0 < u0 * (k * M)) by (apply Rmult_lt_0_compat; [apply half_pos|lra]).
    replace (8 * u0 * (2 * k * (5 * M))) with (80 * (u0 * (k * M))) in A1 by ring. lra.
Qed.

(** The uptake of the recurrence is the net flux into the two layers. *)
Lemma exact_uptakes_flux p F i : p_dt p <> 0 -> p_C p <> 0 -> p_CD p <> 0 -> p_a p = 0 ->
  let T := fst (exact_run (coefficients p) F i) in let TD := snd (exact_run (coefficients p) F i) in
  exact_uptakes (coefficients p) F (S i) = F i - p_lambda0 p * T - (p_eps p - 1) * p_eta p * (T - TD).
Proof.
  intros H1 H2 H3 H4 T TD. unfold T, TD. cbn [exact_uptakes exact_run]. destruct (exact_run (coefficients p) F i) as [t d]. cbn [fst snd].
  unfold exact_uptake, exact_upper, exact_lower. cbn [coefficients n_dt n_lambda0 n_a n_eps n_eta n_C n_CD]. rewrite H4. field. lra.
Qed.
Lemma flux_near F l g a a' b b' x y z : 0 <= l -> Rabs (a - a') <= x -> Rabs (b - b') <= y -> Rabs (z - (F - l * a' - g * (a' - b'))) <= 0 ->
  Rabs (z - (F - l * a - g * (a - b))) <= (l + Rabs g) * x + Rabs g * y.
Proof.
  intros Hl Ha Hb Hz. replace (z - (F - l * a - g * (a - b))) with
    ((z - (F - l * a' - g * (a' - b'))) + (l + g) * (a - a') + - g * (b - b')) by ring.
  pose proof (Rabs_pos (a - a')). pose proof (Rabs_pos g).
  eapply Rle_trans; [apply Rabs_triang|]. eapply Rle_trans; [apply Rplus_le_compat_r, Rabs_triang|]. rewrite !Rabs_mult, Rabs_Ropp.
  assert (Rabs (l + g) * Rabs (a - a') <= (l + Rabs g) * x).
  { apply mulle; try apply Rabs_pos; try assumption. eapply Rle_trans; [apply Rabs_triang|]. rewrite (Rabs_pos_eq l) by exact Hl. lra. }
  assert (Rabs g * Rabs (b - b') <= Rabs g * y) by (apply Rmult_le_compat_l; assumption). lra.
Qed.

(** The heat uptakes a two-layer model reports, against the rate at which the layers of the exact solution
    store heat one timestep before: a rounding error and the discretisation errors of the temperatures. *)
Theorem c60_two_layer_heat_uptake : forall reg bexp rf parse s p e F M T TD,
  let E := fenv bexp (rg_ndim reg) (rg_dim reg) rf in
  accurate_registry reg rf -> tl_reachable E parse s ->
  tl_stands_for reg bexp rf s p -> ordinary_tl p -> series_stands_for reg bexp rf e F u_Wm2 ->
  p_dt p * ((p_lambda0 p + p_eps p * p_eta p) / p_C p + p_eta p / p_CD p) <= 1 ->
  half 42 * (1 + theta (coefficients p)) <= damping (coefficients p) ->
  ordinary M -> ordinary (p_lambda0 p * M) ->
  (forall i, (i < List.length (mags e))%nat -> Rabs (F i) <= p_lambda0 p * M) ->
  exact_two_layer p F T TD ->
  exists U L N, tl_gives bexp (rg_ndim reg) (rg_dim reg) rf s e U L N /\
    close_series bexp (rg_ndim reg) (rg_dim reg) rf N
      (fun i => match i with O => 0 | S k => p_C p * dT_dt p (F k) (T k) (TD k) + p_CD p * dTD_dt p (T k) (TD k) end)
      (half 40 * ((p_C p + p_CD p) / p_dt p) * ((1 + theta (coefficients p)) * M / damping (coefficients p)) +
       (p_lambda0 p + Rabs (p_eps p - 1) * p_eta p) * (p_dt p * (p_lambda0 p * M) / p_C p) +
       Rabs (p_eps p - 1) * p_eta p * (2 * p_eta p / (p_CD p * sqrt (discriminant p)) * (p_dt p * (p_lambda0 p * M) / p_C p))).
Proof.
  intros reg bexp rf parse s p e F M T TD E acc Hr HS HO He Hdt Hk OM OF HF HE.
  pose proof HO as (O1 & O2 & O3 & O4 & O5 & O6 & O7).
  pose proof (ordinary_pos _ O1) as P1. pose proof (ordinary_pos _ O2) as P2. pose proof (ordinary_pos _ O3) as P3.
  pose proof (ordinary_pos _ O5) as P5. pose proof (ordinary_pos _ O6) as P6. pose proof (ordinary_pos _ O7) as P7.
  pose proof (ordinary_pos _ OM) as PM. pose proof (ordinary_pos _ OF) as PF.
  assert (QC : 0 < p_C p) by (unfold p_C, water_capacity; lra). assert (QD : 0 < p_CD p) by (unfold p_CD, water_capacity; lra).
  destruct (series_read reg bexp rf acc e F u_Wm2 eq_refl He) as (F' & HF1 & HF2).
  { intros i Hi. eapply Rle_trans; [apply HF, Hi|]. destruct OF as [_ OF]. eapply Rle_trans; [exact OF|]. apply two_le. lia. }
  destruct (tl_gives_ex bexp _ _ rf s e F' HF1) as (U & L & N & Hg). exists U, L, N. split; [exact Hg|].
  pose proof (tl_uptake_near reg bexp rf parse s p e F M U L N acc Hr HS HO He Hdt Hk OM OF HF Hg) as NN.
  assert (HP : convertible_tl p) by (repeat split; assumption).
  pose proof (step_le_tau1 _ _ _ _ _ _ QC QD P3 P5 P6 Hdt) as Hs.
  set (X := p_dt p * (p_lambda0 p * M) / p_C p). set (Y := 2 * p_eta p / (p_CD p * sqrt (discriminant p)) * X).
  assert (TR : forall i, (i < List.length (mags e))%nat -> Rabs (T i - fst (exact_run (coefficients p) F i)) <= X /\
    Rabs (TD i - snd (exact_run (coefficients p) F i)) <= Y).
  { intros i Hi. rewrite exact_run_euler. destruct (exact_modes p HP P7 F T TD HE i) as (-> & ->).
    rewrite (Rabs_minus_sym (_ - _)), (Rabs_minus_sym (_ + _)) || (rewrite Rabs_minus_sym; split; [|rewrite Rabs_minus_sym]).
    all: try split.
    all: first [apply (surface_error p HP P7 Hs F (p_lambda0 p * M) i); [intros j Hj; apply HF; lia|lra]
               |apply (deep_error p HP P7 Hs F (p_lambda0 p * M) i); [intros j Hj; apply HF; lia|lra]]. }
  assert (LN : List.length N = List.length (mags e)) by (destruct Hg as (_ & _ & _ & _ & _ & LN); exact LN).
  assert (X0 : 0 <= X) by (unfold X; apply Rlt_le, Rdiv_lt_0_compat; [apply Rmult_lt_0_compat|]; lra).
  pose proof (Rabs_pos (p_eps p - 1)) as PE.
  assert (Y0 : 0 <= Y).
  { apply Rmult_le_pos; [|exact X0]. apply Rmult_le_pos; [lra|]. left. apply Rinv_0_lt_compat, Rmult_lt_0_compat; [lra|].
    apply sqrt_lt_R0. rewrite FactsConv.discriminant_ok. apply gdelta_pos; lra. }
  assert (W : 0 <= (p_lambda0 p + Rabs (p_eps p - 1) * p_eta p) * X + Rabs (p_eps p - 1) * p_eta p * Y).
  { apply Rplus_le_le_0_compat; apply Rmult_le_pos; try assumption; [apply Rplus_le_le_0_compat; [lra|]|]; apply Rmult_le_pos; lra. }
  intros [|i] z Hz; destruct (NN _ z Hz) as (K & B); (split; [exact K|]).
  - cbn [exact_uptakes] in B. lra.
  - assert (Hi : (i < List.length (mags e))%nat).
    { enough (S i < List.length (mags e))%nat by lia. rewrite <- LN. apply nth_error_Some. rewrite Hz. discriminate. }
    destruct (TR i Hi) as (B1 & B2).
    pose proof (exact_uptakes_flux p F i ltac:(lra) ltac:(lra) ltac:(lra) O4) as Ef. cbv zeta in Ef.
    pose proof (flux_near (F i) (p_lambda0 p) ((p_eps p - 1) * p_eta p) _ _ _ _ _ _ (exact_uptakes (coefficients p) F (S i)) (Rlt_le _ _ P3) B1 B2
      ltac:(rewrite Ef, Rminus_diag_eq, Rabs_R0 by reflexivity; lra)) as A.
    rewrite Rabs_mult, (Rabs_pos_eq (p_eta p)) in A by lra.
    replace (p_C p * dT_dt p (F i) (T i) (TD i) + p_CD p * dTD_dt p (T i) (TD i)) with
      (F i - p_lambda0 p * T i - (p_eps p - 1) * p_eta p * (T i - TD i)) by (unfold dT_dt, dTD_dt; rewrite O4; field; lra).
    apply Rabs_elim in A. apply Rabs_elim in B. apply Rabs_le3. lra.
Qed.

(** Energy balance of the doubles of one run: the heat uptake is the forcing minus the feedback and the
    efficacy term of the temperatures reported one timestep before, up to rounding only. *)
Theorem c60_two_layer_energy_balance : forall reg bexp rf parse s p e F M U L N,
  let E := fenv bexp (rg_ndim reg) (rg_dim reg) rf in
  accurate_registry reg rf -> tl_reachable E parse s ->
  tl_stands_for reg bexp rf s p -> ordinary_tl p -> series_stands_for reg bexp rf e F u_Wm2 ->
  p_dt p * ((p_lambda0 p + p_eps p * p_eta p) / p_C p + p_eta p / p_CD p) <= 1 ->
  half 42 * (1 + theta (coefficients p)) <= damping (coefficients p) ->
  ordinary M -> ordinary (p_lambda0 p * M) ->
  (forall i, (i < List.length (mags e))%nat -> Rabs (F i) <= p_lambda0 p * M) ->
  tl_gives bexp (rg_ndim reg) (rg_dim reg) rf s e U L N ->
  forall i (n t d : b64), nth_error N (S i) = Some (n : num E) -> nth_error U i = Some (t : num E) -> nth_error L i = Some (d : num E) ->
    is_finite n = true /\ is_finite t = true /\ is_finite d = true /\
    Rabs (B2R n - (F i - p_lambda0 p * B2R t - (p_eps p - 1) * p_eta p * (B2R t - B2R d))) <=
      half 40 * ((p_C p + p_CD p) / p_dt p + p_lambda0 p + Rabs (p_eps p - 1) * p_eta p) *
        ((1 + theta (coefficients p)) * M / damping (coefficients p)).
Proof.
  intros reg bexp rf parse s p e F M U L N E acc Hr HS HO He Hdt Hk OM OF HF Hg i n t d Hn Ht Hd.
  pose proof HO as (O1 & O2 & O3 & O4 & O5 & O6 & O7).
  pose proof (ordinary_pos _ O1) as P1. pose proof (ordinary_pos _ O2) as P2. pose proof (ordinary_pos _ O3) as P3.
  pose proof (ordinary_pos _ O5) as P5. pose proof (ordinary_pos _ O6) as P6. pose proof (ordinary_pos _ O7) as P7.
  pose proof (ordinary_pos _ OM) as PM.
  assert (QC : 0 < p_C p) by (unfold p_C, water_capacity; lra). assert (QD : 0 < p_CD p) by (unfold p_CD, water_capacity; lra).
  destruct (tl_uptake_near reg bexp rf parse s p e F M U L N acc Hr HS HO He Hdt Hk OM OF HF Hg (S i) n Hn) as (Fn & Bn).
  destruct (tl_run_near reg bexp rf parse s p e F M U L N acc Hr HS HO He Hdt Hk OM OF HF Hg) as (NU & NL).
  destruct (NU i t Ht) as (Ft & Bt). destruct (NL i d Hd) as (Fd & Bd). split; [exact Fn|]. split; [exact Ft|]. split; [exact Fd|].
  cbv beta in Bt, Bd. pose proof (exact_uptakes_flux p F i ltac:(lra) ltac:(lra) ltac:(lra) O4) as Ef. cbv zeta in Ef.
  pose proof (flux_near (F i) (p_lambda0 p) ((p_eps p - 1) * p_eta p) _ _ _ _ _ _ (exact_uptakes (coefficients p) F (S i)) (Rlt_le _ _ P3) Bt Bd
    ltac:(rewrite Ef, Rminus_diag_eq, Rabs_R0 by reflexivity; lra)) as A.
  rewrite Rabs_mult, (Rabs_pos_eq (p_eta p)) in A by lra.
  assert (T0 : 0 < theta (coefficients p)).
  { unfold theta. cbn [coefficients n_lambda0 n_eps n_eta]. apply Rdiv_lt_0_compat; [lra|]. apply Rmult_lt_0_compat; [lra|]. apply Rmult_lt_0_compat; lra. }
  set (c := coefficients p) in *. pose proof (half_pos 42) as h42.
  assert (D0 : 0 < damping c) by (apply Rlt_le_trans with (half 42 * (1 + theta c)); [apply Rmult_lt_0_compat; lra|exact Hk]).
  set (G := (1 + theta c) * M / damping c) in *.
  assert (R1 : (1 + theta c) * (half 42 * M / damping c) = half 42 * G) by (unfold G; field; lra).
  assert (R0 : 0 <= half 42 * M / damping c).
  { apply Rmult_le_pos; [apply Rmult_le_pos; lra|]. left. now apply Rinv_0_lt_compat. }
  assert (R2 : half 42 * M / damping c <= half 42 * G) by (rewrite <- R1; assert (0 <= theta c * (half 42 * M / damping c)) by (apply Rmult_le_pos; lra); lra).
  rewrite R1 in A. set (g := Rabs (p_eps p - 1) * p_eta p) in *.
  assert (g0 : 0 <= g) by (apply Rmult_le_pos; [apply Rabs_pos|lra]).
  assert (A1 : (p_lambda0 p + g) * (half 42 * M / damping c) <= (p_lambda0 p + g) * (half 42 * G)) by (apply Rmult_le_compat_l; lra).
  assert (E40 : half 40 = 4 * half 42).
  { replace (half 42) with (half 40 * half 2) by (rewrite half_mul; reflexivity). replace (half 2) with (/ 4) by reflexivity. field. }
  rewrite E40 in *.
  assert (0 <= p_lambda0 p * (half 42 * G)) by (apply Rmult_le_pos; lra). assert (0 <= g * (half 42 * G)) by (apply Rmult_le_pos; lra).
  replace (4 * half 42 * ((p_C p + p_CD p) / p_dt p + p_lambda0 p + g) * G) with
    (4 * half 42 * ((p_C p + p_CD p) / p_dt p) * G + 4 * (p_lambda0 p * (half 42 * G)) + 4 * (g * (half 42 * G))) by ring.
  apply Rabs_elim in A. apply Rabs_elim in Bn. apply Rabs_le3. lra.
Qed.

(** No heat is lost but to rounding: delta_t times the sum of the reported uptakes is the heat in the two
    layers at the reported temperatures, up to an error that grows at most linearly with the run. *)
Theorem c60_two_layer_heat_is_conserved : forall reg bexp rf parse s p e F M U L N,
  let E := fenv bexp (rg_ndim reg) (rg_dim reg) rf in
  accurate_registry reg rf -> tl_reachable E parse s ->
  tl_stands_for reg bexp rf s p -> ordinary_tl p -> series_stands_for reg bexp rf e F u_Wm2 ->
  p_dt p * ((p_lambda0 p + p_eps p * p_eta p) / p_C p + p_eta p / p_CD p) <= 1 ->
  half 42 * (1 + theta (coefficients p)) <= damping (coefficients p) ->
  ordinary M -> ordinary (p_lambda0 p * M) ->
  (forall i, (i < List.length (mags e))%nat -> Rabs (F i) <= p_lambda0 p * M) ->
  tl_gives bexp (rg_ndim reg) (rg_dim reg) rf s e U L N ->
  forall i (t d : b64), nth_error U i = Some (t : num E) -> nth_error L i = Some (d : num E) ->
    Rabs (p_dt p * sum_f_R0 (fun j => match nth_error N j with Some n => B2R (n : b64) | None => 0 end) i -
          (p_C p * B2R t + p_CD p * B2R d)) <= INR i * (half 43 * ((p_C p + p_CD p) * M)).
Proof.
  intros reg bexp rf parse s p e F M U L N E acc Hr HS HO He Hdt Hk OM OF HF Hg.
  pose proof HO as (O1 & O2 & O3 & O4 & O5 & O6 & O7). pose proof (ordinary_pos _ O7) as P7. pose proof (ordinary_pos _ OF) as PF.
  pose proof (tl_uptake_step reg bexp rf parse s p e F M U L N acc Hr HS HO He Hdt Hk OM OF HF Hg) as St.
  destruct (tl_run_near reg bexp rf parse s p e F M U L N acc Hr HS HO He Hdt Hk OM OF HF Hg) as (NU & NL).
  destruct (series_read reg bexp rf acc e F u_Wm2 eq_refl He) as (F' & HF1 & _).
  { intros i Hi. eapply Rle_trans; [apply HF, Hi|]. destruct OF as [_ OF]. eapply Rle_trans; [exact OF|]. apply two_le. lia. }
  destruct (tl_gives_series bexp _ _ rf s e F' U L N Hg HF1) as (fs & Ser & Len & _).
  pose proof Ser as (_ & _ & LN & Z & _). pose proof Hg as (_ & _ & _ & LU & LL & LN').
  induction i as [|i IH]; intros t d Ht Hd.
  - assert (Ne : fs <> []).
    { intros K. assert (0 < List.length U)%nat by (apply nth_error_Some; rewrite Ht; discriminate).
      rewrite LU, <- Len, K in H. cbn in H. lia. }
    destruct (Z Ne) as (Z1 & Z2 & Z3). cbn [sum_f_R0 INR].
    pose proof (some_inj _ _ (eq_trans (eq_sym Ht) (Z1 : nth_error (U : list b64) 0 = Some (b64_of_Q 0)))) as Q1.
    pose proof (some_inj _ _ (eq_trans (eq_sym Hd) (Z2 : nth_error (L : list b64) 0 = Some (b64_of_Q 0)))) as Q2.
    rewrite Z3. change (nQ (fenv bexp (rg_ndim reg) (rg_dim reg) rf) 0 : b64) with (b64_of_Q 0). rewrite Q1, Q2, b64_zero. cbn [B2R].
    rewrite !Rmult_0_r, Rplus_0_l, Rminus_0_r, Rabs_R0, Rmult_0_l. lra.
  - assert (Hi : (S i < List.length (mags e))%nat) by (rewrite <- LU; apply nth_error_Some; rewrite Ht; discriminate).
    destruct (nth_error U i) as [u0|] eqn:EU; [|apply nth_error_None in EU; lia].
    destruct (nth_error L i) as [d0|] eqn:EL; [|apply nth_error_None in EL; lia].
    destruct (nth_error N (S i)) as [n|] eqn:EN; [|apply nth_error_None in EN; lia].
    specialize (IH _ _ eq_refl eq_refl). destruct (St i n u0 d0 t d EN EU EL Ht Hd) as (_ & _ & _ & _ & _ & B).
    cbn [sum_f_R0]. rewrite EN. set (SU := sum_f_R0 _ i) in *. rewrite S_INR.
    set (x := B2R (n : b64) - (p_C p * (B2R t - B2R (u0 : b64)) / p_dt p + p_CD p * (B2R d - B2R (d0 : b64)) / p_dt p)) in *.
    replace (p_dt p * (SU + B2R (n : b64)) - (p_C p * B2R t + p_CD p * B2R d)) with
      ((p_dt p * SU - (p_C p * B2R (u0 : b64) + p_CD p * B2R (d0 : b64))) + p_dt p * x) by (unfold x; field; lra).
    eapply Rle_trans; [apply Rabs_triang|]. rewrite Rmult_plus_distr_r, Rmult_1_l. apply Rplus_le_compat; [exact IH|].
    rewrite Rabs_mult, (Rabs_pos_eq (p_dt p)) by lra.
    apply Rle_trans with (p_dt p * (half 43 * ((p_C p + p_CD p) / p_dt p * M))); [apply Rmult_le_compat_l; [lra|exact B]|].
    right. field. lra.
Qed.

(** The model, the forcing and the hypotheses of [c60_two_layer_case]: 50 m and 1.25 km of water, a
    timestep of a year; the bounds are below a watt and below a millionth of a watt per square metre. *)
Example c60_two_layer_heat_uptake_case : forall bexp parse, exists s T TD U L N,
  accurate_registry si (rounded_factors si) /\
  tl_reachable (phys_env bexp) parse s /\ tl_stands_for si bexp (rounded_factors si) s phys_p /\ ordinary_tl phys_p /\
  series_stands_for si bexp (rounded_factors si) (phys_erf bexp) fcase_F u_Wm2 /\
  p_dt phys_p * ((p_lambda0 phys_p + p_eps phys_p * p_eta phys_p) / p_C phys_p + p_eta phys_p / p_CD phys_p) <= 1 /\
  half 42 * (1 + theta (coefficients phys_p)) <= damping (coefficients phys_p) /\
  ordinary 4 /\ ordinary (p_lambda0 phys_p * 4) /\ (forall i, Rabs (fcase_F i) <= p_lambda0 phys_p * 4) /\
  exact_two_layer phys_p fcase_F T TD /\
  tl_gives bexp (rg_ndim si) (rg_dim si) (rounded_factors si) s (phys_erf bexp) U L N /\ List.length N = 3%nat /\
  half 40 * ((p_C phys_p + p_CD phys_p) / p_dt phys_p + p_lambda0 phys_p + Rabs (p_eps phys_p - 1) * p_eta phys_p) *
    ((1 + theta (coefficients phys_p)) * 4 / damping (coefficients phys_p)) < / 1000000 /\
  half 40 * ((p_C phys_p + p_CD phys_p) / p_dt phys_p) * ((1 + theta (coefficients phys_p)) * 4 / damping (coefficients phys_p)) +
    (p_lambda0 phys_p + Rabs (p_eps phys_p - 1) * p_eta phys_p) * (p_dt phys_p * (p_lambda0 phys_p * 4) / p_C phys_p) +
    Rabs (p_eps phys_p - 1) * p_eta phys_p *
      (2 * p_eta phys_p / (p_CD phys_p * sqrt (discriminant phys_p)) * (p_dt phys_p * (p_lambda0 phys_p * 4) / p_C phys_p)) < 1.
Proof.
  intros bexp parse. destruct (c60_two_layer_case bexp parse) as (s & T & TD & H1 & H2 & H3 & H4 & _ & _ & H5 & H6 & H7 & H8 & H9 & H10 & H11 & _).
  destruct (c60_two_layer si bexp (rounded_factors si) parse s phys_p (phys_erf bexp) fcase_F 4 T TD H1 H2 H3 H4 H5 H6 H7 H8 H9 (fun i _ => H10 i) H11)
    as (U & L & N & Hg & _).
  exists s, T, TD, U, L, N. repeat (split; [assumption|]).
  split; [destruct Hg as (_ & _ & _ & _ & _ & LN); exact LN|].
  assert (Th : theta (coefficients phys_p) = 5/6) by (unfold theta; cbn [coefficients phys_p n_lambda0 n_eps n_eta p_lambda0 p_eps p_eta]; field).
  assert (Dm : / 500 <= damping (coefficients phys_p)).
  { unfold damping. rewrite Th. cbn [coefficients phys_p n_dt n_lambda0 n_C n_eta n_CD p_dt p_lambda0 p_eta]. unfold p_C, p_CD, water_capacity.
    cbn [phys_p p_du p_dl]. apply Rmin_glb; lra. }
  assert (h40 : half 40 <= / 1000000000000).
  { unfold half. apply Rinv_le_contravar; [lra|]. apply IZR_le. vm_compute. discriminate. }
  pose proof (half_pos 40) as p40.
  assert (K : half 40 * ((1 + theta (coefficients phys_p)) * 4 / damping (coefficients phys_p)) <= / 1000000000000 * 4000).
  { apply mulle; try lra. { rewrite Th. apply Rmult_le_pos; [lra|]. left. apply Rinv_0_lt_compat. lra. }
    rewrite Th. apply Rle_trans with ((1 + 5/6) * 4 / (/ 500)); [|lra].
    unfold Rdiv. apply Rmult_le_compat_l; [lra|]. apply Rinv_le_contravar; lra. }
  rewrite !(Rmult_comm (half 40)), !Rmult_assoc.
  replace (p_eps phys_p - 1) with 0 by (cbn; lra). rewrite Rabs_R0, !Rmult_0_l, !Rplus_0_r.
  set (KK := half 40 * ((1 + theta (coefficients phys_p)) * 4 / damping (coefficients phys_p))) in *.
  unfold p_C, p_CD, water_capacity. cbn [phys_p p_du p_dl p_dt p_lambda0].
  rewrite ?Rmult_0_l. split.
  - match goal with |- ?a * _ < _ => apply Rle_lt_trans with (a * (/ 1000000000000 * 4000)); [apply Rmult_le_compat_l; lra|lra] end.
  - match goal with |- ?a * KK + _ < _ => apply Rle_lt_trans with (a * (/ 1000000000000 * 4000) + 95/100); [apply Rplus_le_compat; [apply Rmult_le_compat_l; lra|lra]|lra] end.
Qed.
