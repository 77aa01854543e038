(** Rounding errors over whole two-layer runs. *)
From Coq Require Import List String QArith Reals Bool Arith Lra Lia Psatz.
From Flocq Require Import Core IEEE754.BinarySingleNaN.
From Verif Require Import Arith Pint Base TwoLayer Impulse Scm Api Spec Float SpecRound FloatTL.
Import ListNotations.
Local Open Scope R_scope.

Lemma Rabs_le3 : forall x b, - b <= x <= b -> Rabs x <= b.
Proof. intros. apply Rabs_le. assumption. Qed.
Lemma Rabs_elim : forall x b, Rabs x <= b -> - b <= x <= b.
Proof. intros x b H. unfold Rabs in H. destruct (Rcase_abs x); lra. Qed.

Lemma some_inj : forall {A} (x y : A), Some x = Some y -> x = y.
Proof. intros A x y H. injection H. auto. Qed.

Section Stable.
Variable c : TLN.
Hypothesis st : stable_tl c.
Let alpha := n_dt c * n_lambda0 c / n_C c.
Let beta := n_dt c * (n_eps c * n_eta c) / n_C c.
Let gamma := n_dt c * n_eta c / n_CD c.

Lemma abg : 0 < alpha /\ 0 < beta /\ 0 < gamma /\ alpha + beta <= 1 /\ gamma <= 1.
Proof.
  destruct st as (H1 & H2 & H3 & H4 & H5 & H6 & H7 & H8 & H9). unfold alpha, beta, gamma.
  assert (0 < n_eps c * n_eta c) by (apply Rmult_lt_0_compat; lra).
  assert (0 < / n_C c) by (apply Rinv_0_lt_compat; lra). assert (0 < / n_CD c) by (apply Rinv_0_lt_compat; lra).
  repeat split; unfold Rdiv; repeat apply Rmult_lt_0_compat; try lra.
  - rewrite <- Rmult_plus_distr_r, <- Rmult_plus_distr_l. apply Rmult_le_reg_r with (n_C c); [lra|].
    rewrite Rmult_assoc, Rinv_l; lra.
  - apply Rmult_le_reg_r with (n_CD c); [lra|]. rewrite Rmult_assoc, Rinv_l; lra.
Qed.
Lemma upper_lin : forall F T TD, exact_upper c F T TD = (1 - alpha - beta) * T + beta * TD + n_dt c * F / n_C c.
Proof.
  intros. destruct st as (H1 & H2 & H3 & H4 & H5 & H6 & H7 & H8 & H9). unfold exact_upper, alpha, beta. rewrite H3. field. lra.
Qed.
Lemma lower_lin : forall T TD, exact_lower c T TD = (1 - gamma) * TD + gamma * T.
Proof.
  intros. destruct st as (H1 & H2 & H3 & H4 & H5 & H6 & H7 & H8 & H9). unfold exact_lower, gamma. field. lra.
Qed.
Lemma forcing_le : forall F M, Rabs F <= n_lambda0 c * M -> Rabs (n_dt c * F / n_C c) <= alpha * M.
Proof.
  intros F M HF. destruct st as (H1 & H2 & H3 & H4 & H5 & H6 & H7 & H8 & H9). unfold alpha.
  replace (n_dt c * F / n_C c) with (F * (n_dt c / n_C c)) by (field; lra). rewrite Rabs_mult.
  assert (K : 0 < n_dt c / n_C c) by (apply Rdiv_lt_0_compat; lra). rewrite (Rabs_right (n_dt c / n_C c)) by lra.
  replace (n_dt c * n_lambda0 c / n_C c * M) with (n_lambda0 c * M * (n_dt c / n_C c)) by (field; lra).
  apply Rmult_le_compat_r; lra.
Qed.
Lemma exact_bound : forall F M n k, (forall i, (i < n)%nat -> Rabs (F i) <= n_lambda0 c * M) -> 0 <= M -> (k <= n)%nat ->
  Rabs (fst (exact_run c F k)) <= M /\ Rabs (snd (exact_run c F k)) <= M.
Proof.
  intros F M n k HF HM. destruct abg as (A1 & A2 & A3 & A4 & A5).
  induction k as [|k IH]; intros Hk; cbn [exact_run fst snd]; [rewrite Rabs_R0; lra|].
  specialize (IH ltac:(lia)). destruct (exact_run c F k) as [T TD]. cbn [fst snd] in *. destruct IH as [I1 I2].
  pose proof (forcing_le _ _ (HF k ltac:(lia))) as I3. rewrite upper_lin, lower_lin.
  apply Rabs_elim in I1. apply Rabs_elim in I2. apply Rabs_elim in I3.
  split; apply Rabs_le3; split; nra.
Qed.

Lemma theta_pos : 0 < theta c.
Proof.
  destruct st as (H1 & H2 & H3 & H4 & H5 & H6 & H7 & H8 & H9). unfold theta.
  apply Rdiv_lt_0_compat; [lra|]. assert (0 < n_eps c * n_eta c) by (apply Rmult_lt_0_compat; lra). lra.
Qed.
Lemma beta_theta : beta * theta c = alpha / 2.
Proof.
  destruct st as (H1 & H2 & H3 & H4 & H5 & H6 & H7 & H8 & H9). unfold beta, theta, alpha. field. lra.
Qed.
Lemma damping_le : damping c <= alpha / 2 /\ damping c * (1 + theta c) <= gamma * theta c.
Proof.
  destruct st as (H1 & H2 & H3 & H4 & H5 & H6 & H7 & H8 & H9). pose proof theta_pos. unfold damping. split.
  - eapply Rle_trans; [apply Rmin_l|]. unfold alpha. right. field. lra.
  - apply Rle_trans with (theta c / (1 + theta c) * (n_dt c * n_eta c / n_CD c) * (1 + theta c)).
    + apply Rmult_le_compat_r; [lra|]. apply Rmin_r.
    + right. unfold gamma. field. lra.
Qed.
Lemma damping_pos : 0 < damping c <= 1.
Proof.
  destruct abg as (A1 & A2 & A3 & A4 & A5). destruct damping_le as [D1 D2].
  pose proof theta_pos. split; [|lra]. unfold damping. apply Rmin_glb_lt.
  - destruct st as (H1 & H2 & H3 & H4 & H5 & H6 & H7 & H8 & H9). apply Rdiv_lt_0_compat; [apply Rmult_lt_0_compat; lra|lra].
  - apply Rmult_lt_0_compat; [apply Rdiv_lt_0_compat; lra|exact A3].
Qed.
(** One step contracts the weighted error by the damping. *)
Lemma contract : forall F T TD u l r, Rabs (u - T) <= r -> Rabs (l - TD) <= (1 + theta c) * r ->
  Rabs (exact_upper c F u l - exact_upper c F T TD) <= (1 - damping c) * r /\
  Rabs (exact_lower c u l - exact_lower c T TD) <= (1 - damping c) * ((1 + theta c) * r).
Proof.
  intros F T TD u l r Hu Hl. destruct abg as (A1 & A2 & A3 & A4 & A5). destruct damping_le as [D1 D2].
  pose proof theta_pos as HT. pose proof beta_theta as BT. pose proof (Rabs_pos (u - T)).
  rewrite !upper_lin, !lower_lin. apply Rabs_elim in Hu. apply Rabs_elim in Hl.
  set (x := u - T) in *. set (y := l - TD) in *.
  replace ((1 - alpha - beta) * u + beta * l + n_dt c * F / n_C c - ((1 - alpha - beta) * T + beta * TD + n_dt c * F / n_C c))
    with ((1 - alpha - beta) * x + beta * y) by (unfold x, y; ring).
  replace ((1 - gamma) * l + gamma * u - ((1 - gamma) * TD + gamma * T)) with ((1 - gamma) * y + gamma * x) by (unfold x, y; ring).
  assert (R1 : beta * ((1 + theta c) * r) = beta * r + alpha / 2 * r) by (rewrite <- BT; ring).
  assert (R2 : damping c * r <= alpha / 2 * r) by (apply Rmult_le_compat_r; lra).
  assert (R3 : damping c * (1 + theta c) * r <= gamma * theta c * r) by (apply Rmult_le_compat_r; lra).
  assert (U1 : (1 - alpha - beta) * x <= (1 - alpha - beta) * r) by (apply Rmult_le_compat_l; lra).
  assert (U2 : (1 - alpha - beta) * - r <= (1 - alpha - beta) * x) by (apply Rmult_le_compat_l; lra).
  assert (U3 : beta * y <= beta * ((1 + theta c) * r)) by (apply Rmult_le_compat_l; lra).
  assert (U4 : beta * - ((1 + theta c) * r) <= beta * y) by (apply Rmult_le_compat_l; lra).
  assert (V1 : (1 - gamma) * y <= (1 - gamma) * ((1 + theta c) * r)) by (apply Rmult_le_compat_l; lra).
  assert (V2 : (1 - gamma) * - ((1 + theta c) * r) <= (1 - gamma) * y) by (apply Rmult_le_compat_l; lra).
  assert (V3 : gamma * x <= gamma * r) by (apply Rmult_le_compat_l; lra).
  assert (V4 : gamma * - r <= gamma * x) by (apply Rmult_le_compat_l; lra).
  split; apply Rabs_le3; split; lra.
Qed.
Lemma sizes : forall F T TD M, Rabs F <= n_lambda0 c * M -> Rabs T <= 2 * M -> Rabs TD <= 2 * M ->
  upper_size c F T TD <= 6 * M /\ lower_size c T TD <= 6 * M.
Proof.
  intros F T TD M HF HT HD. destruct abg as (A1 & A2 & A3 & A4 & A5).
  destruct st as (H1 & H2 & H3 & H4 & H5 & H6 & H7 & H8 & H9).
  pose proof (Rabs_pos F). pose proof (Rabs_pos T). pose proof (Rabs_pos TD).
  unfold upper_size, lower_size. rewrite H3, Rabs_R0, (Rabs_right (n_dt c)), (Rabs_right (n_lambda0 c)),
    (Rabs_right (n_eps c)), (Rabs_right (n_eta c)), (Rabs_right (n_C c)), (Rabs_right (n_CD c)) by lra.
  assert (HF' : n_dt c * Rabs F / n_C c <= alpha * M).
  { pose proof (forcing_le _ _ HF) as K. unfold Rdiv in *. rewrite !Rabs_mult in K.
    rewrite (Rabs_right (n_dt c)) in K by lra. rewrite Rabs_inv, (Rabs_right (n_C c)) in K by lra. exact K. }
  split.
  - replace (n_dt c * ((Rabs F + (n_lambda0 c + 0 * Rabs T) * Rabs T + n_eps c * n_eta c * (Rabs T + Rabs TD)) / n_C c))
      with (n_dt c * Rabs F / n_C c + alpha * Rabs T + beta * (Rabs T + Rabs TD)) by (unfold alpha, beta; field; lra).
    assert (alpha * Rabs T <= alpha * (2 * M)) by (apply Rmult_le_compat_l; lra).
    assert (beta * (Rabs T + Rabs TD) <= beta * (4 * M)) by (apply Rmult_le_compat_l; lra).
    assert (0 <= M) by lra. nra.
  - replace (n_dt c * (n_eta c * (Rabs T + Rabs TD) / n_CD c)) with (gamma * (Rabs T + Rabs TD)) by (unfold gamma; field; lra).
    assert (gamma * (Rabs T + Rabs TD) <= gamma * (4 * M)) by (apply Rmult_le_compat_l; lra). nra.
Qed.
End Stable.

Section Run.
Variable bexp : b64 -> b64.
Variable nd : nat.
Variable sd : string -> nat -> Q.
Variable rf : Units -> b64.
Notation E := (fenv bexp nd sd rf).
Variables (dt l a e h cu cl : b64).
Let c := mkTLN (B2R dt) (B2R l) (B2R a) (B2R e) (B2R h) (B2R cu) (B2R cl).
Hypothesis fin : is_finite dt = true /\ is_finite l = true /\ is_finite a = true /\ is_finite e = true /\
  is_finite h = true /\ is_finite cu = true /\ is_finite cl = true.
Hypothesis modc : moderate_tl c.
Variables (fs U L N : list b64) (F : nat -> R).
Hypothesis ser : tl_series E dt l a e h cu cl (fs : list (num E)) U L N.
Hypothesis ffs : forall i z, nth_error fs i = Some z -> is_finite z = true /\ B2R z = F i.

(** One step, from whatever finite and moderate values. *)
Lemma run_step : forall i u d u' d', moderate (F i) ->
  nth_error U i = Some u -> nth_error L i = Some d -> nth_error U (S i) = Some u' -> nth_error L (S i) = Some d' ->
  is_finite u = true -> is_finite d = true -> moderate (B2R u) -> moderate (B2R d) ->
  is_finite u' = true /\ is_finite d' = true /\
  Rabs (B2R u' - exact_upper c (F i) (B2R u) (B2R d)) <= half 49 * (upper_size c (F i) (B2R u) (B2R d) + half 400) /\
  Rabs (B2R d' - exact_lower c (B2R u) (B2R d)) <= half 49 * (lower_size c (B2R u) (B2R d) + half 400).
Proof.
  intros i u d u' d' MF HU HL HU' HL' Fu Fd Mu Md.
  destruct ser as (LU & LL & LN & _ & St). change (@List.length b64 U = @List.length b64 fs) in LU. change (@List.length b64 L = @List.length b64 fs) in LL. assert (Hi : (S i < List.length fs)%nat).
  { rewrite <- LU. apply nth_error_Some. cbn in *. rewrite HU'. discriminate. }
  destruct (nth_error fs i) as [f|] eqn:Ef; [|apply nth_error_None in Ef; lia].
  destruct (ffs _ _ Ef) as [Ff EF].
  destruct (St i f u d Hi Ef HU HL) as (S1 & S2 & _).
  pose proof (some_inj _ _ (eq_trans (eq_sym HU') S1)) as R1. pose proof (some_inj _ _ (eq_trans (eq_sym HL') S2)) as R2.
  destruct fin as (G1 & G2 & G3 & G4 & G5 & G6 & G7).
  assert (fin' : is_finite dt = true /\ is_finite u = true /\ is_finite d = true /\ is_finite f = true /\
    is_finite l = true /\ is_finite a = true /\ is_finite e = true /\ is_finite h = true) by (repeat split; assumption).
  rewrite <- EF in *.
  pose proof (upper_ap bexp nd sd rf _ _ _ _ _ _ _ _ cu cl fin' modc (conj Mu (conj Md MF))) as A.
  pose proof (lower_ap bexp nd sd rf _ _ _ _ _ _ _ _ cu cl fin' modc (conj Mu (conj Md MF))) as B.
  pose proof (upper_tiny_le dt u d f l a e h cu cl modc (conj Mu (conj Md MF))) as TA.
  pose proof (lower_tiny_le dt l a e h cu cl modc) as TB.
  pose proof (ap_size _ _ _ _ A) as SA. pose proof (ap_size _ _ _ _ B) as SB.
  pose proof (Rabs_pos (exact_upper c (B2R f) (B2R u) (B2R d))) as PA. pose proof (Rabs_pos (exact_lower c (B2R u) (B2R d))) as PB.
  fold c in A, B, TA, TB, SA, SB. pose proof grow_8 as G. pose proof (grow_nonneg 8) as G0.
  rewrite R1, R2. split; [exact (ap_fin _ _ _ _ A)|]. split; [exact (ap_fin _ _ _ _ B)|]. split.
  - eapply Rle_trans; [exact (ap_err _ _ _ _ A)|]. apply mulle; lra.
  - eapply Rle_trans; [exact (ap_err _ _ _ _ B)|]. apply mulle; lra.
Qed.

Section Bound.
Variable M : R.
Hypothesis st : stable_tl c.
Hypothesis HM : half 400 <= M /\ moderate (2 * M) /\ moderate (n_lambda0 c * M).
Hypothesis HF : forall i, (i < List.length fs)%nat -> Rabs (F i) <= n_lambda0 c * M.
Hypothesis Hk : half 46 * (1 + theta c) <= damping c.

Let r := half 46 * M / damping c.

Lemma r_props : 0 <= r /\ damping c * r = half 46 * M /\ (1 + theta c) * r <= M /\ r <= M.
Proof.
  destruct (damping_pos c st) as [D1 D2]. pose proof (theta_pos c st) as T1. pose proof (half_pos 46). pose proof (half_pos 400).
  destruct HM as (M1 & _). assert (0 <= r) by (unfold r; apply Rlt_le, Rdiv_lt_0_compat; nra).
  assert (E1 : damping c * r = half 46 * M) by (unfold r; field; lra).
  assert (E2 : (1 + theta c) * r <= M).
  { apply Rmult_le_reg_l with (damping c); [lra|]. rewrite <- Rmult_assoc, (Rmult_comm (damping c)), Rmult_assoc, E1.
    rewrite <- Rmult_assoc, (Rmult_comm _ (half 46)). apply Rmult_le_compat_r; lra. }
  repeat split; try assumption. nra.
Qed.
Lemma run_bound : forall i u d, nth_error U i = Some u -> nth_error L i = Some d ->
  is_finite u = true /\ is_finite d = true /\
  Rabs (B2R u - fst (exact_run c F i)) <= r /\ Rabs (B2R d - snd (exact_run c F i)) <= (1 + theta c) * r.
Proof.
  destruct r_props as (R0 & R1 & R2 & R3). pose proof (theta_pos c st) as T1. pose proof (half_pos 400) as H4.
  destruct HM as (M1 & M2 & M3). pose proof ser as (LU & LL & LN & Z & St). change (@List.length b64 U = @List.length b64 fs) in LU. change (@List.length b64 L = @List.length b64 fs) in LL.
  induction i as [|i IH]; intros u d HU HL.
  - destruct (Z) as (Z1 & Z2 & _). { intros ->. cbn in LU. destruct U; discriminate. }
    pose proof (some_inj _ _ (eq_trans (eq_sym HU) (Z1 : nth_error U 0 = Some (b64_of_Q 0)))) as Q1.
    pose proof (some_inj _ _ (eq_trans (eq_sym HL) (Z2 : nth_error L 0 = Some (b64_of_Q 0)))) as Q2.
    rewrite b64_zero in Q1, Q2. subst u d.
    cbn [is_finite exact_run fst snd B2R]. rewrite Rminus_0_r, Rabs_R0. repeat split; nra.
  - assert (Hi : (S i < List.length fs)%nat). { rewrite <- LU. apply nth_error_Some. cbn in *. rewrite HU. discriminate. }
    destruct (nth_error U i) as [u0|] eqn:EU; [|apply nth_error_None in EU; cbn in *; lia].
    destruct (nth_error L i) as [d0|] eqn:EL; [|apply nth_error_None in EL; cbn in *; lia].
    destruct (IH _ _ eq_refl eq_refl) as (F1 & F2 & B1 & B2).
    destruct (exact_bound c st F M (List.length fs) i HF ltac:(lra) ltac:(lia)) as [X1 X2].
    assert (U2 : Rabs (B2R u0) <= 2 * M).
    { replace (B2R u0) with (fst (exact_run c F i) + (B2R u0 - fst (exact_run c F i))) by ring.
      eapply Rle_trans; [apply Rabs_triang|]. lra. }
    assert (D2 : Rabs (B2R d0) <= 2 * M).
    { replace (B2R d0) with (snd (exact_run c F i) + (B2R d0 - snd (exact_run c F i))) by ring.
      eapply Rle_trans; [apply Rabs_triang|]. lra. }
    unfold moderate in M2, M3. pose proof (HF i ltac:(lia)) as HFi.
    assert (L1 : 0 < n_lambda0 c) by apply st.
    assert (L2 : 0 <= n_lambda0 c * M) by (apply Rmult_le_pos; lra).
    rewrite Rabs_right in M2, M3 by lra.
    destruct (run_step i u0 d0 u d ltac:(unfold moderate; lra) EU EL HU HL F1 F2 ltac:(unfold moderate; lra) ltac:(unfold moderate; lra))
      as (F3 & F4 & S1 & S2).
    split; [exact F3|]. split; [exact F4|].
    destruct (sizes c st (F i) (B2R u0) (B2R d0) M HFi U2 D2) as [Z1 Z2].
    destruct (contract c st (F i) _ _ _ _ r B1 B2) as [C1 C2].
    cbn [exact_run]. destruct (exact_run c F i) as [T TD]. cbn [fst snd] in *.
    assert (E46 : half 46 = 8 * half 49) by (destruct halves as (-> & _ & -> & _); ring). pose proof (half_pos 49).
    assert (W1 : half 49 * (upper_size c (F i) (B2R u0) (B2R d0) + half 400) <= half 46 * M) by (rewrite E46; nra).
    assert (W2 : half 49 * (lower_size c (B2R u0) (B2R d0) + half 400) <= half 46 * M) by (rewrite E46; nra).
    split.
    + replace (B2R u - exact_upper c (F i) T TD) with
        ((B2R u - exact_upper c (F i) (B2R u0) (B2R d0)) + (exact_upper c (F i) (B2R u0) (B2R d0) - exact_upper c (F i) T TD)) by ring.
      eapply Rle_trans; [apply Rabs_triang|]. lra.
    + replace (B2R d - exact_lower c T TD) with
        ((B2R d - exact_lower c (B2R u0) (B2R d0)) + (exact_lower c (B2R u0) (B2R d0) - exact_lower c T TD)) by ring.
      eapply Rle_trans; [apply Rabs_triang|].
      assert (K1 : 0 <= half 46 * M) by (pose proof (half_pos 46); apply Rmult_le_pos; lra).
      assert (K2 : 0 <= theta c * (half 46 * M)) by (apply Rmult_le_pos; lra).
      replace ((1 - damping c) * ((1 + theta c) * r)) with ((1 + theta c) * r - (1 + theta c) * (damping c * r)) in C2 by ring.
      rewrite R1 in C2. lra.
Qed.

Hypothesis Hdt : moderate_divisor (n_dt c).
Lemma uptake_ap : forall u d u' d', is_finite u = true -> is_finite d = true -> is_finite u' = true -> is_finite d' = true ->
  Rabs (B2R u' - B2R u) <= 4 * M -> Rabs (B2R d' - B2R d) <= 4 * M ->
  ap 4 (calculate_next_rndt E dt d' d cl u' u cu : b64) (exact_uptake c (B2R u) (B2R d) (B2R u') (B2R d'))
    ((n_C c * (4 * M) + omega) / n_dt c + omega + ((n_CD c * (4 * M) + omega) / n_dt c + omega)).
Proof.
  intros u d u' d' F1 F2 F3 F4 H1 H2.
  destruct modc as (D1 & D2 & D3 & D4 & D5 & D6 & D7 & D8 & D9). destruct HM as (M1 & M2 & M3).
  destruct st as (S1 & S2 & S3 & S4 & S5 & S6 & S7 & S8 & S9). destruct fin as (G1 & G2 & G3 & G4 & G5 & G6 & G7).
  cbn [n_dt n_lambda0 n_a n_eps n_eta n_C n_CD c] in *. unfold moderate in *. fold P in *.
  destruct P_powers as (E2 & E3 & E4 & E5 & E6). destruct P_chain as (Q1 & Q2 & Q3 & Q4 & Q5 & Q6 & Q7).
  pose proof omega_pos as W. pose proof omega_le as W1. pose proof (half_pos 400) as H400.
  rewrite (Rabs_right (2 * M)) in M2 by lra. rewrite (Rabs_right (B2R cu)) in D6 by lra.
  rewrite (Rabs_right (B2R cl)) in D7 by lra.
  assert (Pdt : B2R dt <> 0) by lra.
  assert (aux : forall (C x y : b64), is_finite C = true -> is_finite x = true -> is_finite y = true -> 0 < B2R C <= P ->
    Rabs (B2R x - B2R y) <= 4 * M ->
    ap 3 (Bdiv mode_NE (Bmult mode_NE C (Bminus mode_NE x y)) dt) (B2R C * (B2R x - B2R y) / B2R dt) ((B2R C * (4 * M) + omega) / B2R dt + omega) /\
    (B2R C * (4 * M) + omega) / B2R dt + omega <= 3 * P ^ 3).
  { intros C x y FC Fx Fy HC Hxy.
    pose proof (ap_dif0 _ _ Fx Fy ltac:(lra)) as A1. pose proof (ap_in _ FC) as AC. rewrite (Rabs_right (B2R C)) in AC by lra.
    pose proof (Rabs_pos (B2R x - B2R y)) as N0.
    assert (A1' : ap 1 (Bminus mode_NE x y) (B2R x - B2R y) (4 * M)) by (eapply ap_weaken; [exact A1|lia|exact Hxy]).
    assert (N1 : 0 <= B2R C * (4 * M)) by (apply Rmult_le_pos; lra).
    assert (K1 : B2R C * (4 * M) <= 2 * P ^ 2) by (replace (2 * P ^ 2) with (P * (2 * P)) by (rewrite E2; ring); apply mulle; lra).
    pose proof (ap_mul _ _ _ _ _ _ _ _ AC A1' ltac:(cbn; lia) ltac:(lra)) as A2. cbn [Nat.add] in A2.
    pose proof (divP (B2R C * (4 * M) + omega) (B2R dt) (2 * P ^ 2 + 1) ltac:(lra) ltac:(lra) Hdt) as K2.
    rewrite (Rabs_right (B2R dt)) in K2 by lra.
    replace ((2 * P ^ 2 + 1) * P) with (2 * P ^ 3 + P) in K2 by (rewrite E3; ring).
    pose proof (ap_div _ _ dt _ _ A2 Pdt ltac:(lia) ltac:(rewrite (Rabs_right (B2R dt)) by lra; lra)) as A3.
    rewrite (Rabs_right (B2R dt)) in A3 by lra. split; [exact A3|lra]. }
  destruct (aux cl d' d G7 F4 F2 ltac:(lra) H2) as [AL BL]. destruct (aux cu u' u G6 F3 F1 ltac:(lra) H1) as [AU BU].
  pose proof (ap_sum _ _ _ _ _ _ _ _ AU AL ltac:(lia) ltac:(lia) ltac:(lra)) as A. cbn [Nat.max] in A. exact A.
Qed.
Lemma uptake_bound : forall i z, nth_error N i = Some z ->
  is_finite z = true /\
  Rabs (B2R z - exact_uptakes c F i) <= half 44 * ((n_C c + n_CD c) / n_dt c) * ((1 + theta c) * M / damping c).
Proof.
  destruct r_props as (R0 & R1 & R2 & R3). pose proof (theta_pos c st) as T1. pose proof (half_pos 400) as H4.
  destruct (damping_pos c st) as [Dp Dp1].
  pose proof HM as (M1 & M2 & M3). pose proof ser as (LU & LL & LN & Z & St).
  change (@List.length b64 U = @List.length b64 fs) in LU. change (@List.length b64 L = @List.length b64 fs) in LL.
  change (@List.length b64 N = @List.length b64 fs) in LN.
  assert (S1 : 0 < n_dt c) by apply st. assert (S6 : 0 < n_C c) by apply st. assert (S7 : 0 < n_CD c) by apply st.
  assert (K0 : 0 < (n_C c + n_CD c) / n_dt c) by (apply Rdiv_lt_0_compat; lra).
  assert (K1 : M <= (1 + theta c) * M / damping c).
  { apply Rmult_le_reg_r with (damping c); [lra|]. unfold Rdiv. rewrite Rmult_assoc, Rinv_l by lra.
    assert (0 <= theta c * M) by (apply Rmult_le_pos; lra). assert (M * damping c <= M * 1) by (apply Rmult_le_compat_l; lra). lra. }
  intros [|i] z Hz.
  - destruct Z as (_ & _ & Z3). { intros ->. cbn in LN. destruct N; discriminate. }
    pose proof (some_inj _ _ (eq_trans (eq_sym Hz) (Z3 : nth_error N 0 = Some (b64_of_Q 0)))) as Q1. rewrite b64_zero in Q1. subst z.
    cbn [is_finite exact_uptakes B2R]. rewrite Rminus_0_r, Rabs_R0. split; [reflexivity|]. pose proof (half_pos 44).
    apply Rmult_le_pos; [apply Rmult_le_pos|]; lra.
  - assert (Hi : (S i < List.length fs)%nat). { rewrite <- LN. apply nth_error_Some. rewrite Hz. discriminate. }
    destruct (nth_error fs i) as [f|] eqn:Ef; [|apply nth_error_None in Ef; lia].
    destruct (nth_error U i) as [u|] eqn:EU; [|apply nth_error_None in EU; lia].
    destruct (nth_error L i) as [d|] eqn:EL; [|apply nth_error_None in EL; lia].
    destruct (nth_error U (S i)) as [u'|] eqn:EU'; [|apply nth_error_None in EU'; lia].
    destruct (nth_error L (S i)) as [d'|] eqn:EL'; [|apply nth_error_None in EL'; lia].
    destruct (St i f u d Hi Ef EU EL) as (P1 & P2 & P3).
    pose proof (some_inj _ _ (eq_trans (eq_sym EU') P1)) as Q1. pose proof (some_inj _ _ (eq_trans (eq_sym EL') P2)) as Q2.
    cbv zeta in P3. rewrite <- Q1, <- Q2 in P3. pose proof (some_inj _ _ (eq_trans (eq_sym Hz) P3)) as Q3.
    destruct (run_bound _ _ _ EU EL) as (F1 & F2 & B1 & B2). destruct (run_bound _ _ _ EU' EL') as (F3 & F4 & B3 & B4).
    destruct (exact_bound c st F M (List.length fs) i HF ltac:(lra) ltac:(lia)) as [X1 X2].
    destruct (exact_bound c st F M (List.length fs) (S i) HF ltac:(lra) ltac:(lia)) as [X3 X4].
    unfold exact_uptakes.
    set (T := fst (exact_run c F i)) in *. set (TD := snd (exact_run c F i)) in *.
    set (T' := fst (exact_run c F (S i))) in *. set (TD' := snd (exact_run c F (S i))) in *.
    apply Rabs_elim in B1. apply Rabs_elim in B2. apply Rabs_elim in B3. apply Rabs_elim in B4.
    apply Rabs_elim in X1. apply Rabs_elim in X2. apply Rabs_elim in X3. apply Rabs_elim in X4.
    pose proof (uptake_ap u d u' d' F1 F2 F3 F4 ltac:(apply Rabs_le3; lra) ltac:(apply Rabs_le3; lra)) as A.
    assert (Ez : z = (calculate_next_rndt E dt d' d cl u' u cu : b64)) by exact Q3. rewrite <- Ez in A.
    split; [exact (ap_fin _ _ _ _ A)|]. pose proof (ap_err _ _ _ _ A) as Er. pose proof (ap_size _ _ _ _ A) as Sz.
    set (x := B2R u' - T' - (B2R u - T)). set (y := B2R d' - TD' - (B2R d - TD)).
    assert (Hx : Rabs x <= 2 * ((1 + theta c) * r)) by (apply Rabs_le3; unfold x; assert (0 <= theta c * r) by (apply Rmult_le_pos; lra); lra).
    assert (Hy : Rabs y <= 2 * ((1 + theta c) * r)) by (apply Rabs_le3; unfold y; lra).
    assert (Dx : exact_uptake c (B2R u) (B2R d) (B2R u') (B2R d') - exact_uptake c T TD T' TD' = n_C c / n_dt c * x + n_CD c / n_dt c * y).
    { unfold exact_uptake, x, y. field. lra. }
    assert (Dx' : Rabs (n_C c / n_dt c * x + n_CD c / n_dt c * y) <= (n_C c + n_CD c) / n_dt c * (2 * ((1 + theta c) * r))).
    { eapply Rle_trans; [apply Rabs_triang|]. rewrite !Rabs_mult.
      rewrite (Rabs_right (n_C c / n_dt c)), (Rabs_right (n_CD c / n_dt c)) by (apply Rle_ge, Rlt_le, Rdiv_lt_0_compat; lra).
      replace ((n_C c + n_CD c) / n_dt c * (2 * ((1 + theta c) * r))) with
        (n_C c / n_dt c * (2 * ((1 + theta c) * r)) + n_CD c / n_dt c * (2 * ((1 + theta c) * r))) by (field; lra).
      apply Rplus_le_compat; apply Rmult_le_compat_l; try assumption; apply Rlt_le, Rdiv_lt_0_compat; lra. }
    (* the size of the sum *)
    assert (Tiny : omega / n_dt c + omega + (omega / n_dt c + omega) <= (n_C c + n_CD c) / n_dt c * M).
    { destruct modc as (D1 & _ & _ & _ & _ & _ & _ & D8 & _). unfold moderate, moderate_divisor in *. rewrite (Rabs_right (n_dt c)) in * by lra.
      rewrite (Rabs_right (n_C c)) in D8 by lra. fold P in D1. rewrite P_half in *. destruct P_powers as (E2 & E3 & E4 & _).
      destruct P_chain as (Q1' & Q2' & Q3' & Q4' & Q5' & _). pose proof omega_P4 as O4. pose proof omega_pos.
      apply Rmult_le_reg_r with (n_dt c); [lra|].
      replace ((omega / n_dt c + omega + (omega / n_dt c + omega)) * n_dt c) with (2 * omega * (1 + n_dt c)) by (field; lra).
      replace ((n_C c + n_CD c) / n_dt c * M * n_dt c) with ((n_C c + n_CD c) * M) by (field; lra).
      apply Rle_trans with (/ P * (omega * P ^ 4)).
      - replace (/ P * (omega * P ^ 4)) with (omega * P ^ 3) by (rewrite E4; field; lra). nra.
      - assert (0 < / P) by (apply Rinv_0_lt_compat; lra). apply mulle; try lra. apply Rmult_le_pos; lra. }
    assert (Sm : (n_C c * (4 * M) + omega) / n_dt c + omega + ((n_CD c * (4 * M) + omega) / n_dt c + omega) <= (n_C c + n_CD c) / n_dt c * (5 * M)).
    { replace ((n_C c * (4 * M) + omega) / n_dt c + omega + ((n_CD c * (4 * M) + omega) / n_dt c + omega)) with
        ((n_C c + n_CD c) / n_dt c * (4 * M) + (omega / n_dt c + omega + (omega / n_dt c + omega))) by (field; lra). lra. }
    pose proof grow_4 as G4. pose proof (grow_nonneg 4) as G4'. pose proof (Rabs_pos (exact_uptake c (B2R u) (B2R d) (B2R u') (B2R d'))) as Px.
    assert (Er' : Rabs (B2R z - exact_uptake c (B2R u) (B2R d) (B2R u') (B2R d')) <= half 50 * ((n_C c + n_CD c) / n_dt c * (5 * M))).
    { eapply Rle_trans; [exact Er|]. apply mulle; lra. }
    replace (B2R z - exact_uptake c T TD T' TD') with
      ((B2R z - exact_uptake c (B2R u) (B2R d) (B2R u') (B2R d')) + (exact_uptake c (B2R u) (B2R d) (B2R u') (B2R d') - exact_uptake c T TD T' TD')) by ring.
    rewrite Dx. eapply Rle_trans; [apply Rabs_triang|].
    assert (Rr : (1 + theta c) * r = half 46 * ((1 + theta c) * M / damping c)) by (unfold r; field; lra).
    rewrite Rr in Dx'. set (G := (1 + theta c) * M / damping c) in *. set (k := (n_C c + n_CD c) / n_dt c) in *.
    assert (kG : k * M <= k * G) by (apply Rmult_le_compat_l; lra).
    pose proof (half_pos 53). assert (0 <= k * G) by nra.
    destruct halves as (_ & E50 & E46 & _ & _ & _ & _ & _ & E44 & _). rewrite E50 in Er'. rewrite E46 in Dx'. rewrite E44.
    assert (half 53 * (k * M) <= half 53 * (k * G)) by (apply Rmult_le_compat_l; lra).
    replace (512 * half 53 * k * G) with (512 * (half 53 * (k * G))) by ring.
    replace (8 * half 53 * (k * (5 * M))) with (40 * (half 53 * (k * M))) in Er' by ring.
    replace (k * (2 * (128 * half 53 * G))) with (256 * (half 53 * (k * G))) in Dx' by ring.
    assert (0 <= half 53 * (k * G)) by (apply Rmult_le_pos; lra). lra.
Qed.
End Bound.
End Run.
