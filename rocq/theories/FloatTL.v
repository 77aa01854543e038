(** Rounding errors of the two-layer steps and runs. *)
From Coq Require Import List String QArith Reals Bool Arith Lra Lia Psatz.
From Flocq Require Import Core IEEE754.BinarySingleNaN.
From Verif Require Import Arith Pint Base TwoLayer Impulse Scm Api Spec Float SpecRound.
Import ListNotations.
Local Open Scope R_scope.

(** ** Powers of P = 2^150 *)
Definition P : R := two 150.
Lemma P_ge : 1024 <= P.
Proof. unfold P, two. apply IZR_le. vm_compute. discriminate. Qed.
Lemma P_half : half 150 = / P.
Proof. reflexivity. Qed.
Lemma P6_big : P ^ 6 <= big.
Proof.
  unfold P, two, big. rewrite pow_IZR. apply IZR_le. vm_compute. discriminate.
Qed.
Lemma omega_P4 : omega * P ^ 4 <= half 400.
Proof.
  unfold omega, P, two, half. rewrite pow_IZR.
  apply Rmult_le_reg_l with (IZR (2 ^ 1022)); [apply IZR_lt; reflexivity|].
  rewrite <- Rmult_assoc, Rinv_r, Rmult_1_l by (apply not_0_IZR; discriminate).
  apply Rmult_le_reg_r with (IZR (2 ^ 400)); [apply IZR_lt; reflexivity|].
  rewrite Rmult_assoc, Rinv_l, Rmult_1_r by (apply not_0_IZR; discriminate).
  rewrite <- mult_IZR. apply IZR_le. vm_compute. discriminate.
Qed.
Lemma half_pos : forall n, 0 < half n.
Proof. intros. unfold half. apply Rinv_0_lt_compat, IZR_lt. lia. Qed.
Lemma half_mul : forall m n, half m * half n = half (m + n).
Proof.
  intros. unfold half. rewrite <- Rinv_mult, <- mult_IZR. f_equal. f_equal.
  change (Zpos (m + n)) with (Zpos m + Zpos n)%Z. rewrite Z.pow_add_r by lia. reflexivity.
Qed.
Lemma half_dbl : forall n, 2 * half (n + 1) = half n.
Proof.
  intros. rewrite <- half_mul. unfold half at 2. change (2 ^ 1)%Z with 2%Z. field.
Qed.
Lemma half_u : half 53 = uround.
Proof. reflexivity. Qed.
Lemma half_1 : half 1 = / 2.
Proof. reflexivity. Qed.
(** Literal relations between the small numbers used below. *)
Lemma halves : half 49 = 16 * half 53 /\ half 50 = 8 * half 53 /\ half 46 = 128 * half 53 /\ half 52 = 2 * half 53
  /\ half 51 = 4 * half 53 /\ half 47 = 64 * half 53 /\ half 48 = 32 * half 53 /\ half 45 = 256 * half 53 /\ half 44 = 512 * half 53
  /\ half 43 = 1024 * half 53 /\ half 42 = 2048 * half 53.
Proof.
  pose proof (half_dbl 52). pose proof (half_dbl 51). pose proof (half_dbl 50). pose proof (half_dbl 49).
  pose proof (half_dbl 48). pose proof (half_dbl 47). pose proof (half_dbl 46). pose proof (half_dbl 45).
  pose proof (half_dbl 44). pose proof (half_dbl 43). pose proof (half_dbl 42).
  cbn [Pos.add Pos.succ] in *. repeat split; lra.
Qed.
Lemma grow_8 : grow 8 <= half 49.
Proof. pose proof (grow_bound 8 ltac:(lia)) as H. cbn [INR] in H. destruct halves as (-> & _). rewrite half_u. lra. Qed.
Lemma grow_4 : grow 4 <= half 50.
Proof. pose proof (grow_bound 4 ltac:(lia)) as H. cbn [INR] in H. destruct halves as (_ & -> & _). rewrite half_u. lra. Qed.

Lemma mulle : forall a b c d, 0 <= a -> a <= b -> 0 <= c -> c <= d -> a * c <= b * d.
Proof. intros. apply Rmult_le_compat; assumption. Qed.
Lemma divP : forall x C K, 0 <= x -> x <= K -> moderate_divisor C -> x / Rabs C <= K * P.
Proof.
  intros x C K Hx Hk H. unfold moderate_divisor in H. rewrite P_half in H. unfold Rdiv. pose proof P_ge.
  assert (0 < / P) by (apply Rinv_0_lt_compat; lra).
  assert (/ Rabs C <= P). { rewrite <- (Rinv_inv P). apply Rinv_le_contravar; assumption. }
  apply mulle; try lra. left. apply Rinv_0_lt_compat. lra.
Qed.
Lemma div_nonneg : forall x C, 0 <= x -> moderate_divisor C -> 0 <= x / Rabs C.
Proof.
  intros x C Hx H. unfold Rdiv. apply Rmult_le_pos; [exact Hx|]. left. apply Rinv_0_lt_compat.
  unfold moderate_divisor in H. pose proof (half_pos 150). lra.
Qed.
Lemma divisor_nz : forall C, moderate_divisor C -> C <> 0.
Proof. intros C H ->. unfold moderate_divisor in H. rewrite Rabs_R0 in H. pose proof (half_pos 150). lra. Qed.
Lemma P_powers : P ^ 2 = P * P /\ P ^ 3 = P * P ^ 2 /\ P ^ 4 = P * P ^ 3 /\ P ^ 5 = P * P ^ 4 /\ P ^ 6 = P * P ^ 5.
Proof. repeat split; cbn [pow]; ring. Qed.
Lemma P_chain : 1024 <= P /\ 1024 * P <= P ^ 2 /\ 1024 * P ^ 2 <= P ^ 3 /\ 1024 * P ^ 3 <= P ^ 4 /\
  1024 * P ^ 4 <= P ^ 5 /\ 1024 * P ^ 5 <= P ^ 6 /\ P ^ 6 <= big.
Proof.
  pose proof P_ge as H. destruct P_powers as (E2 & E3 & E4 & E5 & E6).
  assert (0 <= P ^ 2) by (apply pow_le; lra). assert (0 <= P ^ 3) by (apply pow_le; lra).
  assert (0 <= P ^ 4) by (apply pow_le; lra). assert (0 <= P ^ 5) by (apply pow_le; lra).
  repeat split; try exact P6_big; try exact H; rewrite ?E6, ?E5, ?E4, ?E3, ?E2; apply Rmult_le_compat_r; lra.
Qed.

(** Underflow terms. *)
Definition upper_tiny (c : TLN) (T TD : R) : R :=
  omega * (1 + Rabs (n_dt c) * (1 + (2 + 2 * Rabs T + Rabs TD) / Rabs (n_C c))).
Definition lower_tiny (c : TLN) : R :=
  omega * (1 + Rabs (n_dt c) * (1 + 1 / Rabs (n_CD c))).

Section Step.
Variable bexp : b64 -> b64.
Variable nd : nat.
Variable sd : string -> nat -> Q.
Variable rf : Units -> b64.
Notation E := (fenv bexp nd sd rf).

Section One.
Variables (dt tu tl f l a e h cu cl : b64).
Let c := mkTLN (B2R dt) (B2R l) (B2R a) (B2R e) (B2R h) (B2R cu) (B2R cl).
Hypothesis fin : is_finite dt = true /\ is_finite tu = true /\ is_finite tl = true /\ is_finite f = true /\
  is_finite l = true /\ is_finite a = true /\ is_finite e = true /\ is_finite h = true.
Hypothesis mod_c : moderate_tl c.
Hypothesis mod_x : moderate (B2R tu) /\ moderate (B2R tl) /\ moderate (B2R f).

Lemma upper_ap :
  ap 8 (calculate_next_temp_upper E dt tu tl f l a e h cu : b64)
    (exact_upper c (B2R f) (B2R tu) (B2R tl))
    (upper_size c (B2R f) (B2R tu) (B2R tl) + upper_tiny c (B2R tu) (B2R tl)).
Proof.
  destruct fin as (F1 & F2 & F3 & F4 & F5 & F6 & F7 & F8).
  destruct mod_c as (D1 & D2 & D3 & D4 & D5 & D6 & D7 & D8 & D9). destruct mod_x as (X1 & X2 & X3).
  cbn [n_dt n_lambda0 n_a n_eps n_eta n_C n_CD c] in *. unfold moderate in *. fold P in *.
  destruct P_powers as (E2 & E3 & E4 & E5 & E6). destruct P_chain as (Q1 & Q2 & Q3 & Q4 & Q5 & Q6 & Q7).
  pose proof omega_pos as W. pose proof omega_le as W1.
  pose proof (ap_in _ F1) as Adt. pose proof (ap_in _ F2) as Atu. pose proof (ap_in _ F3) as Atl.
  pose proof (ap_in _ F4) as Af. pose proof (ap_in _ F5) as Al. pose proof (ap_in _ F6) as Aa.
  pose proof (ap_in _ F7) as Ae. pose proof (ap_in _ F8) as Ah.
  pose proof (Rabs_pos (B2R dt)). pose proof (Rabs_pos (B2R tu)). pose proof (Rabs_pos (B2R tl)).
  pose proof (Rabs_pos (B2R f)). pose proof (Rabs_pos (B2R l)). pose proof (Rabs_pos (B2R a)).
  pose proof (Rabs_pos (B2R e)). pose proof (Rabs_pos (B2R h)).
  (* a * T *)
  assert (M1 : Rabs (B2R a) * Rabs (B2R tu) <= P ^ 2) by (rewrite E2; apply mulle; lra).
  assert (N1 : 0 <= Rabs (B2R a) * Rabs (B2R tu)) by (apply Rmult_le_pos; lra).
  pose proof (ap_mul _ _ _ _ _ _ _ _ Aa Atu ltac:(cbn; lia) ltac:(lra)) as A1.
  (* lambda0 - a T *)
  pose proof (ap_dif _ _ _ _ _ _ _ _ Al A1 ltac:(cbn; lia) ltac:(cbn; lia) ltac:(lra)) as A2.
  (* (lambda0 - a T) T *)
  assert (M2 : (Rabs (B2R l) + (Rabs (B2R a) * Rabs (B2R tu) + omega)) * Rabs (B2R tu) <= 2 * P ^ 3).
  { replace (2 * P ^ 3) with (2 * P ^ 2 * P) by (rewrite E3; ring). apply mulle; lra. }
  assert (N2 : 0 <= (Rabs (B2R l) + (Rabs (B2R a) * Rabs (B2R tu) + omega)) * Rabs (B2R tu)) by (apply Rmult_le_pos; lra).
  pose proof (ap_mul _ _ _ _ _ _ _ _ A2 Atu ltac:(cbn; lia) ltac:(lra)) as A3.
  (* efficacy * eta *)
  assert (M3 : Rabs (B2R e) * Rabs (B2R h) <= P ^ 2) by (rewrite E2; apply mulle; lra).
  assert (N3 : 0 <= Rabs (B2R e) * Rabs (B2R h)) by (apply Rmult_le_pos; lra).
  pose proof (ap_mul _ _ _ _ _ _ _ _ Ae Ah ltac:(cbn; lia) ltac:(lra)) as A4.
  (* T - TD *)
  pose proof (ap_dif _ _ _ _ _ _ _ _ Atu Atl ltac:(cbn; lia) ltac:(cbn; lia) ltac:(lra)) as A5.
  (* exchange *)
  assert (M4 : (Rabs (B2R e) * Rabs (B2R h) + omega) * (Rabs (B2R tu) + Rabs (B2R tl)) <= 4 * P ^ 3).
  { replace (4 * P ^ 3) with (2 * P ^ 2 * (2 * P)) by (rewrite E3; ring). apply mulle; lra. }
  assert (N4 : 0 <= (Rabs (B2R e) * Rabs (B2R h) + omega) * (Rabs (B2R tu) + Rabs (B2R tl))) by (apply Rmult_le_pos; lra).
  pose proof (ap_mul _ _ _ _ _ _ _ _ A4 A5 ltac:(cbn; lia) ltac:(lra)) as A6.
  pose proof (ap_dif _ _ _ _ _ _ _ _ Af A3 ltac:(cbn; lia) ltac:(cbn; lia) ltac:(lra)) as A7.
  pose proof (ap_dif _ _ _ _ _ _ _ _ A7 A6 ltac:(cbn; lia) ltac:(cbn; lia) ltac:(lra)) as A8.
  match type of A8 with ap _ _ _ ?S => set (S8 := S) in * end.
  assert (M5 : 0 <= S8 <= 10 * P ^ 3) by (unfold S8; lra).
  pose proof (divP _ _ _ (proj1 M5) (proj2 M5) D8) as M6. pose proof (div_nonneg _ _ (proj1 M5) D8) as N6.
  replace (10 * P ^ 3 * P) with (10 * P ^ 4) in M6 by (rewrite E4; ring).
  pose proof (ap_div _ _ cu _ _ A8 (divisor_nz _ D8) ltac:(cbn; lia) ltac:(lra)) as A9.
  assert (M7 : Rabs (B2R dt) * (S8 / Rabs (B2R cu) + omega) <= 11 * P ^ 5).
  { replace (11 * P ^ 5) with (P * (11 * P ^ 4)) by (rewrite E5; ring). apply mulle; lra. }
  assert (N7 : 0 <= Rabs (B2R dt) * (S8 / Rabs (B2R cu) + omega)) by (apply Rmult_le_pos; lra).
  pose proof (ap_mul _ _ _ _ _ _ _ _ Adt A9 ltac:(cbn; lia) ltac:(lra)) as A10.
  pose proof (ap_sum _ _ _ _ _ _ _ _ Atu A10 ltac:(cbn; lia) ltac:(cbn; lia) ltac:(lra)) as A11.
  cbn [Nat.add Nat.max] in A11.
  eapply ap_weaken; [exact A11|cbn; lia|].
  right. unfold upper_size, upper_tiny, S8. cbn [n_dt n_lambda0 n_a n_eps n_eta n_C n_CD c]. field.
  apply Rabs_no_R0, (divisor_nz _ D8).
Qed.

Lemma lower_ap :
  ap 8 (calculate_next_temp_lower E dt tl tu h cl : b64)
    (exact_lower c (B2R tu) (B2R tl)) (lower_size c (B2R tu) (B2R tl) + lower_tiny c).
Proof.
  destruct fin as (F1 & F2 & F3 & F4 & F5 & F6 & F7 & F8).
  destruct mod_c as (D1 & D2 & D3 & D4 & D5 & D6 & D7 & D8 & D9). destruct mod_x as (X1 & X2 & X3).
  cbn [n_dt n_lambda0 n_a n_eps n_eta n_C n_CD c] in *. unfold moderate in *. fold P in *.
  destruct P_powers as (E2 & E3 & E4 & E5 & E6). destruct P_chain as (Q1 & Q2 & Q3 & Q4 & Q5 & Q6 & Q7).
  pose proof omega_pos as W. pose proof omega_le as W1.
  pose proof (ap_in _ F1) as Adt. pose proof (ap_in _ F2) as Atu. pose proof (ap_in _ F3) as Atl.
  pose proof (ap_in _ F8) as Ah.
  pose proof (Rabs_pos (B2R dt)). pose proof (Rabs_pos (B2R tu)). pose proof (Rabs_pos (B2R tl)).
  pose proof (Rabs_pos (B2R h)).
  pose proof (ap_dif _ _ _ _ _ _ _ _ Atu Atl ltac:(cbn; lia) ltac:(cbn; lia) ltac:(lra)) as A5.
  assert (M4 : Rabs (B2R h) * (Rabs (B2R tu) + Rabs (B2R tl)) <= 2 * P ^ 2).
  { replace (2 * P ^ 2) with (P * (2 * P)) by (rewrite E2; ring). apply mulle; lra. }
  assert (N4 : 0 <= Rabs (B2R h) * (Rabs (B2R tu) + Rabs (B2R tl))) by (apply Rmult_le_pos; lra).
  pose proof (ap_mul _ _ _ _ _ _ _ _ Ah A5 ltac:(cbn; lia) ltac:(lra)) as A6.
  match type of A6 with ap _ _ _ ?S => set (S8 := S) in * end.
  assert (M5 : 0 <= S8 <= 3 * P ^ 2) by (unfold S8; lra).
  pose proof (divP _ _ _ (proj1 M5) (proj2 M5) D9) as M6. pose proof (div_nonneg _ _ (proj1 M5) D9) as N6.
  replace (3 * P ^ 2 * P) with (3 * P ^ 3) in M6 by (rewrite E3; ring).
  pose proof (ap_div _ _ cl _ _ A6 (divisor_nz _ D9) ltac:(cbn; lia) ltac:(lra)) as A9.
  assert (M7 : Rabs (B2R dt) * (S8 / Rabs (B2R cl) + omega) <= 4 * P ^ 4).
  { replace (4 * P ^ 4) with (P * (4 * P ^ 3)) by (rewrite E4; ring). apply mulle; lra. }
  assert (N7 : 0 <= Rabs (B2R dt) * (S8 / Rabs (B2R cl) + omega)) by (apply Rmult_le_pos; lra).
  pose proof (ap_mul _ _ _ _ _ _ _ _ Adt A9 ltac:(cbn; lia) ltac:(lra)) as A10.
  pose proof (ap_sum _ _ _ _ _ _ _ _ Atl A10 ltac:(cbn; lia) ltac:(cbn; lia) ltac:(lra)) as A11.
  cbn [Nat.add Nat.max] in A11.
  eapply ap_weaken; [exact A11|cbn; lia|].
  right. unfold lower_size, lower_tiny, S8. cbn [n_dt n_lambda0 n_a n_eps n_eta n_C n_CD c]. field.
  apply Rabs_no_R0, (divisor_nz _ D9).
Qed.

Lemma upper_tiny_le : 0 <= upper_tiny c (B2R tu) (B2R tl) <= half 400.
Proof.
  destruct mod_c as (D1 & D2 & D3 & D4 & D5 & D6 & D7 & D8 & D9). destruct mod_x as (X1 & X2 & X3).
  cbn [n_dt n_lambda0 n_a n_eps n_eta n_C n_CD c] in *. unfold moderate in *. fold P in *.
  destruct P_powers as (E2 & E3 & E4 & E5 & E6). destruct P_chain as (Q1 & Q2 & Q3 & Q4 & Q5 & Q6 & Q7).
  pose proof omega_pos as W. pose proof (Rabs_pos (B2R dt)). pose proof (Rabs_pos (B2R tu)). pose proof (Rabs_pos (B2R tl)).
  unfold upper_tiny. cbn [n_dt n_C c].
  assert (M : 0 <= 2 + 2 * Rabs (B2R tu) + Rabs (B2R tl) <= 4 * P) by lra.
  pose proof (divP _ _ _ (proj1 M) (proj2 M) D8) as M6. pose proof (div_nonneg _ _ (proj1 M) D8) as N6.
  set (k := (2 + 2 * Rabs (B2R tu) + Rabs (B2R tl)) / Rabs (B2R cu)) in *.
  assert (K : Rabs (B2R dt) * (1 + k) <= P * (5 * P ^ 2)) by (apply mulle; rewrite ?E2; try lra; nra).
  replace (P * (5 * P ^ 2)) with (5 * P ^ 3) in K by (rewrite E3; ring).
  assert (K0 : 0 <= Rabs (B2R dt) * (1 + k)) by (apply Rmult_le_pos; lra).
  split; [apply Rmult_le_pos; lra|].
  apply Rle_trans with (omega * P ^ 4); [apply Rmult_le_compat_l; lra|]. exact omega_P4.
Qed.
Lemma lower_tiny_le : 0 <= lower_tiny c <= half 400.
Proof.
  destruct mod_c as (D1 & D2 & D3 & D4 & D5 & D6 & D7 & D8 & D9).
  cbn [n_dt n_lambda0 n_a n_eps n_eta n_C n_CD c] in *. unfold moderate in *. fold P in *.
  destruct P_powers as (E2 & E3 & E4 & E5 & E6). destruct P_chain as (Q1 & Q2 & Q3 & Q4 & Q5 & Q6 & Q7).
  pose proof omega_pos as W. pose proof (Rabs_pos (B2R dt)).
  unfold lower_tiny. cbn [n_dt n_CD c].
  pose proof (divP 1 _ 1 ltac:(lra) ltac:(lra) D9) as M6. pose proof (div_nonneg 1 _ ltac:(lra) D9) as N6.
  set (k := 1 / Rabs (B2R cl)) in *.
  assert (K : Rabs (B2R dt) * (1 + k) <= P * (2 * P)) by (apply mulle; lra).
  replace (P * (2 * P)) with (2 * P ^ 2) in K by (rewrite E2; ring).
  assert (K0 : 0 <= Rabs (B2R dt) * (1 + k)) by (apply Rmult_le_pos; lra).
  split; [apply Rmult_le_pos; lra|].
  apply Rle_trans with (omega * P ^ 4); [apply Rmult_le_compat_l; lra|]. exact omega_P4.
Qed.
End One.
End Step.
