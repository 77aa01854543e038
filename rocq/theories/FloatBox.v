(** Rounding errors of the impulse-response boxes. *)
From Coq Require Import List String QArith Reals Bool Arith Lra Lia Psatz.
From Flocq Require Import Core IEEE754.BinarySingleNaN.
From Verif Require Import Arith Pint Base TwoLayer Impulse Scm Api Spec Float SpecRound FloatTL FloatRun.
Import ListNotations.
Local Open Scope R_scope.

(** ** The decay factor *)
Lemma exp_diff : forall a b m, a <= m -> b <= m -> Rabs (exp a - exp b) <= exp m * Rabs (a - b).
Proof.
  assert (W : forall a b, a <= b -> exp b - exp a <= exp b * (b - a)).
  { intros a b H. replace (exp a) with (exp b * exp (a - b)) by (rewrite <- exp_plus; f_equal; ring).
    pose proof (exp_ineq1_le (a - b)). pose proof (exp_pos b). nra. }
  assert (Mo : forall a b, a <= b -> exp a <= exp b).
  { intros a b [H| ->]; [left; now apply exp_increasing|right; reflexivity]. }
  intros a b m Ha Hb. destruct (Rle_dec a b) as [H|H].
  - rewrite (Rabs_left1 (exp a - exp b)), (Rabs_left1 (a - b)) by (try lra; pose proof (Mo a b H); lra).
    pose proof (W a b H). pose proof (Mo b m Hb). pose proof (exp_pos b). nra.
  - assert (b <= a) by lra. rewrite !Rabs_right by (try lra; pose proof (Mo b a ltac:(lra)); lra).
    pose proof (W b a ltac:(lra)). pose proof (Mo a m Ha). pose proof (exp_pos a). nra.
Qed.
Lemma exp_w : forall w, 0 <= w -> w * exp (- (w / 2)) <= 1.
Proof.
  intros w H. replace (exp (- (w / 2))) with (/ exp (w / 2)) by (rewrite <- exp_Ropp; reflexivity).
  apply Rmult_le_reg_r with (exp (w / 2)); [apply exp_pos|]. rewrite Rmult_assoc, Rinv_l, Rmult_1_l, Rmult_1_r
    by (apply Rgt_not_eq, exp_pos).
  replace (w / 2) with (w / 4 + w / 4) by field. rewrite exp_plus. pose proof (exp_ineq1_le (w / 4)) as H1.
  assert (H2 : (1 + w / 4) * (1 + w / 4) <= exp (w / 4) * exp (w / 4)) by (apply mulle; lra).
  pose proof (Rle_0_sqr (1 - w / 4)) as H3. unfold Rsqr in H3. lra.
Qed.

Section Decay.
Variable bexp : b64 -> b64.
Hypothesis gexp : good_exp bexp.
Variables dt d : b64.
Hypothesis fdt : is_finite dt = true.
Hypothesis pdt : 0 <= B2R dt.
Hypothesis pd : 0 < B2R d.
Hypothesis mdt : moderate (B2R dt).
Hypothesis md : moderate_divisor (B2R d).

Let E := bexp (Bdiv mode_NE (Bopp dt) d).

Lemma rnd_nonpos : forall x, x <= 0 -> rnd x <= 0.
Proof. intros x H. rewrite <- (round_0 radix2 (SpecFloat.fexp 53 1024) ZnearestE). apply round_le; [typeclasses eauto|typeclasses eauto|exact H]. Qed.

Lemma decay_close : is_finite E = true /\ Rabs (B2R E - exp (- B2R dt / B2R d)) <= half 51.
Proof.
  assert (fn : is_finite (Bopp dt) = true) by (rewrite is_finite_Bopp; exact fdt).
  set (t := B2R dt / B2R d).
  assert (Ht : 0 <= t) by (unfold t, Rdiv; apply Rmult_le_pos; [lra|]; left; apply Rinv_0_lt_compat; lra).
  assert (Et : B2R (Bopp dt) / B2R d = - t) by (rewrite B2R_Bopp; unfold t; field; lra).
  assert (TP : t <= P * P).
  { unfold t. pose proof (divP (B2R dt) (B2R d) P pdt) as K. rewrite (Rabs_right (B2R d)) in K by lra. apply K; [|exact md].
    unfold moderate in mdt. rewrite Rabs_right in mdt by lra. exact mdt. }
  destruct P_powers as (E2 & _). destruct P_chain as (Q1 & Q2 & Q3 & Q4 & Q5 & Q6 & Q7).
  pose proof (Bdiv_correct 53 1024 _ _ mode_NE (Bopp dt) d ltac:(lra)) as C. cbn [round_mode] in C. rewrite Et in C.
  rewrite (rnd_no_overflow (- t)) in C by (rewrite Rabs_Ropp, Rabs_right by lra; lra).
  destruct C as (C1 & C2 & _). rewrite fn in C2.
  set (z := Bdiv mode_NE (Bopp dt) d) in *.
  assert (Nz : B2R z <= 0) by (rewrite C1; apply rnd_nonpos; lra).
  destruct (gexp z C2 Nz) as [G1 G2]. split; [exact G1|]. fold E in G2.
  pose proof (rnd_err (- t)) as Er. rewrite <- C1 in Er. rewrite Rabs_Ropp, (Rabs_right t) in Er by lra.
  replace (- B2R dt / B2R d) with (- t) by (unfold t; field; lra).
  pose proof uround_pos as U0. pose proof uround_small as U1. pose proof omega_pos as W0. pose proof omega_le as W1.
  set (w := t + omega). assert (Er' : Rabs (B2R z - - t) <= uround * w) by (unfold w; lra).
  assert (Hw : uround * w <= / 1024 * w) by (apply Rmult_le_compat_r; unfold w; lra).
  assert (Mx : - t <= - (w / 2) + 2 * omega /\ B2R z <= - (w / 2) + 2 * omega).
  { apply Rabs_elim in Er'. set (uw := uround * w) in *. unfold w in *. split; lra. }
  pose proof (exp_diff (B2R z) (- t) _ (proj2 Mx) (proj1 Mx)) as D. rewrite exp_plus in D.
  assert (e2 : exp (2 * omega) <= 2).
  { assert (K : exp (- (2 * omega)) >= / 2) by (pose proof (exp_ineq1_le (- (2 * omega))); lra).
    rewrite exp_Ropp in K. pose proof (exp_pos (2 * omega)). set (v := exp (2 * omega)) in *.
    assert (v * / v = 1) by (apply Rinv_r; lra). assert (v * / 2 <= v * / v) by (apply Rmult_le_compat_l; lra). lra. }
  pose proof (exp_w w ltac:(unfold w; lra)) as ew. pose proof (exp_pos (- (w / 2))) as e0. pose proof (exp_pos (2 * omega)) as e3.
  assert (D' : Rabs (exp (B2R z) - exp (- t)) <= 2 * uround).
  { eapply Rle_trans; [exact D|].
    apply Rle_trans with (exp (- (w / 2)) * 2 * (uround * w)).
    - apply mulle; try lra; [apply Rmult_le_pos; lra|apply Rmult_le_compat_l; lra|apply Rabs_pos].
    - replace (exp (- (w / 2)) * 2 * (uround * w)) with (2 * uround * (w * exp (- (w / 2)))) by ring.
      rewrite <- (Rmult_1_r (2 * uround)) at 2. apply Rmult_le_compat_l; lra. }
  replace (B2R E - exp (- t)) with ((B2R E - exp (B2R z)) + (exp (B2R z) - exp (- t))) by ring.
  eapply Rle_trans; [apply Rabs_triang|]. destruct halves as (_ & _ & _ & E52 & E51 & _). rewrite E52, half_u in G2. rewrite E51, half_u. lra.
Qed.
End Decay.

(** ** One box *)
Section Box.
Variable bexp : b64 -> b64.
Variable nd : nat.
Variable sd : string -> nat -> Q.
Variable rf : Units -> b64.
Notation Ev := (fenv bexp nd sd rf).
Hypothesis gexp : good_exp bexp.
Variables dt d q : b64.
Hypothesis fins : is_finite dt = true /\ is_finite d = true /\ is_finite q = true.
Hypothesis pdt : 0 <= B2R dt.
Hypothesis pd : 0 < B2R d.
Hypothesis mdt : moderate (B2R dt).
Hypothesis md : moderate_divisor (B2R d).
Let E := bexp (Bdiv mode_NE (Bopp dt) d).
Let x := exp (- B2R dt / B2R d).

Lemma x_range : 0 < x <= 1.
Proof.
  split; [apply exp_pos|]. unfold x. rewrite <- exp_0.
  assert (- B2R dt / B2R d <= 0).
  { replace (- B2R dt / B2R d) with (- (B2R dt / B2R d)) by (field; lra).
    assert (0 <= B2R dt / B2R d) by (unfold Rdiv; apply Rmult_le_pos; [lra|left; apply Rinv_0_lt_compat; lra]). lra. }
  destruct H as [H| ->]; [left; now apply exp_increasing|right; reflexivity].
Qed.

Lemma box_value : forall (t f : b64), calculate_next_temp Ev dt t q d f =
  Ok (Bplus mode_NE (Bmult mode_NE t E) (Bmult mode_NE (Bmult mode_NE f q) (Bminus mode_NE (b64_of_Q 1) E)) : num Ev).
Proof.
  intros t f. unfold calculate_next_temp.
  assert (Z : neqb Ev (d : num Ev) (nQ Ev 0) = false).
  { change (Beqb d (b64_of_Q 0) = false). rewrite b64_zero. rewrite Beqb_correct by (try apply fins; reflexivity).
    apply Req_bool_false. cbn. lra. }
  rewrite Z. reflexivity.
Qed.
(** One step from temperature [t], with forcing [f]. *)
Lemma box_step : forall t f, is_finite t = true -> is_finite f = true -> moderate (B2R t) -> moderate (B2R f) -> moderate (B2R q) ->
  exists t', calculate_next_temp Ev dt t q d f = Ok (t' : num Ev) /\ is_finite t' = true /\
    Rabs (B2R t' - exact_box (B2R q) (B2R d) (B2R dt) (B2R f) (B2R t)) <=
      half 49 * (Rabs (B2R t) + Rabs (B2R f) * Rabs (B2R q) + half 400) /\
    exists k, Rabs k <= x + half 51 /\
      Rabs (B2R t' - (B2R t * k + B2R f * B2R q * (1 - k))) <= half 50 * (2 * Rabs (B2R t) + 2 * (Rabs (B2R f) * Rabs (B2R q)) + half 400) /\
      Rabs (k - x) <= half 51.
Proof.
  intros t f Ft Ff Mt Mf Mq. destruct fins as (F1 & F2 & F3).
  destruct (decay_close bexp gexp dt d F1 pdt pd mdt md) as [FE CE]. fold E x in FE, CE.
  pose proof x_range as Hx. rewrite box_value. eexists. split; [reflexivity|].
  unfold moderate in *. fold P in *.
  destruct P_powers as (E2 & E3 & E4 & E5 & E6). destruct P_chain as (Q1 & Q2 & Q3 & Q4 & Q5 & Q6 & Q7).
  pose proof omega_pos as W. pose proof omega_le as W1. pose proof omega_P4 as W4. pose proof (half_pos 51) as h51.
  assert (Hu : half 51 <= / 256). { destruct halves as (_ & _ & _ & _ & -> & _). rewrite half_u. pose proof uround_small. lra. }
  pose proof (Rabs_pos (B2R t)). pose proof (Rabs_pos (B2R f)). pose proof (Rabs_pos (B2R q)).
  assert (AE : Rabs (B2R E) <= x + half 51).
  { replace (B2R E) with (x + (B2R E - x)) by ring. eapply Rle_trans; [apply Rabs_triang|]. rewrite (Rabs_right x); lra. }
  assert (A1E : Rabs (1 - B2R E) <= 1 + half 51).
  { replace (1 - B2R E) with ((1 - x) + - (B2R E - x)) by ring. eapply Rle_trans; [apply Rabs_triang|].
    rewrite Rabs_Ropp, (Rabs_right (1 - x)); lra. }
  destruct b64_one as [O1 O2].
  pose proof (ap_in _ Ft) as At. pose proof (ap_in _ Ff) as Af. pose proof (ap_in _ F3) as Aq. pose proof (ap_in _ FE) as AEE.
  assert (K1 : Rabs (B2R t) * Rabs (B2R E) <= P * 2) by (apply mulle; try lra; apply Rabs_pos).
  pose proof (Rabs_pos (B2R E)) as NE.
  assert (N1 : 0 <= Rabs (B2R t) * Rabs (B2R E)) by (apply Rmult_le_pos; lra).
  pose proof (ap_mul _ _ _ _ _ _ _ _ At AEE ltac:(cbn; lia) ltac:(lra)) as A1.
  assert (K2 : Rabs (B2R f) * Rabs (B2R q) <= P ^ 2) by (rewrite E2; apply mulle; lra).
  assert (N2 : 0 <= Rabs (B2R f) * Rabs (B2R q)) by (apply Rmult_le_pos; lra).
  pose proof (ap_mul _ _ _ _ _ _ _ _ Af Aq ltac:(cbn; lia) ltac:(lra)) as A2.
  pose proof (ap_dif0 (b64_of_Q 1) E O1 FE ltac:(rewrite O2; lra)) as A3. rewrite O2 in A3.
  pose proof (Rabs_pos (1 - B2R E)) as NE1.
  assert (K3 : (Rabs (B2R f) * Rabs (B2R q) + omega) * Rabs (1 - B2R E) <= 2 * P ^ 2 * 2) by (apply mulle; lra).
  assert (N3 : 0 <= (Rabs (B2R f) * Rabs (B2R q) + omega) * Rabs (1 - B2R E)) by (apply Rmult_le_pos; lra).
  pose proof (ap_mul _ _ _ _ _ _ _ _ A2 A3 ltac:(cbn; lia) ltac:(lra)) as A4.
  pose proof (ap_sum _ _ _ _ _ _ _ _ A1 A4 ltac:(cbn; lia) ltac:(cbn; lia) ltac:(lra)) as A5. cbn [Nat.add Nat.max] in A5.
  split; [exact (ap_fin _ _ _ _ A5)|].
  set (z := Bplus mode_NE (Bmult mode_NE t E) (Bmult mode_NE (Bmult mode_NE f q) (Bminus mode_NE (b64_of_Q 1) E))) in *.
  pose proof (ap_err _ _ _ _ A5) as Er. pose proof (ap_size _ _ _ _ A5) as Sz.
  set (S5 := Rabs (B2R t) * Rabs (B2R E) + omega + ((Rabs (B2R f) * Rabs (B2R q) + omega) * Rabs (1 - B2R E) + omega)) in *.
  set (y := Rabs (B2R f) * Rabs (B2R q)) in *.
  assert (T5 : S5 <= 2 * Rabs (B2R t) + 2 * y + half 400).
  { unfold S5. assert (4 * omega <= omega * P ^ 4) by (rewrite (Rmult_comm 4); apply Rmult_le_compat_l; lra).
    assert (Rabs (B2R t) * Rabs (B2R E) <= Rabs (B2R t) * 2) by (apply Rmult_le_compat_l; lra).
    assert ((y + omega) * Rabs (1 - B2R E) <= (y + omega) * 2) by (apply Rmult_le_compat_l; lra). lra. }
  assert (T5' : S5 <= (1 + half 51) * Rabs (B2R t) + (1 + half 51) * y + half 400).
  { unfold S5. assert (4 * omega <= omega * P ^ 4) by (rewrite (Rmult_comm 4); apply Rmult_le_compat_l; lra).
    assert (Rabs (B2R t) * Rabs (B2R E) <= Rabs (B2R t) * (1 + half 51)) by (apply Rmult_le_compat_l; lra).
    assert ((y + omega) * Rabs (1 - B2R E) <= (y + omega) * (1 + half 51)) by (apply Rmult_le_compat_l; lra).
    assert (omega * half 51 <= omega * / 256) by (apply Rmult_le_compat_l; lra). lra. }
  pose proof grow_4 as G4. pose proof (grow_nonneg 4) as G4'. pose proof (half_pos 400) as h400. pose proof (half_pos 50) as h50.
  pose proof (Rabs_pos (B2R t * B2R E + B2R f * B2R q * (1 - B2R E))) as Np.
  assert (Er1 : Rabs (B2R z - (B2R t * B2R E + B2R f * B2R q * (1 - B2R E))) <= half 50 * S5).
  { eapply Rle_trans; [exact Er|]. apply Rmult_le_compat_r; lra. }
  split.
  - unfold exact_box. fold x.
    replace (B2R z - (B2R t * x + B2R f * B2R q * (1 - x))) with
      ((B2R z - (B2R t * B2R E + B2R f * B2R q * (1 - B2R E))) + (B2R t * (B2R E - x) + - (B2R f * B2R q * (B2R E - x)))) by ring.
    eapply Rle_trans; [apply Rabs_triang|].
    assert (K5 : Rabs (B2R t * (B2R E - x) + - (B2R f * B2R q * (B2R E - x))) <= (Rabs (B2R t) + y) * half 51).
    { eapply Rle_trans; [apply Rabs_triang|]. rewrite Rabs_Ropp, !Rabs_mult. fold y. rewrite Rmult_plus_distr_r.
      apply Rplus_le_compat; apply Rmult_le_compat_l; lra. }
    assert (K6 : half 50 * S5 <= half 50 * ((1 + half 51) * Rabs (B2R t) + (1 + half 51) * y + half 400)) by (apply Rmult_le_compat_l; lra).
    destruct halves as (E49 & E50 & _ & _ & E51 & _). pose proof (half_pos 53) as h53.
    assert (K7 : half 51 * (Rabs (B2R t) + y) <= / 256 * (Rabs (B2R t) + y)) by (apply Rmult_le_compat_r; lra).
    replace ((1 + half 51) * Rabs (B2R t) + (1 + half 51) * y + half 400) with
      (Rabs (B2R t) + y + half 51 * (Rabs (B2R t) + y) + half 400) in K6 by ring.
    assert (K8 : half 50 * (Rabs (B2R t) + y + half 51 * (Rabs (B2R t) + y) + half 400) <= half 50 * (Rabs (B2R t) + y + / 256 * (Rabs (B2R t) + y) + half 400))
      by (apply Rmult_le_compat_l; lra).
    replace ((Rabs (B2R t) + y) * half 51) with (half 51 * (Rabs (B2R t) + y)) in K5 by ring.
    set (s := Rabs (B2R t) + y) in *. assert (0 <= s) by (unfold s; lra).
    rewrite E49. rewrite E50 in *. rewrite E51 in K5. set (g := half 53) in *.
    assert (0 <= g * s) by (apply Rmult_le_pos; lra). assert (0 <= g * half 400) by (apply Rmult_le_pos; lra).
    replace (8 * g * (s + / 256 * s + half 400)) with (8 * (g * s) + 8 * / 256 * (g * s) + 8 * (g * half 400)) in K8 by ring.
    replace (16 * g * (Rabs (B2R t) + y + half 400)) with (16 * (g * s) + 16 * (g * half 400)) by (unfold s; ring).
    replace (4 * g * s) with (4 * (g * s)) in K5 by ring. lra.
  - exists (B2R E). split; [lra|]. split; [|exact CE].
    eapply Rle_trans; [exact Er1|]. apply Rmult_le_compat_l; lra.
Qed.

(** ** A whole run of one box *)
Section BoxRun.
Variable fs Ts : list b64.
Variable F : nat -> R.
Variable M : R.
Hypothesis len : List.length Ts = List.length fs.
Hypothesis start : fs <> [] -> nth_error Ts 0 = Some (b64_of_Q 0).
Hypothesis next : forall i f t, (S i < List.length fs)%nat -> nth_error fs i = Some f -> nth_error Ts i = Some t ->
  exists t', calculate_next_temp Ev dt t q d f = Ok (t' : num Ev) /\ nth_error Ts (S i) = Some t'.
Hypothesis ffs : forall i z, nth_error fs i = Some z -> is_finite z = true /\ B2R z = F i.
Hypothesis HM : half 400 <= M /\ moderate (2 * M) /\ moderate (B2R q).
Hypothesis HF : forall i, (i < List.length fs)%nat -> moderate (F i) /\ Rabs (F i) * Rabs (B2R q) <= M.
Hypothesis Hg : half 46 <= 1 - x.

Let r := half 46 * M / (1 - x).
Let X := exact_boxes (B2R q) (B2R d) (B2R dt) F.

Lemma box_exact_bound : forall i, (i <= List.length fs)%nat -> Rabs (X i) <= M.
Proof.
  pose proof x_range as Hx. pose proof (half_pos 400). destruct HM as (M1 & _).
  induction i as [|i IH]; intros Hi; unfold X; cbn [exact_boxes]; [rewrite Rabs_R0; lra|].
  specialize (IH ltac:(lia)). destruct (HF i ltac:(lia)) as [_ K]. unfold X in IH. unfold exact_box. fold x.
  rewrite <- Rabs_mult in K. apply Rabs_elim in IH. apply Rabs_elim in K. apply Rabs_le3. split; nra.
Qed.
Lemma box_run_bound : forall i t, nth_error Ts i = Some t -> is_finite t = true /\ Rabs (B2R t - X i) <= r.
Proof.
  pose proof x_range as Hx. pose proof (half_pos 400) as h400. pose proof (half_pos 46) as h46. destruct HM as (M1 & M2 & M3).
  assert (R0 : 0 <= r) by (unfold r; apply Rlt_le, Rdiv_lt_0_compat; [apply Rmult_lt_0_compat|]; lra).
  assert (R1 : (1 - x) * r = half 46 * M) by (unfold r; field; lra).
  assert (R2 : r <= M).
  { apply Rmult_le_reg_l with (1 - x); [lra|]. rewrite R1. apply Rmult_le_compat_r; lra. }
  induction i as [|i IH]; intros t Ht.
  - rewrite start in Ht. 2:{ intros E0. rewrite E0 in len. destruct Ts; [discriminate|discriminate len]. }
    apply some_inj in Ht. subst t. rewrite b64_zero. cbn [is_finite B2R]. unfold X. cbn [exact_boxes].
    rewrite Rminus_0_r, Rabs_R0. auto.
  - assert (Hi : (S i < List.length fs)%nat) by (rewrite <- len; apply nth_error_Some; rewrite Ht; discriminate).
    destruct (nth_error fs i) as [f|] eqn:Ef; [|apply nth_error_None in Ef; lia].
    destruct (nth_error Ts i) as [t0|] eqn:Et; [|apply nth_error_None in Et; lia].
    destruct (ffs _ _ Ef) as [Ff EF]. destruct (IH _ eq_refl) as [F0 B0]. pose proof (box_exact_bound i ltac:(lia)) as BX.
    destruct (HF i ltac:(lia)) as [MF KF]. rewrite <- EF in MF, KF.
    assert (U2 : Rabs (B2R t0) <= 2 * M).
    { replace (B2R t0) with (X i + (B2R t0 - X i)) by ring. eapply Rle_trans; [apply Rabs_triang|]. lra. }
    unfold moderate in M2. rewrite Rabs_right in M2 by lra.
    destruct (next i f t0 Hi Ef Et) as (t' & C1 & C2). rewrite Ht in C2. apply some_inj in C2. subst t'.
    destruct (box_step t0 f F0 Ff ltac:(unfold moderate; lra) MF M3) as (t' & C3 & FF & _ & k & K1 & K2 & K3).
    rewrite C1 in C3. injection C3 as C3. rewrite <- C3 in FF, K2. clear C3 t'. split; [exact FF|].
    unfold X. cbn [exact_boxes]. fold (X i). unfold exact_box. fold x. rewrite <- EF.
    set (y := Rabs (B2R f) * Rabs (B2R q)) in *.
    assert (Ey : Rabs (B2R f * B2R q) = y) by (unfold y; apply Rabs_mult).
    replace (B2R t - (X i * x + B2R f * B2R q * (1 - x))) with
      ((B2R t - (B2R t0 * k + B2R f * B2R q * (1 - k))) + (k * (B2R t0 - X i) + (X i - B2R f * B2R q) * (k - x))) by ring.
    eapply Rle_trans; [apply Rabs_triang|].
    assert (K4 : Rabs (k * (B2R t0 - X i) + (X i - B2R f * B2R q) * (k - x)) <= (x + half 51) * r + 2 * M * half 51).
    { eapply Rle_trans; [apply Rabs_triang|]. rewrite !Rabs_mult.
      apply Rplus_le_compat; apply mulle; try apply Rabs_pos; try assumption.
      unfold Rminus. eapply Rle_trans; [apply Rabs_triang|]. rewrite Rabs_Ropp. lra. }
    assert (K5 : half 50 * (2 * Rabs (B2R t0) + 2 * y + half 400) <= half 50 * (7 * M)).
    { apply Rmult_le_compat_l; [left; apply half_pos|lra]. }
    assert (K6 : half 51 * r <= half 51 * M) by (apply Rmult_le_compat_l; [left; apply half_pos|lra]).
    destruct halves as (_ & E50 & E46 & _ & E51 & _). pose proof (half_pos 53) as h53.
    assert (0 <= half 53 * M) by (apply Rmult_le_pos; lra).
    rewrite E46 in R1. rewrite E50 in *. rewrite E51 in *.
    replace ((1 - x) * r) with (r - x * r) in R1 by ring.
    replace ((x + 4 * half 53) * r) with (x * r + 4 * half 53 * r) in K4 by ring. lra.
Qed.
End BoxRun.
End Box.
