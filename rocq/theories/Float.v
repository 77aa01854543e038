(** IEEE binary64 (Python floats, numpy float64) as an instance of the number
    system of Arith.v, built on Flocq, and a calculus of rounding errors.
    All operations round to nearest even; there is one NaN.  [np.exp] is a
    parameter, [x ** 2] is [x * x] and [x ** 0.5] is the correctly rounded square
    root.  A literal n/d is the quotient of the two doubles, which is the
    correctly rounded decimal for the literals of /repo (n, d < 2^53). *)
From Coq Require Import ZArith QArith Reals Lra Lia Psatz List String Bool.
From Flocq Require Import Core IEEE754.BinarySingleNaN Relative Plus_error.
From Verif Require Import Arith Pint.
Local Open Scope R_scope.

Definition b64 : Type := binary_float 53 1024.
#[global] Instance b64_prec : Prec_gt_0 53 := eq_refl.
#[global] Instance b64_emax : Prec_lt_emax 53 1024 := eq_refl.

Definition b64_of_Z (z : Z) : b64 := binary_normalize 53 1024 b64_prec b64_emax mode_NE z 0 false.
Definition b64_of_Q (q : Q) : b64 := Bdiv mode_NE (b64_of_Z (Qnum q)) (b64_of_Z (Zpos (Qden q))).

Definition float_arith (bexp : b64 -> b64) : Arith :=
  mkArith b64 (Bplus mode_NE) (Bminus mode_NE) (Bmult mode_NE) (Bdiv mode_NE) Bopp bexp
    (fun x => Bmult mode_NE x x) (Bsqrt mode_NE) b64_of_Q B754_nan is_nan Beqb Bleb eq_refl.

(** Any [np.exp], any registry of units with float conversion factors. *)
Definition fenv (bexp : b64 -> b64) (nd : nat) (sd : string -> nat -> Q) (rf : Units -> b64) : Env :=
  mkEnv (float_arith bexp) nd sd rf.

(** ** Rounding *)
Notation rnd := (round radix2 (SpecFloat.fexp 53 1024) ZnearestE).
Definition uround : R := / IZR (2 ^ 53).       (* unit roundoff *)
Definition omega : R := / IZR (2 ^ 1022).      (* smallest positive normal number *)

Lemma bpow2_pos : forall n, bpow radix2 (Zpos n) = IZR (2 ^ Zpos n).
Proof. intros n. cbn [bpow]. reflexivity. Qed.
Lemma bpow2_neg : forall n, bpow radix2 (Zneg n) = / IZR (2 ^ Zpos n).
Proof. intros n. rewrite <- bpow2_pos. change (Zneg n) with (- Zpos n)%Z. apply bpow_opp. Qed.

Lemma uround_pos : 0 < uround.
Proof. unfold uround. apply Rinv_0_lt_compat. apply IZR_lt. reflexivity. Qed.
Lemma omega_pos : 0 < omega.
Proof. unfold omega. apply Rinv_0_lt_compat. apply IZR_lt. reflexivity. Qed.
Lemma uround_small : uround <= / 1024.
Proof. unfold uround. apply Rinv_le_contravar; [lra|]. apply IZR_le. vm_compute. discriminate. Qed.
Lemma eta_omega : / 2 * bpow radix2 (-1074) = uround * omega.
Proof.
  unfold uround, omega. rewrite bpow2_neg, <- !Rinv_mult, <- !mult_IZR. f_equal.
Qed.
Lemma half_bpow : / 2 * bpow radix2 (- (53) + 1) = uround.
Proof.
  change (- (53) + 1)%Z with (-52)%Z. rewrite bpow2_neg. unfold uround. rewrite <- Rinv_mult, <- mult_IZR. reflexivity.
Qed.
Lemma rnd_err : forall x, Rabs (rnd x - x) <= uround * Rabs x + uround * omega.
Proof.
  intros x. change (SpecFloat.fexp 53 1024) with (FLT_exp (-1074) 53).
  destruct (error_N_FLT radix2 (-1074) 53 ltac:(reflexivity) (fun z => negb (Z.even z)) x) as (eps & eta & He & Ht & _ & E).
  rewrite E. replace (x * (1 + eps) + eta - x) with (eps * x + eta) by ring.
  eapply Rle_trans; [apply Rabs_triang|]. rewrite Rabs_mult.
  apply Rplus_le_compat.
  - apply Rmult_le_compat_r; [apply Rabs_pos|]. eapply Rle_trans; [exact He|].
    right. exact half_bpow.
  - rewrite <- eta_omega. exact Ht.
Qed.
Lemma rnd_plus_err : forall x y, generic_format radix2 (SpecFloat.fexp 53 1024) x -> generic_format radix2 (SpecFloat.fexp 53 1024) y ->
  Rabs (rnd (x + y) - (x + y)) <= uround * Rabs (x + y).
Proof.
  intros x y Hx Hy. change (SpecFloat.fexp 53 1024) with (FLT_exp (-1074) 53) in *.
  destruct (FLT_plus_error_N_ex radix2 (-1074) 53 (fun z => negb (Z.even z)) x y Hx Hy) as (eps & He & E).
  rewrite E. replace ((x + y) * (1 + eps) - (x + y)) with (eps * (x + y)) by ring. rewrite Rabs_mult.
  apply Rmult_le_compat_r; [apply Rabs_pos|]. eapply Rle_trans; [exact He|].
  assert (U : u_ro radix2 53 = uround).
  { unfold u_ro. exact half_bpow. }
  rewrite U. pose proof uround_pos. apply (Rle_trans _ (uround * 1)); [|lra].
  unfold Rdiv. apply Rmult_le_compat_l; [lra|]. rewrite <- Rinv_1. apply Rinv_le_contravar; lra.
Qed.
Definition big : R := IZR (2 ^ 1000).
Lemma big_pos : 1 <= big.
Proof. unfold big. apply IZR_le. vm_compute. discriminate. Qed.
Lemma four_big : 4 * big < bpow radix2 1024.
Proof. unfold big. rewrite bpow2_pos, <- mult_IZR. apply IZR_lt. reflexivity. Qed.
Lemma omega_le : omega <= / 1024.
Proof. unfold omega. apply Rinv_le_contravar; [lra|]. apply IZR_le. vm_compute. discriminate. Qed.
Lemma rnd_no_overflow : forall x, Rabs x <= 2 * big -> Rlt_bool (Rabs (rnd x)) (bpow radix2 1024) = true.
Proof.
  intros x H. apply Rlt_bool_true. pose proof (rnd_err x) as E. pose proof four_big. pose proof big_pos.
  pose proof uround_small. pose proof uround_pos. pose proof omega_le. pose proof omega_pos.
  assert (A : Rabs (rnd x) <= Rabs x + Rabs (rnd x - x)).
  { replace (rnd x) with (x + (rnd x - x)) at 1 by ring. apply Rabs_triang. }
  assert (uround * Rabs x <= / 1024 * (2 * big)) by (apply Rmult_le_compat; try lra; apply Rabs_pos).
  assert (uround * omega <= / 1024 * / 1024) by (apply Rmult_le_compat; lra). lra.
Qed.

(** ** The calculus

    [ap k z Z S]: the float [z] is finite and approximates the real number [Z],
    |Z| <= S, with an error of at most ((1+u)^k - 1) S; [k] counts the roundings
    along the longest path of the expression. *)
Definition grow (k : nat) : R := (1 + uround) ^ k - 1.
Lemma grow_0 : grow 0 = 0.
Proof. unfold grow. cbn. ring. Qed.
Lemma grow_nonneg : forall k, 0 <= grow k.
Proof. intros k. unfold grow. pose proof uround_pos. pose proof (pow_R1_Rle (1 + uround) k). lra. Qed.
Lemma grow_mono : forall i j, (i <= j)%nat -> grow i <= grow j.
Proof.
  intros i j H. unfold grow. pose proof uround_pos.
  pose proof (Rle_pow (1 + uround) i j ltac:(lra) H). lra.
Qed.
Lemma grow_S : forall k, grow (S k) = grow k + uround * (1 + grow k).
Proof. intros. unfold grow. cbn [pow]. ring. Qed.
Lemma grow_add : forall i j, (1 + grow i) * (1 + grow j) = 1 + grow (i + j).
Proof. intros. unfold grow. rewrite pow_add. ring. Qed.
Lemma grow_1 : grow 1 = uround.
Proof. unfold grow. cbn. ring. Qed.
Lemma grow_64 : forall k, (k <= 64)%nat -> grow k <= 1.
Proof.
  intros k H. eapply Rle_trans; [apply (grow_mono k 64 H)|]. unfold grow.
  assert (B : forall n : nat, (INR n <= 512) -> (1 + / 1024) ^ n <= 1 + 2 * INR n / 1024).
  { induction n as [|n IH]; intros Hn; [cbn; lra|]. cbn [pow]. rewrite S_INR in *.
    assert (Hn' : INR n <= 512) by lra. specialize (IH Hn').
    assert (0 <= (1 + / 1024) ^ n) by (apply pow_le; lra). pose proof (pos_INR n). nra. }
  pose proof uround_pos. pose proof uround_small.
  assert (K : (1 + uround) ^ 64 <= (1 + / 1024) ^ 64) by (apply pow_incr; lra).
  specialize (B 64%nat ltac:(cbn; lra)). cbn [INR] in B. lra.
Qed.
(** About [k] units of roundoff. *)
Lemma grow_bound : forall k, (k <= 64)%nat -> grow k <= 2 * INR k * uround.
Proof.
  induction k as [|k IH]; intros H; [rewrite grow_0; cbn; lra|].
  rewrite grow_S, S_INR. specialize (IH ltac:(lia)). pose proof (grow_64 k ltac:(lia)). pose proof uround_pos. nra.
Qed.

Record ap (k : nat) (z : b64) (Z S : R) : Prop := mkAp {
  ap_fin : is_finite z = true; ap_size : Rabs Z <= S; ap_err : Rabs (B2R z - Z) <= grow k * S }.

Lemma ap_in : forall z, is_finite z = true -> ap 0 z (B2R z) (Rabs (B2R z)).
Proof.
  intros z H. split; [exact H|apply Rle_refl|]. rewrite grow_0, Rminus_diag_eq, Rabs_R0 by reflexivity. lra.
Qed.
Lemma ap_weaken : forall k z Z S k' S', ap k z Z S -> (k <= k')%nat -> S <= S' -> ap k' z Z S'.
Proof.
  intros k z Z S k' S' [F A B] H H'. split; [exact F|lra|]. eapply Rle_trans; [exact B|].
  pose proof (Rabs_pos Z). apply Rmult_le_compat; try lra; [apply grow_nonneg|now apply grow_mono].
Qed.
Lemma ap_abs : forall k z Z S, ap k z Z S -> Rabs (B2R z) <= (1 + grow k) * S.
Proof.
  intros k z Z S [_ A B]. replace (B2R z) with (Z + (B2R z - Z)) by ring.
  eapply Rle_trans; [apply Rabs_triang|]. lra.
Qed.
(** The rounding step common to all operations. *)
Lemma ap_round : forall k w W S, Rabs W <= S -> Rabs (w - W) <= grow k * S ->
  Rabs (rnd w - w) <= uround * Rabs w + uround * omega ->
  Rabs (rnd w - W) <= grow (Datatypes.S k) * (S + omega).
Proof.
  intros k w W S A B C. pose proof (Rabs_pos W). pose proof uround_pos. pose proof omega_pos. pose proof (grow_nonneg k).
  assert (Hw : Rabs w <= (1 + grow k) * S).
  { replace w with (W + (w - W)) by ring. eapply Rle_trans; [apply Rabs_triang|]. lra. }
  replace (rnd w - W) with ((rnd w - w) + (w - W)) by ring. eapply Rle_trans; [apply Rabs_triang|].
  rewrite grow_S.
  assert (uround * Rabs w <= uround * ((1 + grow k) * S)) by (apply Rmult_le_compat_l; lra).
  assert (0 <= grow k * omega) by (apply Rmult_le_pos; lra).
  assert (0 <= uround * (grow k * omega)) by (apply Rmult_le_pos; lra). nra.
Qed.
Lemma ap_round_plus : forall k w W S, Rabs W <= S -> Rabs (w - W) <= grow k * S ->
  Rabs (rnd w - w) <= uround * Rabs w ->
  Rabs (rnd w - W) <= grow (Datatypes.S k) * S.
Proof.
  intros k w W S A B C. pose proof (Rabs_pos W). pose proof uround_pos. pose proof (grow_nonneg k).
  assert (Hw : Rabs w <= (1 + grow k) * S).
  { replace w with (W + (w - W)) by ring. eapply Rle_trans; [apply Rabs_triang|]. lra. }
  replace (rnd w - W) with ((rnd w - w) + (w - W)) by ring. eapply Rle_trans; [apply Rabs_triang|].
  rewrite grow_S.
  assert (uround * Rabs w <= uround * ((1 + grow k) * S)) by (apply Rmult_le_compat_l; lra). nra.
Qed.
Lemma ap_mul : forall i j x y X Y Sx Sy, ap i x X Sx -> ap j y Y Sy -> (i + j <= 64)%nat -> Sx * Sy <= big ->
  ap (S (i + j)) (Bmult mode_NE x y) (X * Y) (Sx * Sy + omega).
Proof.
  intros i j x y X Y Sx Sy Hx Hy Hk Hb.
  pose proof (ap_abs _ _ _ _ Hx) as Ax. pose proof (ap_abs _ _ _ _ Hy) as Ay.
  destruct Hx as [Fx Sx1 Ex]. destruct Hy as [Fy Sy1 Ey].
  pose proof (Rabs_pos X). pose proof (Rabs_pos Y). pose proof (grow_nonneg i). pose proof (grow_nonneg j).
  assert (HS : Rabs (X * Y) <= Sx * Sy) by (rewrite Rabs_mult; apply Rmult_le_compat; lra).
  assert (HE : Rabs (B2R x * B2R y - X * Y) <= grow (i + j) * (Sx * Sy)).
  { replace (B2R x * B2R y - X * Y) with ((B2R x - X) * B2R y + X * (B2R y - Y)) by ring.
    eapply Rle_trans; [apply Rabs_triang|]. rewrite !Rabs_mult.
    assert (Rabs (B2R x - X) * Rabs (B2R y) <= (grow i * Sx) * ((1 + grow j) * Sy)) by (apply Rmult_le_compat; try apply Rabs_pos; assumption).
    assert (Rabs X * Rabs (B2R y - Y) <= Sx * (grow j * Sy)) by (apply Rmult_le_compat; try apply Rabs_pos; assumption).
    pose proof (grow_add i j). replace (grow (i + j)) with ((1 + grow i) * (1 + grow j) - 1) by lra. nra. }
  assert (HW : Rabs (B2R x * B2R y) <= 2 * big).
  { replace (B2R x * B2R y) with (X * Y + (B2R x * B2R y - X * Y)) by ring.
    eapply Rle_trans; [apply Rabs_triang|]. pose proof (grow_64 (i + j) Hk). pose proof (Rabs_pos (X * Y)).
    assert (grow (i + j) * (Sx * Sy) <= 1 * (Sx * Sy)) by (apply Rmult_le_compat_r; lra). lra. }
  pose proof (Bmult_correct 53 1024 _ _ mode_NE x y) as C. cbn [round_mode] in C. rewrite (rnd_no_overflow _ HW) in C.
  destruct C as (C1 & C2 & _). split.
  - rewrite C2, Fx, Fy. reflexivity.
  - pose proof omega_pos. lra.
  - rewrite C1. apply ap_round; [exact HS|exact HE|apply rnd_err].
Qed.
Lemma ap_div : forall i x y X Sx, ap i x X Sx -> B2R y <> 0 -> (i <= 64)%nat -> Sx / Rabs (B2R y) <= big ->
  ap (S i) (Bdiv mode_NE x y) (X / B2R y) (Sx / Rabs (B2R y) + omega).
Proof.
  intros i x y X Sx [Fx Sx1 Ex] Hy Hk Hb. pose proof (Rabs_pos_lt _ Hy) as Py.
  pose proof (Rabs_pos X).
  assert (HS : Rabs (X / B2R y) <= Sx / Rabs (B2R y)).
  { unfold Rdiv. rewrite Rabs_mult, Rabs_inv. apply Rmult_le_compat_r; [|exact Sx1].
    left. now apply Rinv_0_lt_compat. }
  assert (HE : Rabs (B2R x / B2R y - X / B2R y) <= grow i * (Sx / Rabs (B2R y))).
  { replace (B2R x / B2R y - X / B2R y) with ((B2R x - X) / B2R y) by (field; exact Hy).
    unfold Rdiv. rewrite Rabs_mult, Rabs_inv. rewrite <- Rmult_assoc.
    apply Rmult_le_compat_r; [|exact Ex]. left. now apply Rinv_0_lt_compat. }
  assert (HW : Rabs (B2R x / B2R y) <= 2 * big).
  { replace (B2R x / B2R y) with (X / B2R y + (B2R x / B2R y - X / B2R y)) by ring.
    eapply Rle_trans; [apply Rabs_triang|]. pose proof (grow_64 i Hk).
    pose proof (Rabs_pos (X / B2R y)).
    assert (grow i * (Sx / Rabs (B2R y)) <= 1 * (Sx / Rabs (B2R y))) by (apply Rmult_le_compat_r; lra). lra. }
  pose proof (Bdiv_correct 53 1024 _ _ mode_NE x y Hy) as C. cbn [round_mode] in C. rewrite (rnd_no_overflow _ HW) in C.
  destruct C as (C1 & C2 & _). split.
  - rewrite C2. exact Fx.
  - pose proof omega_pos. lra.
  - rewrite C1. apply ap_round; [exact HS|exact HE|apply rnd_err].
Qed.
Lemma ap_sum : forall i j x y X Y Sx Sy, ap i x X Sx -> ap j y Y Sy -> (i <= 64)%nat -> (j <= 64)%nat -> Sx + Sy <= big ->
  ap (S (Nat.max i j)) (Bplus mode_NE x y) (X + Y) (Sx + Sy).
Proof.
  intros i j x y X Y Sx Sy [Fx Sx1 Ex] [Fy Sy1 Ey] Hi Hj Hb.
  pose proof (Rabs_pos X). pose proof (Rabs_pos Y).
  pose proof (grow_mono i (Nat.max i j) ltac:(lia)). pose proof (grow_mono j (Nat.max i j) ltac:(lia)).
  pose proof (grow_64 (Nat.max i j) ltac:(lia)). pose proof (grow_nonneg (Nat.max i j)).
  assert (HS : Rabs (X + Y) <= Sx + Sy) by (eapply Rle_trans; [apply Rabs_triang|]; lra).
  assert (HE : Rabs (B2R x + B2R y - (X + Y)) <= grow (Nat.max i j) * (Sx + Sy)).
  { replace (B2R x + B2R y - (X + Y)) with ((B2R x - X) + (B2R y - Y)) by ring.
    eapply Rle_trans; [apply Rabs_triang|].
    assert (grow i * Sx <= grow (Nat.max i j) * Sx) by (apply Rmult_le_compat_r; lra).
    assert (grow j * Sy <= grow (Nat.max i j) * Sy) by (apply Rmult_le_compat_r; lra). lra. }
  assert (HW : Rabs (B2R x + B2R y) <= 2 * big).
  { replace (B2R x + B2R y) with (X + Y + (B2R x + B2R y - (X + Y))) by ring.
    eapply Rle_trans; [apply Rabs_triang|].
    assert (grow (Nat.max i j) * (Sx + Sy) <= 1 * (Sx + Sy)) by (apply Rmult_le_compat_r; lra). lra. }
  pose proof (Bplus_correct 53 1024 _ _ mode_NE x y Fx Fy) as C. cbn [round_mode] in C. rewrite (rnd_no_overflow _ HW) in C.
  destruct C as (C1 & C2 & _). split; [exact C2|exact HS|].
  rewrite C1. apply ap_round_plus; [exact HS|exact HE|].
  apply rnd_plus_err; apply generic_format_B2R.
Qed.
Lemma ap_dif : forall i j x y X Y Sx Sy, ap i x X Sx -> ap j y Y Sy -> (i <= 64)%nat -> (j <= 64)%nat -> Sx + Sy <= big ->
  ap (S (Nat.max i j)) (Bminus mode_NE x y) (X - Y) (Sx + Sy).
Proof.
  intros i j x y X Y Sx Sy [Fx Sx1 Ex] [Fy Sy1 Ey] Hi Hj Hb.
  pose proof (Rabs_pos X). pose proof (Rabs_pos Y).
  pose proof (grow_mono i (Nat.max i j) ltac:(lia)). pose proof (grow_mono j (Nat.max i j) ltac:(lia)).
  pose proof (grow_64 (Nat.max i j) ltac:(lia)). pose proof (grow_nonneg (Nat.max i j)).
  assert (HS : Rabs (X - Y) <= Sx + Sy).
  { unfold Rminus. eapply Rle_trans; [apply Rabs_triang|]. rewrite Rabs_Ropp. lra. }
  assert (HE : Rabs (B2R x - B2R y - (X - Y)) <= grow (Nat.max i j) * (Sx + Sy)).
  { replace (B2R x - B2R y - (X - Y)) with ((B2R x - X) + - (B2R y - Y)) by ring.
    eapply Rle_trans; [apply Rabs_triang|]. rewrite Rabs_Ropp.
    assert (grow i * Sx <= grow (Nat.max i j) * Sx) by (apply Rmult_le_compat_r; lra).
    assert (grow j * Sy <= grow (Nat.max i j) * Sy) by (apply Rmult_le_compat_r; lra). lra. }
  assert (HW : Rabs (B2R x - B2R y) <= 2 * big).
  { replace (B2R x - B2R y) with (X - Y + (B2R x - B2R y - (X - Y))) by ring.
    eapply Rle_trans; [apply Rabs_triang|].
    assert (grow (Nat.max i j) * (Sx + Sy) <= 1 * (Sx + Sy)) by (apply Rmult_le_compat_r; lra). lra. }
  pose proof (Bminus_correct 53 1024 _ _ mode_NE x y Fx Fy) as C. cbn [round_mode] in C. rewrite (rnd_no_overflow _ HW) in C.
  destruct C as (C1 & C2 & _). split; [exact C2|exact HS|].
  rewrite C1. apply ap_round_plus; [exact HS|exact HE|].
  unfold Rminus. apply rnd_plus_err; [apply generic_format_B2R|]. apply generic_format_opp, generic_format_B2R.
Qed.
(** A difference of two given floats is off by one unit of roundoff of itself. *)
Lemma ap_dif0 : forall x y, is_finite x = true -> is_finite y = true -> Rabs (B2R x - B2R y) <= big ->
  ap 1 (Bminus mode_NE x y) (B2R x - B2R y) (Rabs (B2R x - B2R y)).
Proof.
  intros x y Fx Fy Hb.
  pose proof (Bminus_correct 53 1024 _ _ mode_NE x y Fx Fy) as C. cbn [round_mode] in C.
  rewrite (rnd_no_overflow (B2R x - B2R y)) in C by (pose proof big_pos; lra).
  destruct C as (C1 & C2 & _). split; [exact C2|apply Rle_refl|]. rewrite C1, grow_1.
  unfold Rminus. apply rnd_plus_err; [apply generic_format_B2R|]. apply generic_format_opp, generic_format_B2R.
Qed.

(** Zero and one. *)
Lemma b64_zero : b64_of_Q 0 = B754_zero false.
Proof. vm_compute. reflexivity. Qed.
Lemma b64_one : is_finite (b64_of_Q 1) = true /\ B2R (b64_of_Q 1) = 1.
Proof.
  assert (E : B2SF (b64_of_Q 1) = SpecFloat.S754_finite false 4503599627370496 (-52)) by (vm_compute; reflexivity).
  destruct (b64_of_Q 1) as [| | |s m e B]; try discriminate. cbn in E. inversion E; subst.
  split; [reflexivity|]. cbn. unfold F2R. cbn -[bpow]. rewrite bpow2_neg. cbn [Z.pow_pos Pos.iter Z.mul Pos.mul].
  vm_compute (2 ^ 52)%Z. field.
Qed.
