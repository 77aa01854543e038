(** Operations of binary64 and the sign, the sign of zero, and the order. *)
From Coq Require Import List String QArith Reals Bool Arith Lra Lia.
From Flocq Require Import Core IEEE754.BinarySingleNaN.
From Verif Require Import Arith Pint Float SpecRound SpecExact.
Import ListNotations.
Local Open Scope R_scope.

Notation "x [+] y" := (Bplus mode_NE (x : b64) (y : b64)) (at level 50, left associativity).
Notation "x [-] y" := (Bminus mode_NE (x : b64) (y : b64)) (at level 50, left associativity).
Notation "x [*] y" := (Bmult mode_NE (x : b64) (y : b64)) (at level 40, left associativity).
Notation "x [/] y" := (Bdiv mode_NE (x : b64) (y : b64)) (at level 40, left associativity).

Lemma same_refl : forall x, same x x.
Proof. now left. Qed.
Lemma same_sym : forall x y, same x y -> same y x.
Proof. intros x y [->|[A B]]; [now left|right; auto]. Qed.
Lemma same_trans : forall x y z, same x y -> same y z -> same x z.
Proof. intros x y z [->|[A B]] H; [exact H|]. destruct H as [->|[C D]]; right; auto. Qed.
Lemma zero_same : forall s t, same (B754_zero s) (B754_zero t).
Proof. intros. right. split; eexists; reflexivity. Qed.
Lemma same_opp : forall x y, same x y -> same (Bopp x) (Bopp y).
Proof. intros x y [->|[[s ->] [t ->]]]; [now left|apply zero_same]. Qed.

Lemma zero_B2R : forall x : b64, is_finite x = true -> B2R x = 0 -> is_zero x.
Proof.
  intros [s| | |s m e B] F H; try discriminate; [now exists s|]. exfalso. cbn in H.
  apply eq_0_F2R in H. destruct s; discriminate.
Qed.
Lemma B2R_zero : forall x : b64, is_zero x -> is_finite x = true /\ B2R x = 0.
Proof. intros x [s ->]. split; reflexivity. Qed.
Lemma same_val : forall x y : b64, is_finite x = true -> is_finite y = true -> B2R x = B2R y -> same x y.
Proof.
  intros x y Fx Fy H. destruct x as [s| | |s m e B]; try discriminate.
  - right. split; [now exists s|]. apply zero_B2R; [exact Fy|]. now rewrite <- H.
  - destruct y as [t| | |t m' e' B']; try discriminate.
    + right. split; [|now exists t]. now apply zero_B2R.
    + left. now apply B2R_inj.
Qed.
Lemma inf_overflow : forall (z : b64) s, B2SF z = binary_overflow 53 1024 mode_NE s -> z = B754_infinity s.
Proof. intros z s H. apply B2SF_inj. rewrite H. reflexivity. Qed.

(** ** Sign of zero does not matter *)
Lemma same_plus : forall x x' y y', same x x' -> same y y' -> same (x [+] y) (x' [+] y').
Proof.
  intros x x' y y' [->|[[s ->] [t ->]]] [->|[[u ->] [v ->]]]; try apply same_refl.
  - destruct x' as [w| | |w m e B]; cbn; try apply same_refl.
    destruct (Bool.eqb w u), (Bool.eqb w v); apply zero_same.
  - destruct y' as [w| | |w m e B]; cbn; try apply same_refl.
    destruct (Bool.eqb s w), (Bool.eqb t w); apply zero_same.
  - cbn. destruct (Bool.eqb s u), (Bool.eqb t v); apply zero_same.
Qed.
Lemma minus_plus : forall x y, x [-] y = x [+] (Bopp y).
Proof. intros [s|s| |s m e B] [t|t| |t m' e' B']; reflexivity. Qed.
Lemma same_minus : forall x x' y y', same x x' -> same y y' -> same (x [-] y) (x' [-] y').
Proof. intros. rewrite !minus_plus. apply same_plus; [assumption|now apply same_opp]. Qed.
Lemma same_mult : forall x x' y y', same x x' -> same y y' -> same (x [*] y) (x' [*] y').
Proof.
  intros x x' y y' [->|[[s ->] [t ->]]] [->|[[u ->] [v ->]]]; try apply same_refl.
  - destruct x' as [w| | |w m e B]; cbn; try apply same_refl; apply zero_same.
  - destruct y' as [w| | |w m e B]; cbn; try apply same_refl; apply zero_same.
  - apply zero_same.
Qed.
Lemma same_div : forall x x' y, same x x' -> same (x [/] y) (x' [/] y).
Proof.
  intros x x' y [->|[[s ->] [t ->]]]; [apply same_refl|].
  destruct y as [w| | |w m e B]; cbn; try apply same_refl; apply zero_same.
Qed.

(** ** Opposite numbers *)
Lemma rnd_opp : forall x, rnd (- x) = - rnd x.
Proof. intros. apply round_NE_opp. Qed.
Lemma opp_plus : forall x y, same (Bopp x [+] Bopp y) (Bopp (x [+] y)).
Proof.
  intros x y. destruct (is_finite x && is_finite y) eqn:F.
  - apply andb_prop in F as [Fx Fy].
    pose proof (Bplus_correct 53 1024 _ _ mode_NE x y Fx Fy) as A.
    pose proof (Bplus_correct 53 1024 _ _ mode_NE (Bopp x) (Bopp y)
      ltac:(now rewrite is_finite_Bopp) ltac:(now rewrite is_finite_Bopp)) as B.
    cbn [round_mode] in A, B. rewrite !B2R_Bopp in B.
    replace (- B2R x + - B2R y) with (- (B2R x + B2R y)) in B by ring. rewrite rnd_opp, Rabs_Ropp in B.
    destruct (Rlt_bool _ _).
    + destruct A as (A1 & A2 & _). destruct B as (B1 & B2 & _).
      apply same_val; [exact B2|now rewrite is_finite_Bopp|]. rewrite B2R_Bopp, A1, B1. reflexivity.
    + destruct A as (A1 & A2). destruct B as (B1 & B2). apply inf_overflow in A1, B1. rewrite A1, B1.
      left. cbn. f_equal. apply Bsign_Bopp. destruct x; try discriminate; reflexivity.
  - destruct x as [s|s| |s m e B], y as [t|t| |t m' e' B']; try discriminate; cbn; try apply same_refl.
    destruct s, t; apply same_refl.
Qed.
Lemma opp_minus : forall x y, same (Bopp x [-] Bopp y) (Bopp (x [-] y)).
Proof. intros. rewrite !minus_plus. apply opp_plus. Qed.
Lemma opp_mult_l : forall x y, same (Bopp x [*] y) (Bopp (x [*] y)).
Proof.
  intros x y. destruct (is_finite x && is_finite y) eqn:F.
  - apply andb_prop in F as [Fx Fy].
    pose proof (Bmult_correct 53 1024 _ _ mode_NE x y) as A.
    pose proof (Bmult_correct 53 1024 _ _ mode_NE (Bopp x) y) as B.
    cbn [round_mode] in A, B. rewrite !B2R_Bopp in B.
    replace (- B2R x * B2R y) with (- (B2R x * B2R y)) in B by ring. rewrite rnd_opp, Rabs_Ropp in B.
    destruct (Rlt_bool _ _).
    + destruct A as (A1 & A2 & _). destruct B as (B1 & B2 & _). rewrite is_finite_Bopp in B2.
      apply same_val; [rewrite B2, Fx, Fy; reflexivity|rewrite is_finite_Bopp, A2, Fx, Fy; reflexivity|].
      rewrite B2R_Bopp, A1, B1. reflexivity.
    + apply inf_overflow in A, B. rewrite A, B. left. cbn. f_equal.
      rewrite Bsign_Bopp by (destruct x; try discriminate; reflexivity). destruct (Bsign x), (Bsign y); reflexivity.
  - destruct x as [s|s| |s m e B], y as [t|t| |t m' e' B']; try discriminate; cbn; try apply same_refl;
      destruct s, t; apply same_refl.
Qed.
Lemma mult_comm : forall x y, x [*] y = y [*] x.
Proof.
  intros x y. destruct (is_finite x && is_finite y) eqn:F.
  - apply andb_prop in F as [Fx Fy].
    pose proof (Bmult_correct 53 1024 _ _ mode_NE x y) as A.
    pose proof (Bmult_correct 53 1024 _ _ mode_NE y x) as B.
    cbn [round_mode] in A, B. rewrite (Rmult_comm (B2R y)) in B. rewrite (xorb_comm (Bsign y)) in B.
    destruct (Rlt_bool _ _).
    + destruct A as (A1 & A2 & A3). destruct B as (B1 & B2 & B3). rewrite Fx, Fy in *. cbn in A2, B2.
      assert (nn : forall z : b64, is_finite z = true -> is_nan z = false) by (intros []; cbn; congruence).
      apply B2R_Bsign_inj; [assumption|assumption|congruence|]. rewrite A3, B3 by auto. reflexivity.
    + apply inf_overflow in A, B. congruence.
  - destruct x as [s|s| |s m e B], y as [t|t| |t m' e' B']; try discriminate; cbn; try reflexivity;
      destruct s, t; reflexivity.
Qed.
Lemma opp_mult_r : forall x y, same (x [*] Bopp y) (Bopp (x [*] y)).
Proof. intros. rewrite (mult_comm x (Bopp y)), (mult_comm x y). apply opp_mult_l. Qed.
Lemma opp_div : forall x y, same (Bopp x [/] y) (Bopp (x [/] y)).
Proof.
  intros x y. destruct (is_finite x && is_finite_strict y) eqn:F.
  - apply andb_prop in F as [Fx Fy].
    assert (Hy : B2R y <> 0).
    { destruct y as [t| | |t m e B]; try discriminate. cbn. intros H. apply eq_0_F2R in H. destruct t; discriminate. }
    pose proof (Bdiv_correct 53 1024 _ _ mode_NE x y Hy) as A.
    pose proof (Bdiv_correct 53 1024 _ _ mode_NE (Bopp x) y Hy) as B.
    cbn [round_mode] in A, B. rewrite !B2R_Bopp in B.
    replace (- B2R x / B2R y) with (- (B2R x / B2R y)) in B by (field; exact Hy). rewrite rnd_opp, Rabs_Ropp in B.
    destruct (Rlt_bool _ _).
    + destruct A as (A1 & A2 & _). destruct B as (B1 & B2 & _). rewrite is_finite_Bopp in B2.
      apply same_val; [now rewrite B2|now rewrite is_finite_Bopp, A2|].
      rewrite B2R_Bopp, A1, B1. reflexivity.
    + apply inf_overflow in A, B. rewrite A, B. left. cbn. f_equal.
      rewrite Bsign_Bopp by (destruct x; try discriminate; reflexivity). destruct (Bsign x), (Bsign y); reflexivity.
  - destruct x as [s|s| |s m e B], y as [t|t| |t m' e' B']; try discriminate; cbn; try apply same_refl;
      destruct s, t; apply same_refl.
Qed.

(** [opp x y]: [y] is [-x] up to the sign of zero. *)
Definition opp (x y : b64) : Prop := same y (Bopp x).
Lemma opp_zero : forall s t, opp (B754_zero s) (B754_zero t).
Proof. intros. apply zero_same. Qed.
Lemma opp_of : forall x, opp x (Bopp x).
Proof. intros. apply same_refl. Qed.
Lemma o_plus : forall x x' y y', opp x x' -> opp y y' -> opp (x [+] y) (x' [+] y').
Proof. intros. eapply same_trans; [apply same_plus; eassumption|apply opp_plus]. Qed.
Lemma o_minus : forall x x' y y', opp x x' -> opp y y' -> opp (x [-] y) (x' [-] y').
Proof. intros. eapply same_trans; [apply same_minus; eassumption|apply opp_minus]. Qed.
Lemma o_mult_r : forall c c' y y', same c c' -> opp y y' -> opp (c [*] y) (c' [*] y').
Proof. intros. eapply same_trans; [apply same_mult; [apply same_sym|]; eassumption|apply opp_mult_r]. Qed.
Lemma o_mult_l : forall c c' y y', same c c' -> opp y y' -> opp (y [*] c) (y' [*] c').
Proof. intros. eapply same_trans; [apply same_mult; [|apply same_sym]; eassumption|apply opp_mult_l]. Qed.
Lemma o_div : forall x x' y, opp x x' -> opp (x [/] y) (x' [/] y).
Proof. intros. eapply same_trans; [apply same_div; eassumption|apply opp_div]. Qed.
(** Zero times opposite numbers: two zeros or two NaN. *)
Lemma zero_times_opp : forall a x x', is_zero a -> opp x x' -> same (a [*] x) (a [*] x').
Proof.
  intros a x x' [s ->] H. apply same_trans with (B754_zero s [*] Bopp x).
  - destruct x as [t| | |t m e B]; cbn; try apply same_refl; apply zero_same.
  - apply same_mult; [apply same_refl|apply same_sym, H].
Qed.

(** ** Order *)
Lemma plus_value : forall x y, is_finite (x [+] y) = true ->
  is_finite x = true /\ is_finite y = true /\ B2R (x [+] y) = rnd (B2R x + B2R y).
Proof.
  intros x y H. assert (is_finite x = true /\ is_finite y = true) as [Fx Fy].
  { destruct x as [s|s| |s m e B], y as [t|t| |t m' e' B']; try discriminate; auto;
      cbn in H; destruct (Bool.eqb s t); discriminate. }
  split; [exact Fx|]. split; [exact Fy|].
  pose proof (Bplus_correct 53 1024 _ _ mode_NE x y Fx Fy) as A. destruct (Rlt_bool _ _); [apply A|].
  destruct A as [A _]. apply inf_overflow in A. rewrite A in H. discriminate.
Qed.
Lemma mult_value : forall x y, is_finite (x [*] y) = true ->
  is_finite x = true /\ is_finite y = true /\ B2R (x [*] y) = rnd (B2R x * B2R y).
Proof.
  intros x y H.
  pose proof (Bmult_correct 53 1024 _ _ mode_NE x y) as A. destruct (Rlt_bool _ _).
  - destruct A as (A1 & A2 & _). rewrite H in A2. symmetry in A2. apply andb_prop in A2 as [Fx Fy]. auto.
  - apply inf_overflow in A. rewrite A in H. discriminate.
Qed.
Lemma rnd_le : forall x y, x <= y -> rnd x <= rnd y.
Proof. intros. apply round_le; [|apply valid_rnd_N|assumption]. apply (fexp_correct 53 1024). reflexivity. Qed.
Lemma rnd_0 : rnd 0 = 0.
Proof. apply round_0. apply valid_rnd_N. Qed.
Lemma plus_le : forall x x' y y', is_finite (x [+] y) = true -> is_finite (x' [+] y') = true ->
  B2R x <= B2R x' -> B2R y <= B2R y' -> B2R (x [+] y) <= B2R (x' [+] y').
Proof.
  intros x x' y y' H H' A B. destruct (plus_value _ _ H) as (_ & _ & ->). destruct (plus_value _ _ H') as (_ & _ & ->).
  apply rnd_le. lra.
Qed.
Lemma mult_le : forall x x' c, is_finite (x [*] c) = true -> is_finite (x' [*] c) = true ->
  0 <= B2R c -> B2R x <= B2R x' -> B2R (x [*] c) <= B2R (x' [*] c).
Proof.
  intros x x' c H H' A B. destruct (mult_value _ _ H) as (_ & _ & ->). destruct (mult_value _ _ H') as (_ & _ & ->).
  apply rnd_le. now apply Rmult_le_compat_r.
Qed.
Lemma mult_pos : forall x c, is_finite (x [*] c) = true -> 0 <= B2R c -> 0 <= B2R x -> 0 <= B2R (x [*] c).
Proof.
  intros x c H A B. destruct (mult_value _ _ H) as (_ & _ & ->). rewrite <- rnd_0. apply rnd_le. now apply Rmult_le_pos.
Qed.
Lemma minus_pos : forall x y, is_finite x = true -> is_finite y = true -> 0 <= B2R y <= B2R x -> B2R x <= 1 ->
  is_finite (x [-] y) = true /\ 0 <= B2R (x [-] y).
Proof.
  intros x y Fx Fy H H1. pose proof (Bminus_correct 53 1024 _ _ mode_NE x y Fx Fy) as A. cbn [round_mode] in A.
  rewrite rnd_no_overflow in A.
  - destruct A as (A1 & A2 & _). split; [exact A2|]. rewrite A1, <- rnd_0. apply rnd_le. lra.
  - pose proof big_pos. rewrite Rabs_right by lra. lra.
Qed.
