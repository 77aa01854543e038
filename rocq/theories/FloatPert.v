(** Two-layer runs with perturbed coefficients. *)
From Coq Require Import List String QArith Reals Bool Arith Lra Lia Psatz.
From Flocq Require Import Core IEEE754.BinarySingleNaN.
From Verif Require Import Arith Pint Base TwoLayer Impulse Scm Api Spec Exact SpecReal RealUnits Float SpecRound FloatTL FloatRun
  SpecPhysical FloatPhys.
Import ListNotations.
Local Open Scope R_scope.

(** [y] is [x] up to the relative error [a]. *)
Definition rel (a x y : R) : Prop := Rabs (y - x) <= a * Rabs x.
Lemma rel_weak a b x y : rel a x y -> a <= b -> rel b x y.
Proof. unfold rel. intros H L. eapply Rle_trans; [exact H|]. apply Rmult_le_compat_r; [apply Rabs_pos|exact L]. Qed.
Lemma rel_mul a b x y z w : 0 <= a -> 0 <= b -> rel a x y -> rel b z w -> rel (a + b + a * b) (x * z) (y * w).
Proof.
  unfold rel. intros Ha Hb H1 H2. rewrite Rabs_mult.
  replace (y * w - x * z) with ((y - x) * z + x * (w - z) + (y - x) * (w - z)) by ring.
  eapply Rle_trans; [apply Rabs_triang|]. eapply Rle_trans; [apply Rplus_le_compat_r, Rabs_triang|]. rewrite !Rabs_mult.
  assert (Rabs (y - x) * Rabs z <= a * Rabs x * Rabs z) by (apply Rmult_le_compat_r; [apply Rabs_pos|lra]).
  assert (Rabs x * Rabs (w - z) <= Rabs x * (b * Rabs z)) by (apply Rmult_le_compat_l; [apply Rabs_pos|lra]).
  assert (Rabs (y - x) * Rabs (w - z) <= a * Rabs x * (b * Rabs z)) by (apply mulle; try apply Rabs_pos; assumption).
  lra.
Qed.
Lemma rel_bounds a x y : 0 < x -> rel a x y -> (1 - a) * x <= y <= (1 + a) * x.
Proof. unfold rel. intros Hx H. rewrite (Rabs_right x) in H by lra. apply Rabs_elim in H. lra. Qed.
Lemma rel_inv a x y : 0 < x -> 0 <= a <= / 2 -> rel a x y -> rel (2 * a) (/ x) (/ y).
Proof.
  intros Hx Ha H. pose proof (rel_bounds a x y Hx H) as B. unfold rel in *.
  assert (Hy : / 2 * x <= y) by nra. assert (0 < y) by lra.
  replace (/ y - / x) with (- ((y - x) * (/ x * / y))) by (field; lra). rewrite Rabs_Ropp, Rabs_mult.
  assert (I1 : 0 < / x) by (now apply Rinv_0_lt_compat). assert (I2 : 0 < / y) by (now apply Rinv_0_lt_compat).
  rewrite (Rabs_right (/ x * / y)) by (apply Rle_ge, Rmult_le_pos; lra). rewrite (Rabs_right (/ x)) by lra.
  rewrite (Rabs_right x) in H by lra.
  assert (I3 : / y <= 2 * / x).
  { apply Rmult_le_reg_l with (x * y); [apply Rmult_lt_0_compat; lra|].
    replace (x * y * / y) with x by (field; lra). replace (x * y * (2 * / x)) with (2 * y) by (field; lra). lra. }
  apply Rle_trans with (a * x * (/ x * (2 * / x))).
  - apply mulle; [apply Rabs_pos|exact H|apply Rmult_le_pos; lra|]. apply Rmult_le_compat_l; lra.
  - right. field. lra.
Qed.

Lemma run_abstract (c : TLN) (F : nat -> R) (M k : R) (n : nat) (x y : nat -> R) (ok : nat -> Prop) :
  stable_tl c -> 0 <= M -> 0 <= k -> k * (1 + theta c) <= damping c ->
  (forall i, (i < n)%nat -> Rabs (F i) <= n_lambda0 c * M) ->
  x 0%nat = 0 -> y 0%nat = 0 -> ((0 < n)%nat -> ok 0%nat) ->
  (forall i, (S i < n)%nat -> ok i -> Rabs (x i) <= 2 * M -> Rabs (y i) <= 2 * M ->
     ok (S i) /\
     Rabs (x (S i) - exact_upper c (F i) (x i) (y i)) <= k * M /\
     Rabs (y (S i) - exact_lower c (x i) (y i)) <= k * M) ->
  forall i, (i < n)%nat -> ok i /\
    Rabs (x i - fst (exact_run c F i)) <= k * M / damping c /\
    Rabs (y i - snd (exact_run c F i)) <= (1 + theta c) * (k * M / damping c).
Proof.
  intros st HM Hk Hkd HF X0 Y0 K0 St. destruct (damping_pos c st) as [D1 D2]. pose proof (theta_pos c st) as T1.
  set (r := k * M / damping c).
  assert (kM : 0 <= k * M) by (apply Rmult_le_pos; lra).
  assert (R0 : 0 <= r) by (unfold r; apply Rmult_le_pos; [exact kM|left; now apply Rinv_0_lt_compat]).
  assert (R1 : damping c * r = k * M) by (unfold r; field; lra).
  assert (R2 : (1 + theta c) * r <= M).
  { apply Rmult_le_reg_l with (damping c); [lra|]. rewrite <- Rmult_assoc, (Rmult_comm (damping c)), Rmult_assoc, R1.
    rewrite <- Rmult_assoc, (Rmult_comm _ k). apply Rmult_le_compat_r; lra. }
  assert (R3 : r <= M) by nra.
  induction i as [|i IH]; intros Hi.
  - cbn [exact_run fst snd]. rewrite X0, Y0, Rminus_0_r, Rabs_R0. split; [exact (K0 Hi)|]. split; nra.
  - specialize (IH ltac:(lia)). destruct IH as (OK & B1 & B2).
    destruct (exact_bound c st F M n i HF HM ltac:(lia)) as [Q1 Q2].
    assert (U2 : Rabs (x i) <= 2 * M).
    { replace (x i) with (fst (exact_run c F i) + (x i - fst (exact_run c F i))) by ring.
      eapply Rle_trans; [apply Rabs_triang|]. lra. }
    assert (L2 : Rabs (y i) <= 2 * M).
    { replace (y i) with (snd (exact_run c F i) + (y i - snd (exact_run c F i))) by ring.
      eapply Rle_trans; [apply Rabs_triang|]. lra. }
    destruct (St i Hi OK U2 L2) as (OK' & S1 & S2). split; [exact OK'|].
    destruct (contract c st (F i) _ _ _ _ r B1 B2) as [C1 C2].
    cbn [exact_run]. destruct (exact_run c F i) as [T TD]. cbn [fst snd] in *.
    split.
    + replace (x (S i) - exact_upper c (F i) T TD) with
        ((x (S i) - exact_upper c (F i) (x i) (y i)) + (exact_upper c (F i) (x i) (y i) - exact_upper c (F i) T TD)) by ring.
      eapply Rle_trans; [apply Rabs_triang|]. lra.
    + replace (y (S i) - exact_lower c T TD) with
        ((y (S i) - exact_lower c (x i) (y i)) + (exact_lower c (x i) (y i) - exact_lower c T TD)) by ring.
      eapply Rle_trans; [apply Rabs_triang|]. assert (damping c * r <= damping c * ((1 + theta c) * r)) by (apply Rmult_le_compat_l; nra). lra.
Qed.

(** Coefficients read with errors. *)
Section Pert.
Variables c c' : TLN.
Hypothesis pos : 0 < n_dt c /\ 0 < n_lambda0 c /\ 0 < n_eps c /\ 0 < n_eta c /\ 0 < n_C c /\ 0 < n_CD c.
Hypothesis za : n_a c = 0 /\ n_a c' = 0.
Let h := half 48.
Hypothesis nr : rel h (n_dt c) (n_dt c') /\ rel h (n_lambda0 c) (n_lambda0 c') /\ rel h (n_eps c) (n_eps c') /\
  rel h (n_eta c) (n_eta c') /\ rel h (n_C c) (n_C c') /\ rel h (n_CD c) (n_CD c').

Lemma h_small : 0 < h <= / 1048576.
Proof.
  split; [apply half_pos|]. unfold h, half. apply Rinv_le_contravar; [lra|]. apply IZR_le. vm_compute. discriminate.
Qed.
Lemma rel_g : rel (4 * h) (n_dt c / n_C c) (n_dt c' / n_C c').
Proof.
  destruct pos as (P1 & P2 & P3 & P4 & P5 & P6). destruct nr as (N1 & N2 & N3 & N4 & N5 & N6). destruct h_small as [H0 H1].
  pose proof (rel_inv h _ _ P5 ltac:(lra) N5) as I5.
  apply rel_weak with (h + 2 * h + h * (2 * h)); [|nra]. apply rel_mul; try assumption; lra.
Qed.
Lemma rel_gd : rel (4 * h) (n_dt c / n_CD c) (n_dt c' / n_CD c').
Proof.
  destruct pos as (P1 & P2 & P3 & P4 & P5 & P6). destruct nr as (N1 & N2 & N3 & N4 & N5 & N6). destruct h_small as [H0 H1].
  pose proof (rel_inv h _ _ P6 ltac:(lra) N6) as I6.
  apply rel_weak with (h + 2 * h + h * (2 * h)); [|nra]. apply rel_mul; try assumption; lra.
Qed.
Lemma rel_alpha : rel (7 * h) (n_dt c / n_C c * n_lambda0 c) (n_dt c' / n_C c' * n_lambda0 c').
Proof.
  destruct nr as (N1 & N2 & N3 & N4 & N5 & N6). destruct h_small as [H0 H1].
  apply rel_weak with (4 * h + h + 4 * h * h); [|nra]. apply rel_mul; try assumption; try lra. exact rel_g.
Qed.
Lemma rel_beta : rel (7 * h) (n_dt c / n_C c * (n_eps c * n_eta c)) (n_dt c' / n_C c' * (n_eps c' * n_eta c')).
Proof.
  destruct nr as (N1 & N2 & N3 & N4 & N5 & N6). destruct h_small as [H0 H1].
  assert (rel (h + h + h * h) (n_eps c * n_eta c) (n_eps c' * n_eta c')) by (apply rel_mul; try assumption; lra).
  apply rel_weak with (4 * h + (h + h + h * h) + 4 * h * (h + h + h * h)); [|nra]. apply rel_mul; try assumption; try nra. exact rel_g.
Qed.
Lemma rel_gamma : rel (7 * h) (n_dt c / n_CD c * n_eta c) (n_dt c' / n_CD c' * n_eta c').
Proof.
  destruct nr as (N1 & N2 & N3 & N4 & N5 & N6). destruct h_small as [H0 H1].
  apply rel_weak with (4 * h + h + 4 * h * h); [|nra]. apply rel_mul; try assumption; try lra. exact rel_gd.
Qed.
Lemma pos' : 0 < n_dt c' /\ 0 < n_lambda0 c' /\ 0 < n_eps c' /\ 0 < n_eta c' /\ 0 < n_C c' /\ 0 < n_CD c'.
Proof.
  destruct pos as (P1 & P2 & P3 & P4 & P5 & P6). destruct nr as (N1 & N2 & N3 & N4 & N5 & N6). destruct h_small as [H0 H1].
  pose proof (rel_bounds _ _ _ P1 N1). pose proof (rel_bounds _ _ _ P2 N2). pose proof (rel_bounds _ _ _ P3 N3).
  pose proof (rel_bounds _ _ _ P4 N4). pose proof (rel_bounds _ _ _ P5 N5). pose proof (rel_bounds _ _ _ P6 N6).
  repeat split; nra.
Qed.

Definition usum (c : TLN) (f t d : R) : R :=
  n_dt c / n_C c * f + n_dt c / n_C c * n_lambda0 c * t + n_dt c / n_C c * (n_eps c * n_eta c) * (t + d).
Definition lsum (c : TLN) (t d : R) : R := n_dt c / n_CD c * n_eta c * (t + d).

Lemma usize_of (x : TLN) F T TD : 0 < n_dt x -> 0 < n_lambda0 x -> 0 < n_eps x -> 0 < n_eta x -> 0 < n_C x -> n_a x = 0 ->
  upper_size x F T TD = Rabs T + usum x (Rabs F) (Rabs T) (Rabs TD).
Proof.
  intros P1 P2 P3 P4 P5 A. unfold upper_size, usum. rewrite A, Rabs_R0, (Rabs_right (n_dt x)), (Rabs_right (n_lambda0 x)), (Rabs_right (n_eps x)), (Rabs_right (n_eta x)), (Rabs_right (n_C x)) by lra. field. lra.
Qed.
Lemma lsize_of (x : TLN) T TD : 0 < n_dt x -> 0 < n_eta x -> 0 < n_CD x ->
  lower_size x T TD = Rabs TD + lsum x (Rabs T) (Rabs TD).
Proof.
  intros P1 P2 P3. unfold lower_size, lsum. rewrite (Rabs_right (n_dt x)), (Rabs_right (n_eta x)), (Rabs_right (n_CD x)) by lra. field. lra.
Qed.

(** Effect on one step; the forcing is read with error as well. *)
Lemma upper_pert F F' T TD t : 0 <= t -> Rabs (F' - F) <= h * Rabs F + t ->
  Rabs (exact_upper c' F' T TD - exact_upper c F T TD) <= 7 * h * usum c (Rabs F) (Rabs T) (Rabs TD) + 2 * (n_dt c / n_C c) * t.
Proof.
  intros Ht HF. destruct pos as (P1 & P2 & P3 & P4 & P5 & P6). destruct pos' as (Q1 & Q2 & Q3 & Q4 & Q5 & Q6).
  destruct za as [A A']. destruct h_small as [H0 H1].
  set (g := n_dt c / n_C c). set (g' := n_dt c' / n_C c'). 
  assert (Pg : 0 < g) by (apply Rdiv_lt_0_compat; assumption). assert (Pg' : 0 < g') by (apply Rdiv_lt_0_compat; assumption).
  set (al := g * n_lambda0 c). set (al' := g' * n_lambda0 c').
  set (be := g * (n_eps c * n_eta c)). set (be' := g' * (n_eps c' * n_eta c')).
  replace (exact_upper c' F' T TD - exact_upper c F T TD) with
    ((g' * F' - g * F) + - ((al' - al) * T) + - ((be' - be) * (T - TD))).
  2:{ unfold exact_upper, al, al', be, be', g, g'. rewrite A, A'. field. lra. }
  eapply Rle_trans; [apply Rabs_triang|]. eapply Rle_trans; [apply Rplus_le_compat_r, Rabs_triang|]. rewrite !Rabs_Ropp, !Rabs_mult.
  assert (Pal : 0 < al) by (apply Rmult_lt_0_compat; assumption).
  assert (Pbe : 0 < be) by (apply Rmult_lt_0_compat; [assumption|apply Rmult_lt_0_compat; assumption]).
  pose proof rel_g as Rg. fold g g' in Rg. pose proof rel_alpha as Ra. fold g g' in Ra. fold al al' in Ra.
  pose proof rel_beta as Rb. fold g g' in Rb. fold be be' in Rb.
  pose proof (rel_bounds _ _ _ Pg Rg) as Bg.
  unfold rel in Rg, Ra, Rb. rewrite (Rabs_right g) in Rg by lra. rewrite (Rabs_right al) in Ra by lra. rewrite (Rabs_right be) in Rb by lra.
  pose proof (Rabs_pos F) as PF. pose proof (Rabs_pos T) as PT. pose proof (Rabs_pos TD) as PD.
  assert (X1 : Rabs (g' * F' - g * F) <= 7 * h * (g * Rabs F) + 2 * g * t).
  { replace (g' * F' - g * F) with (g' * (F' - F) + (g' - g) * F) by ring. eapply Rle_trans; [apply Rabs_triang|].
    rewrite !Rabs_mult, (Rabs_right g') by lra.
    assert (g' * Rabs (F' - F) <= g' * (h * Rabs F + t)) by (apply Rmult_le_compat_l; lra).
    assert (Rabs (g' - g) * Rabs F <= 4 * h * g * Rabs F) by (apply Rmult_le_compat_r; lra).
    assert (g' * (h * Rabs F + t) <= (2 * g) * (h * Rabs F + t)) by (apply Rmult_le_compat_r; [nra|nra]).
    assert (0 <= h * (g * Rabs F)) by (apply Rmult_le_pos; [lra|]; apply Rmult_le_pos; lra). nra. }
  assert (X2 : Rabs (al' - al) * Rabs T <= 7 * h * (al * Rabs T)).
  { replace (7 * h * (al * Rabs T)) with (7 * h * al * Rabs T) by ring. apply Rmult_le_compat_r; lra. }
  assert (X3 : Rabs (be' - be) * Rabs (T - TD) <= 7 * h * (be * (Rabs T + Rabs TD))).
  { replace (7 * h * (be * (Rabs T + Rabs TD))) with (7 * h * be * (Rabs T + Rabs TD)) by ring.
    apply mulle; try apply Rabs_pos; [exact Rb|]. unfold Rminus. eapply Rle_trans; [apply Rabs_triang|]. rewrite Rabs_Ropp. lra. }
  unfold usum. fold g. fold al. fold be. lra.
Qed.
Lemma lower_pert T TD : Rabs (exact_lower c' T TD - exact_lower c T TD) <= 7 * h * lsum c (Rabs T) (Rabs TD).
Proof.
  destruct pos as (P1 & P2 & P3 & P4 & P5 & P6). destruct pos' as (Q1 & Q2 & Q3 & Q4 & Q5 & Q6).
  set (ga := n_dt c / n_CD c * n_eta c). set (ga' := n_dt c' / n_CD c' * n_eta c').
  replace (exact_lower c' T TD - exact_lower c T TD) with ((ga' - ga) * (T - TD)).
  2:{ unfold exact_lower, ga, ga'. field. lra. }
  assert (Pga : 0 < ga) by (unfold ga; apply Rmult_lt_0_compat; [apply Rdiv_lt_0_compat|]; assumption).
  pose proof rel_gamma as Rg. fold ga ga' in Rg. unfold rel in Rg. rewrite (Rabs_right ga) in Rg by lra.
  rewrite Rabs_mult. unfold lsum. fold ga.
  replace (7 * h * (ga * (Rabs T + Rabs TD))) with (7 * h * ga * (Rabs T + Rabs TD)) by ring.
  apply mulle; try apply Rabs_pos; [exact Rg|]. unfold Rminus. eapply Rle_trans; [apply Rabs_triang|]. rewrite Rabs_Ropp. lra.
Qed.
Lemma usum_pert F F' T TD t : 0 <= t -> Rabs (F' - F) <= h * Rabs F + t ->
  usum c' (Rabs F') (Rabs T) (Rabs TD) <= 2 * usum c (Rabs F) (Rabs T) (Rabs TD) + 2 * (n_dt c / n_C c) * t.
Proof.
  intros Ht HF. destruct pos as (P1 & P2 & P3 & P4 & P5 & P6). destruct h_small as [H0 H1].
  assert (Pg : 0 < n_dt c / n_C c) by (apply Rdiv_lt_0_compat; assumption).
  pose proof (rel_bounds _ _ _ Pg rel_g) as B1.
  pose proof (rel_bounds _ _ _ (Rmult_lt_0_compat _ _ Pg P2) rel_alpha) as B2.
  pose proof (rel_bounds _ _ _ (Rmult_lt_0_compat _ _ Pg (Rmult_lt_0_compat _ _ P3 P4)) rel_beta) as B3.
  pose proof (Rmult_lt_0_compat _ _ Pg P2) as Pa. pose proof (Rmult_lt_0_compat _ _ Pg (Rmult_lt_0_compat _ _ P3 P4)) as Pb.
  unfold usum. set (g := n_dt c / n_C c) in *. set (g' := n_dt c' / n_C c') in *.
  set (al := g * n_lambda0 c) in *. set (al' := g' * n_lambda0 c') in *.
  set (be := g * (n_eps c * n_eta c)) in *. set (be' := g' * (n_eps c' * n_eta c')) in *.
  pose proof (Rabs_pos F) as PF. pose proof (Rabs_pos T) as PT. pose proof (Rabs_pos TD) as PD. pose proof (Rabs_pos F') as PF'.
  assert (FF : Rabs F' <= (1 + h) * Rabs F + t).
  { replace F' with (F + (F' - F)) by ring. eapply Rle_trans; [apply Rabs_triang|]. lra. }
  assert (X1 : g' * Rabs F' <= 2 * (g * Rabs F) + 2 * g * t).
  { apply Rle_trans with ((1 + 4 * h) * g * ((1 + h) * Rabs F + t)); [apply mulle; try lra; nra|].
    assert (0 <= g * Rabs F) by (apply Rmult_le_pos; lra). assert (0 <= g * t) by (apply Rmult_le_pos; lra).
    replace ((1 + 4 * h) * g * ((1 + h) * Rabs F + t)) with ((1 + 4 * h) * (1 + h) * (g * Rabs F) + (1 + 4 * h) * (g * t)) by ring.
    assert ((1 + 4 * h) * (1 + h) <= 2) by nra. nra. }
  assert (X2 : al' * Rabs T <= 2 * (al * Rabs T)).
  { replace (2 * (al * Rabs T)) with (2 * al * Rabs T) by ring. apply Rmult_le_compat_r; [lra|nra]. }
  assert (X3 : be' * (Rabs T + Rabs TD) <= 2 * (be * (Rabs T + Rabs TD))).
  { replace (2 * (be * (Rabs T + Rabs TD))) with (2 * be * (Rabs T + Rabs TD)) by ring. apply Rmult_le_compat_r; [lra|nra]. }
  lra.
Qed.
Lemma lsum_pert T TD : lsum c' (Rabs T) (Rabs TD) <= 2 * lsum c (Rabs T) (Rabs TD).
Proof.
  destruct pos as (P1 & P2 & P3 & P4 & P5 & P6). destruct h_small as [H0 H1].
  assert (Pg : 0 < n_dt c / n_CD c) by (apply Rdiv_lt_0_compat; assumption).
  pose proof (rel_bounds _ _ _ (Rmult_lt_0_compat _ _ Pg P4) rel_gamma) as B2. pose proof (Rmult_lt_0_compat _ _ Pg P4) as Pa.
  unfold lsum. pose proof (Rabs_pos T) as PT. pose proof (Rabs_pos TD) as PD.
  rewrite <- Rmult_assoc. apply Rmult_le_compat_r; [lra|nra].
Qed.
End Pert.
