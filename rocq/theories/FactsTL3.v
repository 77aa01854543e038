(** Properties C41 (below the threshold), C46, C47: two-layer runs. *)
From Coq Require Import List String QArith Reals Qreals Bool Arith Lra Lia Psatz.
From Verif Require Import Arith Pint Base TwoLayer Impulse Scm Api Spec Exact SpecReal
  GenTL GenTLHist GenMeta RealUnits RealTL RealGeo RealConv RealIR RealModels RealEuler FactsTL FactsTL2.
Import ListNotations.
Local Open Scope R_scope.

(** ** C41, below the threshold *)
Section Settle.
Variables (p : TLP) (F r : R).
Hypothesis D1 : 0 < p_du p.
Hypothesis D2 : 0 < p_dl p.
Hypothesis Dt : 0 < p_dt p.
Hypothesis De : 0 <= p_eps p.
Hypothesis Dh : 0 < p_eta p.
Hypothesis HF : 0 <= F.
Hypothesis Hr : 0 <= r.
Hypothesis Root : p_a p * (r * r) - p_lambda0 p * r + F = 0.
Hypothesis St1 : p_dt p * (p_lambda0 p + 2 * Rmax 0 (- p_a p) * r + p_eps p * p_eta p) <= p_C p.
Hypothesis St2 : p_dt p * p_eta p <= p_CD p.
Notation u := (eu p (fun _ => F)).
Notation v := (el p (fun _ => F)).
Let al := p_dt p / p_C p.
Let be := p_dt p / p_CD p.
Let step (x y : R) : R := x + al * (F - (p_lambda0 p - p_a p * x) * x - p_eps p * p_eta p * (x - y)).

Lemma s_C : 0 < p_C p. Proof. apply cap_pos, D1. Qed.
Lemma s_CD : 0 < p_CD p. Proof. apply cap_pos, D2. Qed.
Lemma s_al : 0 < al. Proof. apply pos_div; [exact Dt|apply s_C]. Qed.
Lemma s_be : 0 < be. Proof. apply pos_div; [exact Dt|apply s_CD]. Qed.
Lemma s_k1 : 0 <= 1 - al * (p_lambda0 p + 2 * Rmax 0 (- p_a p) * r + p_eps p * p_eta p).
Proof.
  pose proof s_C. unfold al.
  replace (1 - p_dt p / p_C p * (p_lambda0 p + 2 * Rmax 0 (- p_a p) * r + p_eps p * p_eta p)) with
    ((p_C p - p_dt p * (p_lambda0 p + 2 * Rmax 0 (- p_a p) * r + p_eps p * p_eta p)) / p_C p) by (field; lra).
  apply div_nonneg; lra.
Qed.
Lemma s_k2 : 0 <= 1 - be * p_eta p.
Proof.
  pose proof s_CD. unfold be.
  replace (1 - p_dt p / p_CD p * p_eta p) with ((p_CD p - p_dt p * p_eta p) / p_CD p) by (field; lra).
  apply div_nonneg; lra.
Qed.
Lemma s_su i : u (S i) = step (u i) (v i).
Proof. rewrite eu_S. unfold dT_dt, step, al. unfold Rdiv. ring. Qed.
Lemma s_sl i : v (S i) = (1 - be * p_eta p) * v i + be * p_eta p * u i.
Proof. rewrite el_S. unfold dTD_dt, be. unfold Rdiv. ring. Qed.
Lemma step_mono x y x' y' : 0 <= x -> x <= x' -> x' <= r -> y <= y' -> step x y <= step x' y'.
Proof.
  intros H0 H1 H2 H3. pose proof s_al. pose proof s_k1.
  assert (E0 : 0 <= p_eps p * p_eta p) by (apply Rmult_le_pos; lra).
  assert (A : - (2 * Rmax 0 (- p_a p) * r) <= p_a p * (x + x')).
  { unfold Rmax. destruct (Rle_dec 0 (- p_a p)) as [K|K].
    - assert ((- p_a p) * (x + x') <= (- p_a p) * (2 * r)) by (apply Rmult_le_compat_l; lra). lra.
    - assert (0 <= p_a p * (x + x')) by (apply Rmult_le_pos; lra). lra. }
  assert (B : 0 <= 1 - al * (p_lambda0 p + p_eps p * p_eta p) + al * (p_a p * (x + x'))).
  { assert (al * - (2 * Rmax 0 (- p_a p) * r) <= al * (p_a p * (x + x'))) by (apply Rmult_le_compat_l; lra). lra. }
  assert (E : step x' y' - step x y =
    (x' - x) * (1 - al * (p_lambda0 p + p_eps p * p_eta p) + al * (p_a p * (x + x'))) + al * (p_eps p * p_eta p) * (y' - y))
    by (unfold step; ring).
  assert (0 <= (x' - x) * (1 - al * (p_lambda0 p + p_eps p * p_eta p) + al * (p_a p * (x + x')))) by (apply Rmult_le_pos; lra).
  assert (0 <= al * (p_eps p * p_eta p) * (y' - y)) by (apply Rmult_le_pos; [apply Rmult_le_pos|]; lra). lra.
Qed.
Lemma step_root : step r r = r.
Proof. unfold step. replace (F - (p_lambda0 p - p_a p * r) * r - p_eps p * p_eta p * (r - r)) with 0 by lra. ring. Qed.

Lemma s_mono i : 0 <= v i /\ v i <= u i /\ u i <= r /\ u i <= u (S i) /\ v i <= v (S i).
Proof.
  pose proof s_al. pose proof s_be. pose proof s_k2.
  assert (A4 : 0 <= be * p_eta p) by (apply Rmult_le_pos; lra).
  induction i as [|i (I1 & I2 & I3 & I4 & I5)].
  - rewrite s_su, s_sl. change (u 0%nat) with 0. change (v 0%nat) with 0.
    assert (0 <= step 0 0).
    { unfold step. replace (0 + al * (F - (p_lambda0 p - p_a p * 0) * 0 - p_eps p * p_eta p * (0 - 0))) with (al * F) by ring.
      apply Rmult_le_pos; lra. }
    repeat split; lra.
  - assert (J3 : u (S i) <= r) by (rewrite s_su, <- step_root; apply step_mono; lra).
    assert (J2 : v (S i) <= u (S i)).
    { rewrite s_sl. assert ((1 - be * p_eta p) * v i <= (1 - be * p_eta p) * u i) by (apply Rmult_le_compat_l; assumption). lra. }
    repeat split; try lra.
    + rewrite (s_su (S i)). rewrite (s_su i) at 1. apply step_mono; lra.
    + rewrite (s_sl (S i)). pose proof (s_sl i).
      assert ((1 - be * p_eta p) * v i <= (1 - be * p_eta p) * v (S i)) by (apply Rmult_le_compat_l; assumption).
      assert (be * p_eta p * u i <= be * p_eta p * u (S i)) by (apply Rmult_le_compat_l; assumption). lra.
Qed.

Lemma s_cv : exists L LD, Un_cv u L /\ Un_cv v LD /\ 0 <= L <= r.
Proof.
  assert (B : has_ub u) by (exists r; intros x (i & ->); apply s_mono).
  assert (B' : has_ub v) by (exists r; intros x (i & ->); destruct (s_mono i) as (? & ? & ? & _); lra).
  assert (G : Un_growing u) by (intros i; apply s_mono). assert (G' : Un_growing v) by (intros i; apply s_mono).
  destruct (growing_cv u G B) as (L & HL). destruct (growing_cv v G' B') as (LD & HLD).
  exists L, LD. repeat split; auto.
  - pose proof (growing_ineq u L G HL 0). destruct (s_mono 0) as (? & ? & _). lra.
  - destruct (Rle_dec L r) as [K|K]; [exact K|]. exfalso.
    destruct (HL (L - r)) as (M & HM); [lra|]. specialize (HM M (le_n M)). unfold R_dist in HM.
    destruct (s_mono M) as (_ & _ & Hx & _). unfold Rabs in HM. destruct (Rcase_abs (u M - L)); lra.
Qed.
End Settle.

(** From any non-negative constant forcing the model warms monotonically,
    the lower layer behind the upper one, to the smallest non-negative root,
    for either sign of the state dependence. *)
Theorem c41_settles_at_the_smallest_root : forall reg p F T TD N r,
  constant_forcing_response reg p F T TD N ->
  0 < p_du p -> 0 < p_dl p -> 0 < p_dt p -> 0 <= p_eps p -> 0 < p_eta p -> 0 <= F ->
  0 <= r -> p_a p * (r * r) - p_lambda0 p * r + F = 0 ->
  (forall x, 0 <= x < r -> p_a p * (x * x) - p_lambda0 p * x + F <> 0) ->
  p_dt p * (p_lambda0 p + 2 * Rmax 0 (- p_a p) * r + p_eps p * p_eta p) <= p_C p -> p_dt p * p_eta p <= p_CD p ->
  (forall i, 0 <= TD i /\ TD i <= T i /\ T i <= r /\ T i <= T (S i) /\ TD i <= TD (S i)) /\
  Un_cv T r /\ Un_cv TD r /\ Un_cv N 0.
Proof.
  intros reg p F T TD N r H H1 H2 H3 H4 H5 H6 Hr Root Small S1 S2.
  destruct (response_values _ _ _ _ _ _ H) as (HV & Z).
  assert (K : forall i, 0 <= TD i /\ TD i <= T i /\ T i <= r /\ T i <= T (S i) /\ TD i <= TD (S i)).
  { intros i. destruct (HV i) as (-> & -> & _). destruct (HV (S i)) as (-> & -> & _).
    exact (s_mono p F r H1 H2 H3 H4 H5 H6 Hr Root S1 S2 i). }
  split; [exact K|].
  destruct (s_cv p F r H1 H2 H3 H4 H5 H6 Hr Root S1 S2) as (L & LD & HL & HLD & B1 & B2).
  assert (CT : Un_cv T L) by (apply cv_ext with (eu p (fun _ => F)); [intros i; symmetry; apply HV|exact HL]).
  assert (CD : Un_cv TD LD) by (apply cv_ext with (el p (fun _ => F)); [intros i; symmetry; apply HV|exact HLD]).
  destruct (c41_limits_are_roots reg p F T TD N L LD H ltac:(lra) CT CD) as (RL & ->).
  assert (L = r).
  { destruct (Rlt_le_dec L r) as [Hlt|Hle]; [exfalso; apply (Small L); [lra|exact RL]|lra]. }
  subst L. split; [exact CT|]. split; [exact CD|].
  assert (S1' : forall x l, Un_cv x l -> Un_cv (fun i => x (S i)) l).
  { intros x l Q ep Hep. destruct (Q ep Hep) as (M & HM). exists M. intros n Hn. apply HM. lia. }
  apply cv_S. apply cv_ext with (fun i => p_C p * (T (S i) - T i) / p_dt p + p_CD p * (TD (S i) - TD i) / p_dt p).
  { intros i. destruct (HV (S i)) as (-> & -> & ->). destruct (HV i) as (-> & -> & _). reflexivity. }
  apply cv_to with (p_C p * (r - r) / p_dt p + p_CD p * (r - r) / p_dt p); [unfold Rdiv; ring|].
  unfold Rdiv. apply CV_plus; (apply CV_mult; [|apply cv_const]); (apply CV_mult; [apply cv_const|]); apply CV_minus; auto.
Qed.

(** Up to the threshold (4 a F <= lambda0^2) with destabilising feedback. *)
Theorem c41_settles_below_threshold : forall reg p F T TD N,
  constant_forcing_response reg p F T TD N ->
  0 < p_du p -> 0 < p_dl p -> 0 < p_dt p -> 0 <= p_eps p -> 0 < p_eta p -> 0 < p_lambda0 p -> 0 < p_a p -> small_step p ->
  0 <= F -> 4 * p_a p * F <= p_lambda0 p * p_lambda0 p ->
  let r := (p_lambda0 p - sqrt (p_lambda0 p * p_lambda0 p - 4 * p_a p * F)) / (2 * p_a p) in
  Un_cv T r /\ Un_cv TD r /\ Un_cv N 0.
Proof.
  intros reg p F T TD N H H1 H2 H3 H4 H5 Hl Ha (S1 & S2) HF Ht r.
  set (D := p_lambda0 p * p_lambda0 p - 4 * p_a p * F) in *.
  assert (HD : 0 <= D) by (unfold D; lra). pose proof (sqrt_pos D) as Q0. pose proof (sqrt_sqrt D HD) as Q1.
  assert (DF : 4 * p_a p * F = p_lambda0 p * p_lambda0 p - D) by (unfold D; ring).
  assert (Q2 : sqrt D <= p_lambda0 p).
  { apply Rsqr_incr_0_var; [|lra]. unfold Rsqr. rewrite Q1.
    assert (0 <= 4 * p_a p * F) by (apply Rmult_le_pos; lra). lra. }
  assert (Hr : 0 <= r) by (apply div_nonneg; lra).
  assert (Er : 2 * p_a p * r = p_lambda0 p - sqrt D) by (unfold r; field; lra).
  assert (Root : forall x, 4 * p_a p * (p_a p * (x * x) - p_lambda0 p * x + F) =
                 (2 * p_a p * x - p_lambda0 p) * (2 * p_a p * x - p_lambda0 p) - D).
  { intros x. replace (4 * p_a p * (p_a p * (x * x) - p_lambda0 p * x + F)) with
      (4 * p_a p * (p_a p * (x * x)) - 4 * p_a p * (p_lambda0 p * x) + 4 * p_a p * F) by ring. rewrite DF. ring. }
  assert (M0 : Rmax 0 (- p_a p) = 0) by (apply Rmax_left; lra).
  destruct (c41_settles_at_the_smallest_root reg p F T TD N r H H1 H2 H3 H4 H5 HF Hr) as (_ & K); auto.
  - assert (Z : 4 * p_a p * (p_a p * (r * r) - p_lambda0 p * r + F) = 0).
    { rewrite Root, Er. replace (p_lambda0 p - sqrt D - p_lambda0 p) with (- sqrt D) by ring.
      replace (- sqrt D * - sqrt D) with (sqrt D * sqrt D) by ring. lra. }
    apply Rmult_integral in Z as [Z|Z]; lra.
  - intros x (X1 & X2) Z. assert (Y : (2 * p_a p * x - p_lambda0 p) * (2 * p_a p * x - p_lambda0 p) - D = 0).
    { rewrite <- Root, Z. ring. }
    assert (2 * p_a p * x < 2 * p_a p * r) by (apply Rmult_lt_compat_l; lra).
    assert (sqrt D * sqrt D < (p_lambda0 p - 2 * p_a p * x) * (p_lambda0 p - 2 * p_a p * x)); [|lra].
    apply Rmult_le_0_lt_compat; lra.
  - rewrite M0. replace (p_lambda0 p + 2 * 0 * r + p_eps p * p_eta p) with (p_lambda0 p + p_eps p * p_eta p) by ring. exact S1.
Qed.

Example c41_case_below : forall reg, exists T TD N,
  constant_forcing_response reg (mkTLPhys 50 1200 (5/4) (1/20) 1 (4/5) 31557600) 5 T TD N /\ Un_cv T 5.
Proof.
  intros reg. set (p := mkTLPhys 50 1200 (5/4) (1/20) 1 (4/5) 31557600).
  assert (K : constant_forcing_response reg p 5 (eu p (fun _ => 5)) (el p (fun _ => 5)) (en p (fun _ => 5))).
  { intros parse s e (Hr & Hv & HF). apply (run_reports reg parse s _ e _ Hr Hv HF); cbn; lra. }
  do 3 eexists. split; [exact K|].
  apply (c41_settles_at_the_smallest_root reg p 5 _ _ _ 5 K); cbn; try lra.
  - intros x Hx Z. assert ((x - 5) * (x - 20) = 0) by lra. apply Rmult_integral in H as [H|H]; lra.
  - unfold p_C, water_capacity. cbn. rewrite Rmax_left by lra. lra.
  - unfold p_CD, water_capacity. cbn. lra.
Qed.

(** ** C46: dimensional similarity *)
Lemma scaled_euler p k c m F i : k <> 0 -> c <> 0 -> m <> 0 -> p_du p <> 0 -> p_dl p <> 0 ->
  eu (scaled_tl k c m p) (fun j => c * F j) i = m * eu p F i /\ el (scaled_tl k c m p) (fun j => c * F j) i = m * el p F i.
Proof.
  intros Hk Hc Hm Hu Hl. induction i as [|i (I1 & I2)]; [unfold eu, el; cbn; split; ring|].
  rewrite !eu_S, !el_S, I1, I2. unfold dT_dt, dTD_dt, p_C, p_CD, water_capacity, scaled_tl. cbn.
  split; field; repeat split; lra.
Qed.
Lemma scaled_en p k c m F i : k <> 0 -> c <> 0 -> m <> 0 -> p_du p <> 0 -> p_dl p <> 0 -> p_dt p <> 0 ->
  en (scaled_tl k c m p) (fun j => c * F j) i = c * en p F i.
Proof.
  intros Hk Hc Hm Hu Hl Ht. destruct i as [|i]; cbn [en]; [ring|].
  rewrite !(proj1 (scaled_euler p k c m F _ Hk Hc Hm Hu Hl)), !(proj2 (scaled_euler p k c m F _ Hk Hc Hm Hu Hl)).
  unfold p_C, p_CD, water_capacity, scaled_tl. cbn. field. repeat split; lra.
Qed.

Theorem c46_two_layer_similarity : forall reg parse s s' p e e' F k c m T TD N,
  k <> 0 -> c <> 0 -> m <> 0 ->
  tl_setup reg parse s p e F -> tl_reports reg s e T TD N ->
  tl_setup reg parse s' (scaled_tl k c m p) e' (fun i => c * F i) -> npoints e' = npoints e ->
  tl_reports reg s' e' (fun i => m * T i) (fun i => m * TD i) (fun i => c * N i).
Proof.
  intros reg parse s s' p e e' F k c m T TD N Hk Hc Hm HS HR HS' Hn.
  destruct (setup_inv _ _ _ _ _ _ _ _ _ HS HR) as (Z & HI).
  assert (Q : k * c / m <> 0) by (unfold Rdiv; repeat apply Rmult_integral_contrapositive_currified; auto; apply Rinv_neq_0_compat; auto).
  eapply reports_as; [|apply (reports_of reg parse _ _ _ _ HS')].
  - intros i Hi. rewrite Hn in Hi. destruct (HI i Hi) as (-> & -> & ->).
    destruct (Nat.lt_ge_cases (npoints e) 2) as [K|K].
    + replace i with 0%nat by lia. unfold eu, el, en. cbn. repeat split; ring.
    + destruct (Z K) as (Z1 & Z2 & Z3).
      rewrite (proj1 (scaled_euler p k c m F i Hk Hc Hm Z1 Z2)), (proj2 (scaled_euler p k c m F i Hk Hc Hm Z1 Z2)),
        (scaled_en p k c m F i Hk Hc Hm Z1 Z2 Z3). auto.
  - intros K. rewrite Hn in K. destruct (Z K) as (Z1 & Z2 & Z3). cbn.
    repeat split; apply Rmult_integral_contrapositive_currified; auto.
Qed.

Example c46_case : forall reg parse, exists s e s' e' T TD N,
  tl_setup reg parse s ex_tl e (fun i => INR i) /\ npoints e = 4%nat /\ tl_reports reg s e T TD N /\
  tl_setup reg parse s' (scaled_tl 2 3 5 ex_tl) e' (fun i => 3 * INR i) /\ npoints e' = 4%nat.
Proof.
  intros reg parse. destruct (tl_run_exists reg parse ex_tl (fun i => INR i) 4) as (s & e & Hr & Hv & Hn & HF & HR); cbn; try lra.
  destruct (tl_model reg parse (scaled_tl 2 3 5 ex_tl)) as (s' & Hr' & Hv').
  destruct (a_series reg (fun i => 3 * INR i) 4) as (e' & Hn' & HF').
  exists s, e, s', e'. do 3 eexists. split; [split; auto|]. split; [exact Hn|]. split; [exact HR|]. split; [split; auto|exact Hn'].
Qed.

(** ** C47: warming under rising forcing *)
Section Warm.
Variable p : TLP.
Hypothesis Hp : positive_tl p.
Hypothesis Hs : small_step p.
Variable F : nat -> R.
Variable n : nat.
Hypothesis H0 : 0 <= F 0%nat.
Hypothesis Up : forall i, (S i < n)%nat -> F i <= F (S i).

Lemma up_le : forall i, (i < n)%nat -> 0 <= F i.
Proof. induction i as [|i IH]; intros H; [exact H0|]. specialize (Up i H). specialize (IH ltac:(lia)). lra. Qed.
Lemma warm i : (i <= n)%nat -> 0 <= el p F i /\ el p F i <= eu p F i /\
  ((i < n)%nat -> eu p F i <= eu p F (S i) /\ el p F i <= el p F (S i)).
Proof.
  assert (B : 0 < p_eta p) by apply Hp.
  pose proof (k1_nonneg p Hp Hs) as K1. pose proof (k2_nonneg p Hp Hs) as K2. pose proof (al_pos p Hp) as A. pose proof (be_pos p Hp) as Be.
  pose proof (ee_pos p Hp) as E0.
  assert (SU : forall j, eu p F (S j) = (1 - p_dt p / p_C p * (p_lambda0 p + p_eps p * p_eta p)) * eu p F j +
    p_dt p / p_C p * (p_eps p * p_eta p) * el p F j + p_dt p / p_C p * F j) by (intros j; rewrite eu_S; apply (step_u p Hp)).
  assert (SL : forall j, el p F (S j) = (1 - p_dt p / p_CD p * p_eta p) * el p F j + p_dt p / p_CD p * p_eta p * eu p F j)
    by (intros j; rewrite el_S; apply (step_l p Hp)).
  set (al := p_dt p / p_C p) in *. set (be := p_dt p / p_CD p) in *.
  set (k1 := 1 - al * (p_lambda0 p + p_eps p * p_eta p)) in *. set (k2 := 1 - be * p_eta p) in *.
  assert (A1 : 0 <= al * (p_eps p * p_eta p)) by (apply Rmult_le_pos; lra).
  assert (A4 : 0 <= be * p_eta p) by (apply Rmult_le_pos; lra).
  assert (A5 : k2 + be * p_eta p = 1) by (unfold k2; ring).
  set (k3 := al * (p_eps p * p_eta p)) in *. set (k4 := be * p_eta p) in *.
  induction i as [|i IH]; intros Hi.
  - rewrite SU, SL. change (eu p F 0) with 0. change (el p F 0) with 0.
    split; [lra|]. split; [lra|]. intros _. split; [|lra]. assert (0 <= al * F 0%nat) by (apply Rmult_le_pos; lra). lra.
  - destruct (IH ltac:(lia)) as (I1 & I2 & I3). destruct (I3 ltac:(lia)) as (I4 & I5).
    assert (J2 : el p F (S i) <= eu p F (S i)).
    { rewrite SL. assert (k2 * el p F i <= k2 * eu p F i) by (apply Rmult_le_compat_l; assumption).
      replace (eu p F (S i)) with (k2 * eu p F i + k4 * eu p F i + (eu p F (S i) - eu p F i)) by (rewrite <- Rmult_plus_distr_r, A5; ring). lra. }
    split; [lra|]. split; [exact J2|]. intros Hlt. pose proof (SU i) as U1. pose proof (SL i) as L1.
    rewrite (SU (S i)), (SL (S i)). split.
    + assert (al * F i <= al * F (S i)) by (apply Rmult_le_compat_l; [lra|apply Up; lia]).
      assert (k1 * eu p F i <= k1 * eu p F (S i)) by (apply Rmult_le_compat_l; assumption).
      assert (k3 * el p F i <= k3 * el p F (S i)) by (apply Rmult_le_compat_l; assumption). lra.
    + assert (k2 * el p F i <= k2 * el p F (S i)) by (apply Rmult_le_compat_l; assumption).
      assert (k4 * eu p F i <= k4 * eu p F (S i)) by (apply Rmult_le_compat_l; assumption). lra.
Qed.
End Warm.

(** Under rising forcing both layers warm, the lower one behind the upper one,
    never beyond the equilibrium of the present forcing, and take up heat. *)
Theorem c47_two_layer_warming : forall reg parse s p e F T TD N,
  tl_setup reg parse s p e F -> tl_reports reg s e T TD N -> positive_tl p -> small_step p ->
  0 <= F 0%nat -> (forall i, (S i < npoints e)%nat -> F i <= F (S i)) ->
  (forall i, (i < npoints e)%nat -> 0 <= TD i /\ TD i <= T i /\ 0 <= N i) /\
  (forall i, (S i < npoints e)%nat -> T i <= T (S i) /\ TD i <= TD (S i) /\ T (S i) <= F i / p_lambda0 p).
Proof.
  intros reg parse s p e F T TD N HS HR Hp Hs H0 Up. destruct (setup_inv _ _ _ _ _ _ _ _ _ HS HR) as (_ & HI).
  pose proof (warm p Hp Hs F (npoints e) H0 Up) as W. pose proof (pC_pos p Hp) as PC. pose proof (pCD_pos p Hp) as PCD.
  assert (Pt : 0 < p_dt p) by apply Hp.
  split; intros i Hi.
  - destruct (HI i Hi) as (-> & -> & ->). destruct (W i ltac:(lia)) as (W1 & W2 & _). split; [exact W1|]. split; [exact W2|].
    destruct i as [|i]; [cbn; lra|]. destruct (W i ltac:(lia)) as (_ & _ & W3). destruct (W3 ltac:(lia)) as (W4 & W5).
    cbn [en]. apply Rplus_le_le_0_compat; (apply div_nonneg; [apply Rmult_le_pos; lra|assumption]).
  - destruct (HI (S i) Hi) as (-> & -> & _). destruct (HI i ltac:(lia)) as (-> & -> & _).
    destruct (W i ltac:(lia)) as (_ & _ & W3). destruct (W3 ltac:(lia)) as (W4 & W5). split; [exact W4|]. split; [exact W5|].
    apply (euler_below p Hp Hs F (F i) (S i)).
    + assert (Inc : forall a b, (a + b < npoints e)%nat -> F a <= F (a + b)%nat).
      { intros a b. induction b as [|b IHb]; intros Hb; [rewrite Nat.add_0_r; lra|].
        specialize (IHb ltac:(lia)). replace (a + S b)%nat with (S (a + b)) in * by lia. specialize (Up (a + b)%nat Hb). lra. }
      intros j Hj. replace i with (j + (i - j))%nat by lia. apply Inc. lia.
    + apply (up_le F (npoints e) H0 Up). lia.
Qed.

Example c47_case : forall reg parse, exists s e T TD N,
  tl_setup reg parse s ex_tl e (fun i => INR i) /\ npoints e = 4%nat /\ tl_reports reg s e T TD N /\
  positive_tl ex_tl /\ small_step ex_tl /\ (forall i, INR i <= INR (S i)) /\ 0 < N 2%nat.
Proof.
  intros reg parse. destruct (tl_run_exists reg parse ex_tl (fun i => INR i) 4) as (s & e & Hr & Hv & Hn & HF & HR); cbn; try lra.
  exists s, e. do 3 eexists. split; [split; auto|]. split; [exact Hn|]. split; [exact HR|].
  split; [unfold positive_tl; cbn; lra|]. split; [unfold small_step, p_C, p_CD, water_capacity; cbn; lra|].
  split; [intros i; exact (le_INR i (S i) (Nat.le_succ_diag_r i))|].
  cbn [en]. unfold eu, el; cbn; unfold dT_dt, dTD_dt, p_C, p_CD, water_capacity; cbn; lra.
Qed.
