(** Property C41: state-dependent feedback in two-layer runs. *)
From Coq Require Import List String QArith Reals Qreals Bool Arith Lra Lia Psatz.
From Verif Require Import Arith Pint Base TwoLayer Impulse Scm Api Spec Exact SpecReal
  GenTL GenTLHist GenMeta RealUnits RealTL RealGeo RealConv RealIR RealModels RealEuler FactsTL.
Import ListNotations.
Local Open Scope R_scope.

Lemma nat_above x : exists n, x < INR n.
Proof.
  exists (Z.to_nat (up x)). destruct (archimed x) as (H & _).
  destruct (Z.le_gt_cases 0 (up x)) as [K|K].
  - rewrite INR_IZR_INZ, Z2Nat.id by assumption. lra.
  - apply IZR_lt in K. pose proof (pos_INR (Z.to_nat (up x))). lra.
Qed.
Lemma steady_iff p F T TD : p_C p <> 0 -> p_CD p <> 0 -> p_dt p <> 0 -> p_eta p <> 0 ->
  (T + p_dt p * dT_dt p F T TD = T /\ TD + p_dt p * dTD_dt p T TD = TD) <->
  (p_a p * (T * T) - p_lambda0 p * T + F = 0 /\ TD = T).
Proof.
  intros HC HCD Hdt He. unfold dT_dt, dTD_dt. split.
  - intros (H1 & H2).
    assert (K2 : TD = T).
    { assert (K : p_dt p * (p_eta p * (T - TD) / p_CD p) = 0) by lra.
      apply Rmult_integral in K as [K|K]; [contradiction|]. unfold Rdiv in K.
      apply Rmult_integral in K as [K|K]; [|exfalso; revert K; apply Rinv_neq_0_compat; assumption].
      apply Rmult_integral in K as [K|K]; [contradiction|lra]. }
    split; [|exact K2]. subst TD.
    assert (K : p_dt p * ((F - (p_lambda0 p - p_a p * T) * T - p_eps p * p_eta p * (T - T)) / p_C p) = 0) by lra.
    apply Rmult_integral in K as [K|K]; [contradiction|]. unfold Rdiv in K.
    apply Rmult_integral in K as [K|K]; [|exfalso; revert K; apply Rinv_neq_0_compat; assumption]. lra.
  - intros (H1 & ->).
    replace (F - (p_lambda0 p - p_a p * T) * T - p_eps p * p_eta p * (T - T)) with 0 by lra.
    split; [|replace (T - T) with 0 by ring]; unfold Rdiv; ring.
Qed.

(** ** C41 *)
Theorem c41_steady_states : forall reg parse s p e F T TD N,
  tl_setup reg parse s p e (fun _ => F) -> tl_reports reg s e T TD N -> p_eta p <> 0 ->
  forall i, (S i < npoints e)%nat ->
    (T (S i) = T i /\ TD (S i) = TD i) <->
    (p_a p * (T i * T i) - p_lambda0 p * T i + F = 0 /\ TD i = T i).
Proof.
  intros reg parse s p e F T TD N HS HR He i Hi. destruct (setup_inv _ _ _ _ _ _ _ _ _ HS HR) as (Hz & HI).
  destruct (HI (S i) Hi) as (-> & -> & _). destruct (HI i ltac:(lia)) as (-> & -> & _).
  destruct (caps p (Hz ltac:(lia))) as (C1 & C2 & C3). rewrite eu_S, el_S. apply steady_iff; assumption.
Qed.

Lemma response_values reg p F T TD N : constant_forcing_response reg p F T TD N ->
  (forall i, T i = eu p (fun _ => F) i /\ TD i = el p (fun _ => F) i /\ N i = en p (fun _ => F) i) /\
  p_du p <> 0 /\ p_dl p <> 0 /\ p_dt p <> 0.
Proof.
  intros H. set (parse := fun _ : string => @None (Qty (xenv reg))).
  destruct (tl_model reg parse p) as (s & Hr & Hv).
  split.
  - intros i. destruct (a_series reg (fun _ => F) (S i)) as (e & Hn & HF).
    assert (HS : tl_setup reg parse s p e (fun _ => F)) by (split; auto).
    destruct (setup_inv _ _ _ _ _ _ _ _ _ HS (H parse s e HS)) as (_ & HI). apply HI. lia.
  - destruct (a_series reg (fun _ => F) 2) as (e & Hn & HF).
    assert (HS : tl_setup reg parse s p e (fun _ => F)) by (split; auto).
    destruct (setup_inv _ _ _ _ _ _ _ _ _ HS (H parse s e HS)) as (HI & _). apply HI. lia.
Qed.

Theorem c41_limits_are_roots : forall reg p F T TD N L LD,
  constant_forcing_response reg p F T TD N -> p_eta p <> 0 -> Un_cv T L -> Un_cv TD LD ->
  p_a p * (L * L) - p_lambda0 p * L + F = 0 /\ LD = L.
Proof.
  intros reg p F T TD N L LD H He HT HD. destruct (response_values _ _ _ _ _ _ H) as (HV & HZ).
  destruct (caps p HZ) as (C1 & C2 & C3).
  apply (steady_iff p F L LD C1 C2 C3 He).
  assert (S1 : forall x l, Un_cv x l -> Un_cv (fun i => x (S i)) l).
  { intros x l K eps Hep. destruct (K eps Hep) as (M & HM). exists M. intros n Hn. apply HM. lia. }
  split.
  - apply UL_sequence with (fun i => T (S i)); [|apply S1, HT].
    apply cv_ext with (fun i => T i + p_dt p * dT_dt p F (T i) (TD i)).
    + intros i. destruct (HV (S i)) as (-> & _). destruct (HV i) as (-> & -> & _). rewrite eu_S. reflexivity.
    + apply CV_plus; [exact HT|]. apply CV_mult; [apply cv_const|]. unfold dT_dt.
      apply CV_mult; [|apply cv_const]. apply CV_minus.
      * apply CV_minus; [apply cv_const|]. apply CV_mult; [|exact HT]. apply CV_minus; [apply cv_const|].
        apply CV_mult; [apply cv_const|exact HT].
      * apply CV_mult; [apply cv_const|]. apply CV_minus; assumption.
  - apply UL_sequence with (fun i => TD (S i)); [|apply S1, HD].
    apply cv_ext with (fun i => TD i + p_dt p * dTD_dt p (T i) (TD i)).
    + intros i. destruct (HV (S i)) as (_ & -> & _). destruct (HV i) as (-> & -> & _). rewrite el_S. reflexivity.
    + apply CV_plus; [exact HD|]. apply CV_mult; [apply cv_const|]. unfold dTD_dt.
      apply CV_mult; [|apply cv_const]. apply CV_mult; [apply cv_const|]. apply CV_minus; assumption.
Qed.

(** Above the threshold there is no root, hence neither a steady state nor a limit. *)
Theorem c41_no_steady_state_above_threshold : forall a lambda0 F x,
  0 < a -> lambda0 * lambda0 < 4 * a * F -> a * (x * x) - lambda0 * x + F <> 0.
Proof.
  intros a l F x Ha H K.
  assert (0 <= (2 * a * x - l) * (2 * a * x - l)) by (exact (Rle_0_sqr (2 * a * x - l))).
  assert (Z : 4 * a * (a * (x * x) - l * x + F) = 0) by (rewrite K; ring). clear K. lra.
Qed.

Section Runaway.
Variables (p : TLP) (F : R).
Hypothesis D1 : 0 < p_du p.
Hypothesis D2 : 0 < p_dl p.
Hypothesis Dt : 0 < p_dt p.
Hypothesis De : 0 <= p_eps p.
Hypothesis Dh : 0 <= p_eta p.
Hypothesis Da : 0 < p_a p.
Hypothesis Hs : small_step p.
Hypothesis HF : p_lambda0 p * p_lambda0 p < 4 * p_a p * F.
Let g := F - p_lambda0 p * p_lambda0 p / (4 * p_a p).
Notation u := (eu p (fun _ => F)).
Notation v := (el p (fun _ => F)).

Lemma g_pos : 0 < g.
Proof.
  unfold g. replace (F - p_lambda0 p * p_lambda0 p / (4 * p_a p)) with
    ((4 * p_a p * F - p_lambda0 p * p_lambda0 p) / (4 * p_a p)) by (field; lra).
  apply pos_div; lra.
Qed.
Lemma F_pos : 0 < F.
Proof. pose proof g_pos. unfold g in *. assert (0 <= p_lambda0 p * p_lambda0 p / (4 * p_a p)); [apply div_nonneg; nra|lra]. Qed.
Lemma square_part x : p_a p * (x * x) - p_lambda0 p * x + F >= g.
Proof.
  apply Rle_ge. unfold g.
  assert (0 <= p_a p * ((x - p_lambda0 p / (2 * p_a p)) * (x - p_lambda0 p / (2 * p_a p)))) as K by (apply Rmult_le_pos; [lra|apply Rle_0_sqr]).
  replace (p_a p * (x * x) - p_lambda0 p * x + F) with
    (p_a p * ((x - p_lambda0 p / (2 * p_a p)) * (x - p_lambda0 p / (2 * p_a p))) + (F - p_lambda0 p * p_lambda0 p / (4 * p_a p)))
    by (field; lra).
  lra.
Qed.
Lemma rC : 0 < p_C p. Proof. apply cap_pos, D1. Qed.
Lemma rCD : 0 < p_CD p. Proof. apply cap_pos, D2. Qed.
Let al := p_dt p / p_C p.
Let be := p_dt p / p_CD p.
Lemma r_al : 0 < al. Proof. apply pos_div; [exact Dt|apply rC]. Qed.
Lemma r_be : 0 < be. Proof. apply pos_div; [exact Dt|apply rCD]. Qed.
Lemma r_k1 : 0 <= 1 - al * (p_lambda0 p + p_eps p * p_eta p).
Proof.
  destruct Hs as (H & _). pose proof rC. unfold al.
  replace (1 - p_dt p / p_C p * (p_lambda0 p + p_eps p * p_eta p)) with
    ((p_C p - p_dt p * (p_lambda0 p + p_eps p * p_eta p)) / p_C p) by (field; lra).
  apply div_nonneg; lra.
Qed.
Lemma r_k2 : 0 <= 1 - be * p_eta p.
Proof.
  destruct Hs as (_ & H). pose proof rCD. unfold be.
  replace (1 - p_dt p / p_CD p * p_eta p) with ((p_CD p - p_dt p * p_eta p) / p_CD p) by (field; lra).
  apply div_nonneg; lra.
Qed.
Lemma r_su i : u (S i) = (1 - al * (p_lambda0 p + p_eps p * p_eta p)) * u i + al * p_a p * (u i * u i) + al * (p_eps p * p_eta p) * v i + al * F.
Proof. rewrite eu_S. unfold dT_dt, al. pose proof rC. field. lra. Qed.
Lemma r_sl i : v (S i) = (1 - be * p_eta p) * v i + be * p_eta p * u i.
Proof. rewrite el_S. unfold dTD_dt, be. pose proof rCD. field. lra. Qed.

Lemma r_mono i : 0 <= u i /\ 0 <= v i /\ u i <= u (S i) /\ v i <= v (S i) /\ v i <= u i.
Proof.
  pose proof r_al. pose proof r_be. pose proof r_k1. pose proof r_k2. pose proof F_pos.
  assert (E : 0 <= p_eps p * p_eta p) by (apply Rmult_le_pos; assumption).
  assert (A1 : 0 <= al * (p_eps p * p_eta p)) by (apply Rmult_le_pos; lra).
  assert (A2 : 0 <= al * p_a p) by (apply Rmult_le_pos; lra).
  assert (A3 : 0 < al * F) by (apply Rmult_lt_0_compat; assumption).
  assert (A4 : 0 <= be * p_eta p) by (apply Rmult_le_pos; lra).
  induction i as [|i (I1 & I2 & I3 & I4 & I5)].
  - rewrite r_su, r_sl. unfold eu, el. cbn. repeat split; lra.
  - assert (J1 : 0 <= u (S i)) by lra. assert (J2 : 0 <= v (S i)) by lra.
    split; [exact J1|]. split; [exact J2|]. split; [|split].
    + rewrite (r_su (S i)), (r_su i) at 1.
      apply Rplus_le_compat_r. apply Rplus_le_compat; [apply Rplus_le_compat|]; apply Rmult_le_compat_l; auto.
      apply Rmult_le_compat; assumption.
    + rewrite (r_sl (S i)), (r_sl i) at 1. apply Rplus_le_compat; apply Rmult_le_compat_l; auto.
    + rewrite r_sl. apply Rle_trans with (u i); [|exact I3].
      assert ((1 - be * p_eta p) * v i <= (1 - be * p_eta p) * u i) by (apply Rmult_le_compat_l; assumption). lra.
Qed.

Lemma r_heat i : INR i * (p_dt p * g) <= p_C p * u i + p_eps p * p_CD p * v i.
Proof.
  induction i as [|i IH]; [unfold eu, el; cbn; lra|].
  rewrite S_INR. pose proof rC. pose proof rCD.
  assert (K : p_C p * u (S i) + p_eps p * p_CD p * v (S i) =
              p_C p * u i + p_eps p * p_CD p * v i + p_dt p * (p_a p * (u i * u i) - p_lambda0 p * u i + F)).
  { rewrite eu_S, el_S. unfold dT_dt, dTD_dt. field. lra. }
  rewrite K. pose proof (square_part (u i)).
  assert (p_dt p * g <= p_dt p * (p_a p * (u i * u i) - p_lambda0 p * u i + F)) by (apply Rmult_le_compat_l; lra). lra.
Qed.

Lemma runaway i : INR i * (p_dt p * (F - p_lambda0 p * p_lambda0 p / (4 * p_a p)) / (p_C p + p_eps p * p_CD p)) <= u i.
Proof.
  pose proof rC. pose proof rCD. assert (0 <= p_eps p * p_CD p) by (apply Rmult_le_pos; lra).
  pose proof (r_heat i) as K. destruct (r_mono i) as (I1 & I2 & _ & _ & I5).
  assert (p_eps p * p_CD p * v i <= p_eps p * p_CD p * u i) by (apply Rmult_le_compat_l; assumption).
  apply Rmult_le_reg_r with (p_C p + p_eps p * p_CD p); [lra|]. fold g.
  replace (INR i * (p_dt p * g / (p_C p + p_eps p * p_CD p)) * (p_C p + p_eps p * p_CD p)) with (INR i * (p_dt p * g)) by (field; lra).
  lra.
Qed.
End Runaway.

(** Above the threshold the upper temperature grows at least linearly in the
    number of steps ... *)
Theorem c41_runaway_lower_bound : forall reg parse s p e F T TD N,
  tl_setup reg parse s p e (fun _ => F) -> tl_reports reg s e T TD N ->
  0 < p_du p -> 0 < p_dl p -> 0 < p_dt p -> 0 <= p_eps p -> 0 <= p_eta p -> 0 < p_a p -> small_step p ->
  p_lambda0 p * p_lambda0 p < 4 * p_a p * F ->
  forall i, (i < npoints e)%nat ->
    INR i * (p_dt p * (F - p_lambda0 p * p_lambda0 p / (4 * p_a p)) / (p_C p + p_eps p * p_CD p)) <= T i.
Proof.
  intros reg parse s p e F T TD N HS HR H1 H2 H3 H4 H5 H6 H7 H8 i Hi.
  destruct (setup_inv _ _ _ _ _ _ _ _ _ HS HR) as (_ & HI). destruct (HI i Hi) as (-> & _).
  apply runaway; assumption.
Qed.

(** ... hence exceeds every bound. *)
Theorem c41_runaway : forall reg p F T TD N,
  constant_forcing_response reg p F T TD N ->
  0 < p_du p -> 0 < p_dl p -> 0 < p_dt p -> 0 <= p_eps p -> 0 <= p_eta p -> 0 < p_a p -> small_step p ->
  p_lambda0 p * p_lambda0 p < 4 * p_a p * F ->
  cv_infty T.
Proof.
  intros reg p F T TD N H H1 H2 H3 H4 H5 H6 H7 H8 B.
  destruct (response_values _ _ _ _ _ _ H) as (HV & _).
  set (k := p_dt p * (F - p_lambda0 p * p_lambda0 p / (4 * p_a p)) / (p_C p + p_eps p * p_CD p)).
  pose proof (cap_pos _ H1) as HC. pose proof (cap_pos _ H2) as HCD. fold (p_C p) in HC. fold (p_CD p) in HCD.
  assert (Hk : 0 < k).
  { apply pos_div; [apply pos_mul; [assumption|apply g_pos; assumption]|].
    assert (0 <= p_eps p * p_CD p) by (apply Rmult_le_pos; lra). lra. }
  destruct (nat_above (B / k)) as (M & HM). exists M. intros n Hn.
  destruct (HV n) as (-> & _). eapply Rlt_le_trans; [|apply runaway; assumption]. fold k.
  apply Rlt_le_trans with (INR M * k).
  - apply Rmult_lt_reg_r with (/ k); [apply Rinv_0_lt_compat; assumption|].
    replace (INR M * k * / k) with (INR M) by (field; lra). exact HM.
  - apply Rmult_le_compat_r; [lra|]. apply le_INR. lia.
Qed.

(** The hypotheses can be met, below and above the threshold. *)
Example c41_case : forall reg, exists T TD N,
  constant_forcing_response reg (mkTLPhys 50 1200 (5/4) (1/10) 1 (4/5) 31557600) 8 T TD N /\
  small_step (mkTLPhys 50 1200 (5/4) (1/10) 1 (4/5) 31557600) /\ (5/4) * (5/4) < 4 * (1/10) * 8.
Proof.
  intros reg. do 3 eexists. split; [|split; [unfold small_step, p_C, p_CD, water_capacity; cbn; lra|lra]].
  intros parse s e (Hr & Hv & HF). apply (run_reports reg parse s _ e _ Hr Hv HF); cbn; lra.
Qed.
Example c41_case_steady : forall reg parse, exists s e T TD N,
  tl_setup reg parse s (mkTLPhys 50 1200 (5/4) (1/10) 1 (4/5) 31557600) e (fun _ => 0) /\ npoints e = 3%nat /\
  tl_reports reg s e T TD N /\ T 2%nat = T 1%nat.
Proof.
  intros reg parse. set (p := mkTLPhys 50 1200 (5/4) (1/10) 1 (4/5) 31557600).
  destruct (tl_run_exists reg parse p (fun _ => 0) 3) as (s & e & Hr & Hv & Hn & HF & HR); cbn; try lra.
  exists s, e. do 3 eexists. split; [split; auto|]. split; [exact Hn|]. split; [exact HR|].
  rewrite !(proj1 (euler_zero p (fun _ => 0) _ (fun _ _ => eq_refl))). reflexivity.
Qed.
