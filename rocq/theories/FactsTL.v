(** Properties C10-C13, C16, C39, C40: two-layer runs in exact arithmetic. *)
From Coq Require Import List String QArith Reals Qreals Bool Arith Lra Lia Psatz.
From Verif Require Import Arith Pint Base TwoLayer Impulse Scm Api Spec Exact SpecReal
  GenTL GenTLHist GenMeta RealUnits RealTL RealGeo RealConv RealIR RealModels RealEuler.
Import ListNotations.
Local Open Scope R_scope.

(** A run of fewer than two entries reports zeros whatever the parameters. *)
Lemma short_reports reg parse s p e F : tl_setup reg parse s p e F -> (npoints e < 2)%nat ->
  tl_reports reg s e (eu p F) (el p F) (en p F).
Proof.
  intros (Hr & Hv & HF) Hn.
  destruct (run_series reg parse s p e F Hr Hv HF) as (s' & U & L & R & Hd & Ho & LU & LL & LR & H0 & _).
  rewrite first_length in *. exists s'. split; [exact Hd|]. rewrite Ho.
  assert (K : (0 < npoints e)%nat -> nth_error U 0 = Some (Fin 0) /\ nth_error L 0 = Some (Fin 0) /\ nth_error R 0 = Some (Fin 0)).
  { intros Hp. rewrite (nQ0 reg) in H0. apply H0. intros Z. apply (f_equal (@List.length _)) in Z. rewrite first_length in Z. cbn in Z. lia. }
  rewrite (is_first reg _ (eu p F) U LU), (is_first reg _ (el p F) L LL), (is_first reg _ (en p F) R LR); [reflexivity| | |];
    intros i Hi; replace i with 0%nat by lia; apply K; lia.
Qed.

Lemma reports_of reg parse s p e F : tl_setup reg parse s p e F ->
  ((2 <= npoints e)%nat -> p_du p <> 0 /\ p_dl p <> 0 /\ p_dt p <> 0) ->
  tl_reports reg s e (eu p F) (el p F) (en p F).
Proof.
  intros (Hr & Hv & HF) H. destruct (Nat.lt_ge_cases (npoints e) 2) as [K|K].
  - apply (short_reports reg parse); [split; auto|assumption].
  - destruct (H K) as (H1 & H2 & H3). apply (run_reports reg parse); assumption.
Qed.

Lemma reports_as reg s e T TD N T' TD' N' :
  (forall i, (i < npoints e)%nat -> T i = T' i /\ TD i = TD' i /\ N i = N' i) ->
  tl_reports reg s e T TD N -> tl_reports reg s e T' TD' N'.
Proof.
  intros H (s' & Hd & Ho). exists s'. split; [exact Hd|]. rewrite Ho.
  rewrite (first_ext reg _ T T'), (first_ext reg _ TD TD'), (first_ext reg _ N N') by (intros i Hi; apply H, Hi). reflexivity.
Qed.

Lemma setup_inv reg parse s p e F T TD N : tl_setup reg parse s p e F -> tl_reports reg s e T TD N ->
  ((2 <= npoints e)%nat -> p_du p <> 0 /\ p_dl p <> 0 /\ p_dt p <> 0) /\
  forall i, (i < npoints e)%nat -> T i = eu p F i /\ TD i = el p F i /\ N i = en p F i.
Proof. intros (Hr & Hv & HF) HR. exact (reports_inv reg parse s p e F Hr Hv HF T TD N HR). Qed.

Lemma caps p : p_du p <> 0 /\ p_dl p <> 0 /\ p_dt p <> 0 -> p_C p <> 0 /\ p_CD p <> 0 /\ p_dt p <> 0.
Proof. intros (H1 & H2 & H3). split; [apply cap_neq, H1|]. split; [apply cap_neq, H2|exact H3]. Qed.

(** Parameters for the examples: 50 m over 1200 m, lambda0 = 1.25, eta = 0.8,
    one-year steps. *)
Definition ex_tl : TLP := mkTLPhys 50 1200 (5/4) 0 1 (4/5) 31557600.

(** ** C10 *)
Theorem c10_forward_euler : forall reg parse s p e F,
  tl_setup reg parse s p e F -> p_du p <> 0 -> p_dl p <> 0 ->
  tl_reports_temps reg s e (fun i => fst (euler p F i)) (fun i => snd (euler p F i)).
Proof.
  intros reg parse s p e F (Hr & Hv & HF). exact (run_temps reg parse s p e F Hr Hv HF).
Qed.

(** The heat capacities the model shows are those of the two depths of water. *)
Theorem c10_heat_capacities : forall reg parse s p e F,
  tl_setup reg parse s p e F ->
  is_qty reg (tl_heat_capacity_upper (xenv reg) s) (p_C p) u_JCm2 /\
  is_qty reg (tl_heat_capacity_lower (xenv reg) s) (p_CD p) u_JCm2.
Proof.
  intros reg parse s p e F (_ & (H1 & H2 & _) & _). split; apply capacity_qty; assumption.
Qed.

(** The numbers combined in a step are in consistent units: W/m^2 times s per
    J/m^2/delta_degC is delta_degC, and feedbacks times temperatures are W/m^2. *)
Theorem c10_units_are_consistent : forall reg,
  let unit_is u v := same_dim (xenv reg) u v /\ usize reg u = usize reg v in
  unit_is (udiv (umul u_Wm2 u_s) u_JCm2) u_dC /\
  unit_is (umul u_Wm2C u_dC) u_Wm2 /\
  unit_is (umul (umul u_Wm2C2 u_dC) u_dC) u_Wm2.
Proof.
  intros reg unit_is. unfold unit_is.
  split; [|split]; (split; [dims reg|sizes reg]).
Qed.

(** A layer of depth zero gives non-finite temperatures from the second entry on. *)
Theorem c10_zero_depth_is_not_finite : forall reg parse s p e F T TD,
  tl_setup reg parse s p e F -> (2 <= npoints e)%nat -> p_du p = 0 \/ p_dl p = 0 ->
  ~ tl_reports_temps reg s e T TD.
Proof.
  intros reg parse s p e F T TD (Hr & Hv & HF) Hn Hz HT.
  destruct (temps_inv reg parse s p e F Hr Hv HF T TD HT) as (K & _). destruct (K Hn). tauto.
Qed.

Example c10_case : forall reg parse, exists s e,
  tl_setup reg parse s ex_tl e (fun i => INR i) /\ npoints e = 4%nat /\
  tl_reports_temps reg s e (fun i => fst (euler ex_tl (fun i => INR i) i)) (fun i => snd (euler ex_tl (fun i => INR i) i)) /\
  0 < fst (euler ex_tl (fun i => INR i) 2).
Proof.
  intros reg parse. destruct (tl_run_exists reg parse ex_tl (fun i => INR i) 4) as (s & e & Hr & Hv & Hn & HF & HR); cbn; try lra.
  exists s, e. split; [split; auto|]. split; [exact Hn|]. split; [exact (reports_temps reg s e _ _ _ HR)|].
  cbn. unfold dT_dt, dTD_dt, p_C, p_CD, water_capacity. cbn. lra.
Qed.

(** ** C11 *)
Theorem c11_heat_uptake_is_reported : forall reg parse s p e F,
  tl_setup reg parse s p e F -> p_du p <> 0 -> p_dl p <> 0 -> p_dt p <> 0 ->
  exists T TD N, tl_reports reg s e T TD N.
Proof.
  intros reg parse s p e F (Hr & Hv & HF) H1 H2 H3. do 3 eexists. exact (run_reports reg parse s p e F Hr Hv HF H1 H2 H3).
Qed.

Theorem c11_energy_balance : forall reg parse s p e F T TD N,
  tl_setup reg parse s p e F -> tl_reports reg s e T TD N ->
  ((0 < npoints e)%nat -> N 0%nat = 0) /\
  forall i, (S i < npoints e)%nat ->
    N (S i) = F i - (p_lambda0 p - p_a p * T i) * T i - (p_eps p - 1) * p_eta p * (T i - TD i).
Proof.
  intros reg parse s p e F T TD N HS HR. destruct (setup_inv _ _ _ _ _ _ _ _ _ HS HR) as (Hz & HI).
  split; [intros Hp; apply (HI 0%nat Hp)|]. intros i Hi.
  destruct (HI (S i) Hi) as (_ & _ & ->). destruct (HI i ltac:(lia)) as (-> & -> & _).
  destruct (caps p (Hz ltac:(lia))) as (C1 & C2 & C3). apply en_balance; assumption.
Qed.

Theorem c11_efficacy_1_is_top_of_atmosphere : forall reg parse s p e F T TD N,
  tl_setup reg parse s p e F -> tl_reports reg s e T TD N -> p_eps p = 1 -> p_a p = 0 ->
  forall i, (S i < npoints e)%nat -> N (S i) = F i - p_lambda0 p * T i.
Proof.
  intros reg parse s p e F T TD N HS HR He Ha i Hi.
  rewrite (proj2 (c11_energy_balance _ _ _ _ _ _ _ _ _ HS HR) i Hi), He, Ha. ring.
Qed.

Example c11_case : forall reg parse, exists s e T TD N,
  tl_setup reg parse s (mkTLPhys 50 1200 (5/4) (1/20) (6/5) (4/5) 31557600) e (fun _ => 4) /\ npoints e = 3%nat /\
  tl_reports reg s e T TD N /\ 0 < N 2%nat < 4.
Proof.
  intros reg parse. set (p := mkTLPhys 50 1200 (5/4) (1/20) (6/5) (4/5) 31557600).
  destruct (tl_run_exists reg parse p (fun _ => 4) 3) as (s & e & Hr & Hv & Hn & HF & HR); cbn; try lra.
  exists s, e. do 3 eexists. split; [split; auto|]. split; [exact Hn|]. split; [exact HR|].
  unfold en, eu, el, p. cbn. unfold dT_dt, dTD_dt, p_C, p_CD, water_capacity. cbn. lra.
Qed.

(** ** C12 *)
Theorem c12_no_heat_is_lost : forall reg parse s p e F T TD N,
  tl_setup reg parse s p e F -> tl_reports reg s e T TD N ->
  forall i, (i < npoints e)%nat ->
    p_dt p * sum_f_R0 N i = p_C p * T i + p_CD p * TD i.
Proof.
  intros reg parse s p e F T TD N HS HR i Hi. destruct (setup_inv _ _ _ _ _ _ _ _ _ HS HR) as (Hz & HI).
  assert (K : sum_f_R0 N i = sum_f_R0 (en p F) i).
  { apply sum_eq. intros j Hj. apply HI. lia. }
  rewrite K. destruct (HI i Hi) as (-> & -> & _).
  destruct (Nat.lt_ge_cases (npoints e) 2) as [Hn|Hn].
  - replace i with 0%nat by lia. cbn. unfold eu, el. cbn. ring.
  - destruct (caps p (Hz Hn)) as (C1 & C2 & C3). apply en_sum; assumption.
Qed.

Example c12_case : forall reg parse, exists s e T TD N,
  tl_setup reg parse s ex_tl e (fun _ => 4) /\ npoints e = 3%nat /\ tl_reports reg s e T TD N /\
  p_dt ex_tl * (N 0%nat + N 1%nat + N 2%nat) = p_C ex_tl * T 2%nat + p_CD ex_tl * TD 2%nat /\ 0 < TD 2%nat.
Proof.
  intros reg parse.
  destruct (tl_run_exists reg parse ex_tl (fun _ => 4) 3) as (s & e & Hr & Hv & Hn & HF & HR); cbn; try lra.
  exists s, e. do 3 eexists. split; [split; auto|]. split; [exact Hn|]. split; [exact HR|]. split.
  - rewrite <- (c12_no_heat_is_lost reg parse s ex_tl e (fun _ => 4) _ _ _ ltac:(split; auto) HR 2 ltac:(lia)). reflexivity.
  - unfold eu, el. cbn. unfold dT_dt, dTD_dt, p_C, p_CD, water_capacity. cbn. lra.
Qed.

(** ** C13 *)
Theorem c13_linear_in_the_forcing : forall reg parse p s1 s2 s3 e1 e2 e3 F G c1 c2 T1 TD1 N1 T2 TD2 N2,
  p_a p = 0 ->
  tl_setup reg parse s1 p e1 F -> tl_setup reg parse s2 p e2 G ->
  tl_setup reg parse s3 p e3 (fun i => c1 * F i + c2 * G i) ->
  npoints e1 = npoints e3 -> npoints e2 = npoints e3 ->
  tl_reports reg s1 e1 T1 TD1 N1 -> tl_reports reg s2 e2 T2 TD2 N2 ->
  tl_reports reg s3 e3 (fun i => c1 * T1 i + c2 * T2 i) (fun i => c1 * TD1 i + c2 * TD2 i)
    (fun i => c1 * N1 i + c2 * N2 i).
Proof.
  intros reg parse p s1 s2 s3 e1 e2 e3 F G c1 c2 T1 TD1 N1 T2 TD2 N2 Ha S1 S2 S3 L1 L2 R1 R2.
  destruct (setup_inv _ _ _ _ _ _ _ _ _ S1 R1) as (Z1 & I1).
  destruct (setup_inv _ _ _ _ _ _ _ _ _ S2 R2) as (Z2 & I2).
  rewrite L1 in *. rewrite L2 in *.
  eapply reports_as; [|apply (reports_of reg parse s3 p e3 _ S3 Z1)].
  intros i Hi. destruct (I1 i Hi) as (-> & -> & ->). destruct (I2 i Hi) as (-> & -> & ->).
  destruct (euler_linear p F G c1 c2 Ha i) as (K1 & K2). pose proof (en_linear p F G c1 c2 Ha i) as K3. auto.
Qed.

(** With state-dependent feedback it fails: doubling the forcing triples the
    third temperature. *)
Theorem c13_fails_with_state_dependence : forall reg parse, exists p s e e2 T TD N T2 TD2 N2,
  p_a p = 1 /\ tl_setup reg parse s p e (fun _ => 1) /\ tl_setup reg parse s p e2 (fun _ => 2 * 1) /\
  npoints e = 3%nat /\ npoints e2 = 3%nat /\
  tl_reports reg s e T TD N /\ tl_reports reg s e2 T2 TD2 N2 /\ T 2%nat = 2 /\ T2 2%nat = 6.
Proof.
  intros reg parse. set (p := mkTLPhys (/ 4181000) (/ 4181000) 1 1 1 0 1).
  destruct (tl_model reg parse p) as (s & Hr & Hv).
  destruct (a_series reg (fun _ => 1) 3) as (e & Hn & HF). destruct (a_series reg (fun _ => 2 * 1) 3) as (e2 & Hn2 & HF2).
  exists p, s, e, e2. do 6 eexists. split; [reflexivity|]. split; [split; auto|]. split; [split; auto|].
  split; [exact Hn|]. split; [exact Hn2|].
  split; [apply (run_reports reg parse s p e _ Hr Hv HF); cbn; lra|].
  split; [apply (run_reports reg parse s p e2 _ Hr Hv HF2); cbn; lra|].
  split; unfold eu, p; cbn; unfold dT_dt, dTD_dt, p_C, p_CD, water_capacity; cbn; lra.
Qed.

Example c13_case : forall reg parse, exists s1 s2 s3 e1 e2 e3 T1 TD1 N1 T2 TD2 N2,
  tl_setup reg parse s1 ex_tl e1 (fun i => INR i) /\ tl_setup reg parse s2 ex_tl e2 (fun _ => 1) /\
  tl_setup reg parse s3 ex_tl e3 (fun i => 2 * INR i + -3 * 1) /\
  npoints e1 = 5%nat /\ npoints e2 = 5%nat /\ npoints e3 = 5%nat /\
  tl_reports reg s1 e1 T1 TD1 N1 /\ tl_reports reg s2 e2 T2 TD2 N2.
Proof.
  intros reg parse.
  destruct (tl_run_exists reg parse ex_tl (fun i => INR i) 5) as (s & e & Hr & Hv & Hn & HF & HR); cbn; try lra.
  destruct (tl_run_exists reg parse ex_tl (fun _ => 1) 5) as (s2 & e2 & Hr2 & Hv2 & Hn2 & HF2 & HR2); cbn; try lra.
  destruct (tl_run_exists reg parse ex_tl (fun i => 2 * INR i + -3 * 1) 5) as (s3 & e3 & Hr3 & Hv3 & Hn3 & HF3 & HR3); cbn; try lra.
  exists s, s2, s3, e, e2, e3. do 6 eexists. repeat split; eauto; try apply Hv; try apply Hv2; try apply Hv3; try apply HF; try apply HF2; try apply HF3.
Qed.

(** ** C16 *)
Theorem c16_sign_under_step_condition : forall reg parse s p e F T TD N,
  tl_setup reg parse s p e F -> tl_reports reg s e T TD N -> positive_tl p -> small_step p ->
  (forall i, (i < npoints e)%nat -> 0 <= F i) ->
  forall i, (i < npoints e)%nat -> 0 <= T i /\ 0 <= TD i.
Proof.
  intros reg parse s p e F T TD N HS HR Hp Hs H i Hi. destruct (setup_inv _ _ _ _ _ _ _ _ _ HS HR) as (_ & HI).
  destruct (HI i Hi) as (-> & -> & _). apply euler_nonneg; auto. intros j Hj. apply H. lia.
Qed.

Theorem c16_monotone_under_step_condition : forall reg parse s s' p e e' F G T TD N T' TD' N',
  tl_setup reg parse s p e F -> tl_setup reg parse s' p e' G -> npoints e = npoints e' ->
  tl_reports reg s e T TD N -> tl_reports reg s' e' T' TD' N' ->
  positive_tl p -> small_step p ->
  (forall i, (i < npoints e)%nat -> F i <= G i) ->
  forall i, (i < npoints e)%nat -> T i <= T' i /\ TD i <= TD' i.
Proof.
  intros reg parse s s' p e e' F G T TD N T' TD' N' HS HS' Hn HR HR' Hp Hs H i Hi.
  destruct (setup_inv _ _ _ _ _ _ _ _ _ HS HR) as (_ & HI). destruct (setup_inv _ _ _ _ _ _ _ _ _ HS' HR') as (_ & HI').
  destruct (HI i Hi) as (-> & -> & _). destruct (HI' i ltac:(lia)) as (-> & -> & _).
  apply euler_order; auto. intros j Hj. apply H. lia.
Qed.

Theorem c16_bounded_under_step_condition : forall reg parse s p e F T TD N M,
  tl_setup reg parse s p e F -> tl_reports reg s e T TD N -> positive_tl p -> small_step p ->
  (forall i, (i < npoints e)%nat -> Rabs (F i) <= M) ->
  forall i, (i < npoints e)%nat -> Rabs (T i) <= M / p_lambda0 p /\ Rabs (TD i) <= M / p_lambda0 p.
Proof.
  intros reg parse s p e F T TD N M HS HR Hp Hs H i Hi. destruct (setup_inv _ _ _ _ _ _ _ _ _ HS HR) as (_ & HI).
  destruct (HI i Hi) as (-> & -> & _). apply euler_bound; auto.
  - intros j Hj. apply H. lia.
  - eapply Rle_trans; [apply Rabs_pos|apply (H i Hi)].
Qed.

(** Nothing in the code enforces the condition: with these parameters and a
    ten-year step a single positive forcing value gives a negative temperature. *)
Theorem c16_fails_without_it : forall reg parse, exists p s e F T TD N,
  positive_tl p /\ tl_setup reg parse s p e F /\ npoints e = 3%nat /\ (forall i, 0 <= F i) /\
  tl_reports reg s e T TD N /\ T 2%nat < 0.
Proof.
  intros reg parse. set (p := mkTLPhys 50 1200 (5/4) 0 1 (4/5) 315576000).
  destruct (tl_run_exists reg parse p (fun i => if (i =? 0)%nat then 1 else 0) 3) as (s & e & Hr & Hv & Hn & HF & HR); cbn; try lra.
  exists p, s, e. do 4 eexists. split; [unfold positive_tl, p; cbn; lra|]. split; [split; [exact Hr|split; [exact Hv|exact HF]]|].
  split; [exact Hn|]. split; [intros [|i]; cbn; lra|]. split; [exact HR|].
  unfold eu, p; cbn; unfold dT_dt, dTD_dt, p_C, p_CD, water_capacity; cbn; lra.
Qed.

Example c16_case : positive_tl ex_tl /\ small_step ex_tl /\
  forall reg parse, exists s e T TD N,
    tl_setup reg parse s ex_tl e (fun i => INR i) /\ npoints e = 4%nat /\ tl_reports reg s e T TD N /\ 0 < T 2%nat.
Proof.
  split; [unfold positive_tl; cbn; lra|]. split; [unfold small_step, p_C, p_CD, water_capacity; cbn; lra|].
  intros reg parse. destruct (tl_run_exists reg parse ex_tl (fun i => INR i) 4) as (s & e & Hr & Hv & Hn & HF & HR); cbn; try lra.
  exists s, e. do 3 eexists. split; [split; auto|]. split; [exact Hn|]. split; [exact HR|].
  unfold eu. cbn. unfold dT_dt, dTD_dt, p_C, p_CD, water_capacity. cbn. lra.
Qed.

(** ** C39 *)
Theorem c39_no_exchange_is_one_layer : forall reg parse s p e F T TD N,
  tl_setup reg parse s p e F -> tl_reports reg s e T TD N -> p_eta p = 0 ->
  (forall i, (i < npoints e)%nat -> TD i = 0) /\
  ((0 < npoints e)%nat -> T 0%nat = 0) /\
  (forall i, (S i < npoints e)%nat ->
     T (S i) = T i + p_dt p * ((F i - (p_lambda0 p - p_a p * T i) * T i) / p_C p)).
Proof.
  intros reg parse s p e F T TD N HS HR He. destruct (setup_inv _ _ _ _ _ _ _ _ _ HS HR) as (_ & HI).
  assert (Z : forall i, el p F i = 0).
  { induction i as [|i IH]; [reflexivity|]. rewrite el_S, IH. unfold dTD_dt. rewrite He. unfold Rdiv. ring. }
  split; [intros i Hi; destruct (HI i Hi) as (_ & -> & _); apply Z|].
  split; [intros Hp; destruct (HI 0%nat Hp) as (-> & _); reflexivity|].
  intros i Hi. destruct (HI (S i) Hi) as (-> & _). destruct (HI i ltac:(lia)) as (-> & _).
  rewrite eu_S. unfold dT_dt. rewrite He. do 3 f_equal. ring.
Qed.

Lemma lower_bound p F B i : 0 < p_dl p -> 0 <= p_eta p -> 0 <= p_dt p -> p_dt p * p_eta p <= p_CD p ->
  (forall j, (j < i)%nat -> Rabs (eu p F j) <= B) -> 0 <= B ->
  Rabs (el p F i) <= INR i * (p_dt p * p_eta p * B / p_CD p).
Proof.
  intros Hd He Ht Hs HB HB0. pose proof (cap_pos _ Hd) as HC. fold (p_CD p) in HC.
  induction i as [|i IH]; [unfold el; cbn; rewrite Rabs_R0; lra|].
  specialize (IH ltac:(auto with arith)). specialize (HB i ltac:(lia)). rewrite el_S, S_INR.
  set (k := p_dt p * p_eta p / p_CD p).
  assert (K0 : 0 <= k) by (apply div_nonneg; [apply Rmult_le_pos|]; assumption).
  assert (K1 : 0 <= 1 - k).
  { unfold k. replace (1 - p_dt p * p_eta p / p_CD p) with ((p_CD p - p_dt p * p_eta p) / p_CD p) by (field; lra).
    apply div_nonneg; lra. }
  replace (el p F i + p_dt p * dTD_dt p (eu p F i) (el p F i)) with ((1 - k) * el p F i + k * eu p F i)
    by (unfold dTD_dt, k; field; lra).
  eapply Rle_trans; [apply Rabs_triang|]. rewrite !Rabs_mult, (Rabs_right _ (Rle_ge _ _ K1)), (Rabs_right _ (Rle_ge _ _ K0)).
  replace ((INR i + 1) * (p_dt p * p_eta p * B / p_CD p)) with (INR i * (p_dt p * p_eta p * B / p_CD p) + k * B)
    by (unfold k; field; lra).
  apply Rplus_le_compat; [|apply Rmult_le_compat_l; assumption].
  eapply Rle_trans; [|exact IH]. rewrite <- (Rmult_1_l (Rabs (el p F i))) at 2.
  apply Rmult_le_compat_r; [apply Rabs_pos|lra].
Qed.

Theorem c39_deep_lower_layer_bound : forall reg parse s p e F T TD N B,
  tl_setup reg parse s p e F -> tl_reports reg s e T TD N ->
  0 < p_dl p -> 0 <= p_eta p -> 0 <= p_dt p -> p_dt p * p_eta p <= p_CD p ->
  (forall i, (i < npoints e)%nat -> Rabs (T i) <= B) ->
  forall i, (i < npoints e)%nat -> Rabs (TD i) <= INR i * (p_dt p * p_eta p * B / p_CD p).
Proof.
  intros reg parse s p e F T TD N B HS HR Hd He Ht Hs HB i Hi. destruct (setup_inv _ _ _ _ _ _ _ _ _ HS HR) as (_ & HI).
  destruct (HI i Hi) as (_ & -> & _). apply lower_bound; auto.
  - intros j Hj. destruct (HI j ltac:(lia)) as (<- & _). apply HB. lia.
  - eapply Rle_trans; [apply Rabs_pos|apply (HB i Hi)].
Qed.

(** As the lower layer gets deeper (all else fixed) its temperature tends to 0
    over any fixed number of steps, uniformly in the forcing. *)
Theorem c39_deep_lower_layer_limit : forall du lambda0 eps eta dt M n tol,
  0 < du -> 0 < lambda0 -> 0 < eps -> 0 < eta -> 0 < dt -> 0 < tol ->
  dt * (lambda0 + eps * eta) <= water_capacity du ->
  exists depth, 0 < depth /\ forall dl, depth <= dl ->
    forall reg parse s e F T TD N,
    tl_setup reg parse s (mkTLPhys du dl lambda0 0 eps eta dt) e F -> tl_reports reg s e T TD N ->
    (npoints e <= n)%nat -> (forall i, (i < npoints e)%nat -> Rabs (F i) <= M) ->
    forall i, (i < npoints e)%nat -> Rabs (TD i) <= tol.
Proof.
  intros du l eps eta dt M n tol P1 P2 P3 P4 P5 P6 HS1.
  set (depth := dt * eta + INR n * (dt * eta * (Rabs M / l)) / tol).
  assert (HM : 0 <= Rabs M / l) by (apply div_nonneg; [apply Rabs_pos|assumption]).
  assert (HX : 0 < dt * eta) by (apply Rmult_lt_0_compat; assumption).
  assert (HY : 0 <= INR n * (dt * eta * (Rabs M / l)) / tol).
  { apply div_nonneg; [|assumption]. apply Rmult_le_pos; [apply pos_INR|]. apply Rmult_le_pos; lra. }
  exists depth. split; [unfold depth; lra|]. intros dl Hdl reg parse s e F T TD N HS HR Hn HF i Hi.
  set (p := mkTLPhys du dl l 0 eps eta dt) in *.
  assert (Hdl0 : 0 < dl) by (unfold depth in Hdl; lra).
  assert (HCD : dl <= p_CD p) by (unfold p_CD, water_capacity, p; cbn; lra).
  assert (HP : positive_tl p) by (unfold positive_tl, p; cbn; auto 10).
  assert (HSS : small_step p).
  { split; [exact HS1|]. unfold p at 1 2. cbn [p_dt p_eta]. unfold depth in Hdl. lra. }
  assert (HB : forall j, (j < npoints e)%nat -> Rabs (T j) <= Rabs M / l).
  { intros j Hj. apply (c16_bounded_under_step_condition reg parse s p e F T TD N (Rabs M) HS HR HP HSS); [|assumption].
    intros k Hk. eapply Rle_trans; [apply HF, Hk|apply Rle_abs]. }
  eapply Rle_trans.
  { eapply (c39_deep_lower_layer_bound reg parse s p e F T TD N _ HS HR); cbn; try lra; try exact HB; [|exact Hi].
    unfold depth in Hdl. lra. }
  cbn [p_dt p_eta p]. 
  assert (H1 : INR i * (dt * eta * (Rabs M / l)) <= INR n * (dt * eta * (Rabs M / l))).
  { apply Rmult_le_compat_r; [apply Rmult_le_pos; lra|]. apply le_INR. lia. }
  assert (H2 : INR n * (dt * eta * (Rabs M / l)) <= tol * p_CD p).
  { apply Rle_trans with (tol * depth).
    - unfold depth. rewrite Rmult_plus_distr_l.
      replace (tol * (INR n * (dt * eta * (Rabs M / l)) / tol)) with (INR n * (dt * eta * (Rabs M / l))) by (field; lra).
      assert (0 < tol * (dt * eta)) by (apply Rmult_lt_0_compat; assumption). lra.
    - apply Rmult_le_compat_l; lra. }
  unfold Rdiv at 1. rewrite <- Rmult_assoc.
  apply Rmult_le_reg_r with (p_CD p); [lra|].
  replace (INR i * (dt * eta * (Rabs M / l)) * / p_CD p * p_CD p) with (INR i * (dt * eta * (Rabs M / l))) by (field; lra).
  lra.
Qed.

Example c39_case : forall reg parse, exists s e T TD N,
  tl_setup reg parse s (mkTLPhys 50 1200 (5/4) (1/20) 1 0 31557600) e (fun _ => 4) /\ npoints e = 3%nat /\
  tl_reports reg s e T TD N /\ 0 < T 2%nat.
Proof.
  intros reg parse. set (p := mkTLPhys 50 1200 (5/4) (1/20) 1 0 31557600).
  destruct (tl_run_exists reg parse p (fun _ => 4) 3) as (s & e & Hr & Hv & Hn & HF & HR); cbn; try lra.
  exists s, e. do 3 eexists. split; [split; auto|]. split; [exact Hn|]. split; [exact HR|].
  unfold eu, p. cbn. unfold dT_dt, dTD_dt, p_C, p_CD, water_capacity. cbn. lra.
Qed.

(** ** C40 *)
Theorem c40_efficacy_not_identifiable : forall reg parse p k s s' e e' F T TD,
  k <> 0 ->
  tl_setup reg parse s p e F ->
  tl_setup reg parse s' (mkTLPhys (p_du p) (p_dl p / k) (p_lambda0 p) (p_a p) (k * p_eps p) (p_eta p / k) (p_dt p)) e' F ->
  npoints e = npoints e' -> p_du p <> 0 -> p_dl p <> 0 ->
  tl_reports_temps reg s e T TD -> tl_reports_temps reg s' e' T TD.
Proof.
  intros reg parse p k s s' e e' F T TD Hk (Hr & Hv & HF) (Hr' & Hv' & HF') Hn D1 D2 HR.
  set (p' := mkTLPhys _ _ _ _ _ _ _) in *.
  destruct (temps_inv reg parse s p e F Hr Hv HF T TD HR) as (_ & HI).
  assert (D2' : p_dl p' <> 0).
  { cbn. unfold Rdiv. apply Rmult_integral_contrapositive. split; [assumption|]. apply Rinv_neq_0_compat, Hk. }
  assert (HC : p_CD p' <> 0) by (apply cap_neq, D2').
  assert (HC' : p_CD p <> 0) by (apply cap_neq, D2).
  assert (HC0 : p_C p <> 0) by (apply cap_neq, D1).
  assert (Heq : p_CD p' = p_CD p / k) by (unfold p_CD, water_capacity, p'; cbn; unfold Rdiv; ring).
  assert (K : forall i, eu p' F i = eu p F i /\ el p' F i = el p F i).
  { induction i as [|i (I1 & I2)]; [split; reflexivity|]. rewrite !eu_S, !el_S, I1, I2.
    unfold dT_dt, dTD_dt. rewrite Heq. change (p_C p') with (p_C p). unfold p'. cbn [p_lambda0 p_a p_eps p_eta p_dt].
    split; field; auto. }
  destruct (run_temps reg parse s' p' e' F Hr' Hv' HF' D1 D2') as (s2 & N & Hd & Ho).
  exists s2, N. split; [exact Hd|]. rewrite Ho, <- Hn.
  rewrite (first_ext reg _ (eu p' F) T), (first_ext reg _ (el p' F) TD); [reflexivity| |]; intros i Hi;
    destruct (HI i Hi) as (E1 & E2); rewrite ?E1, ?E2; apply K.
Qed.

Example c40_case : forall reg parse, exists s s' e T TD,
  tl_setup reg parse s ex_tl e (fun i => INR i) /\
  tl_setup reg parse s' (mkTLPhys 50 (1200 / 2) (5/4) 0 (2 * 1) (4/5/2) 31557600) e (fun i => INR i) /\
  npoints e = 4%nat /\ tl_reports_temps reg s e T TD /\ 0 < TD 3%nat.
Proof.
  intros reg parse.
  destruct (tl_run_exists reg parse ex_tl (fun i => INR i) 4) as (s & e & Hr & Hv & Hn & HF & HR); cbn; try lra.
  destruct (tl_model reg parse (mkTLPhys 50 (1200 / 2) (5/4) 0 (2 * 1) (4/5/2) 31557600)) as (s' & Hr' & Hv').
  exists s, s', e. do 2 eexists. split; [split; auto|]. split; [split; auto|]. split; [exact Hn|].
  split; [exact (reports_temps reg s e _ _ _ HR)|].
  unfold el. cbn. unfold dT_dt, dTD_dt, p_C, p_CD, water_capacity. cbn. lra.
Qed.
