(** Property C62: the long run under forcings that never stop changing. *)
From Coq Require Import List String QArith Reals Qreals Bool Arith Lra Lia Psatz.
From Verif Require Import Arith Pint Base TwoLayer Impulse Scm Api Spec Exact SpecReal SpecStep SpecLong
  GenTL GenTLHist GenIR GenIRHist GenMeta RealUnits RealTL RealGeo RealConv RealIR RealModels RealEuler RealBox RealEquiv RealStep RealLong
  FactsTL FactsTL2 FactsConv FactsIR FactsStep.
Import ListNotations.
Local Open Scope R_scope.

Lemma fr_values reg p F T TD N : forcing_response reg p F T TD N ->
  forall i, T i = eu p F i /\ TD i = el p F i /\ N i = en p F i.
Proof.
  intros H. set (parse := fun _ : string => @None (Qty (xenv reg))).
  destruct (tl_model reg parse p) as (s & Hr & Hv).
  intros i. destruct (a_series reg F (S i)) as (e & Hn & HF).
  assert (HS : tl_setup reg parse s p e F) by (split; auto).
  destruct (setup_inv _ _ _ _ _ _ _ _ _ HS (H parse s e HS)) as (_ & HI). apply HI. lia.
Qed.
Lemma fr_exists reg p F : positive_tl p -> forcing_response reg p F (eu p F) (el p F) (en p F).
Proof.
  intros (P1 & P2 & P3 & P4 & P5 & P6 & P7) parse s e (Hr & Hv & HF).
  apply (run_reports reg parse s p e _ Hr Hv HF); lra.
Qed.
Lemma irf_values reg parse s p F T1 T2 T N : ir_reachable (xenv reg) parse s -> ir_values reg s p ->
  ir_forcing_response reg s F T1 T2 T N ->
  exists k m1 m2, heat_const reg s k m1 m2 /\
  forall i, T1 i = bt1 p F i /\ T2 i = bt2 p F i /\ T i = bt1 p F i + bt2 p F i /\ N i = hn p F k m1 m2 i.
Proof.
  intros Hr Hv H.
  destruct (a_series reg F 2) as (e & Hn & HF).
  assert (HS : ir_setup reg parse s p e F) by (split; auto).
  destruct (ir_setup_inv _ _ _ _ _ _ _ _ _ _ HS (H e HF)) as (_ & k & m1 & m2 & HC & _).
  destruct (HC ltac:(lia)) as (HC0 & D1 & D2). exists k, m1, m2. split; [assumption|]. clear HC.
  intros i. destruct (a_series reg F (S (S i))) as (e' & Hn' & HF').
  assert (HS' : ir_setup reg parse s p e' F) by (split; auto).
  destruct (ir_setup_inv _ _ _ _ _ _ _ _ _ _ HS' (H e' HF')) as (I1 & k' & m1' & m2' & HC' & HN).
  destruct (I1 i ltac:(lia)) as (-> & -> & ->). rewrite (HN i ltac:(lia)).
  destruct (HC' ltac:(lia)) as (HC1 & _). destruct (heat_const_unique _ _ _ _ _ _ _ _ HC0 HC1) as (<- & <- & <-). auto.
Qed.

(** The start shared by the theorems about the two-layer model. *)
Ltac start_tl Hv Hp HC HR :=
  let HV := fresh "HV" in
  destruct (converts_inv _ _ _ _ _ _ _ Hv Hp HC) as (-> & -> & -> & ->);
  pose proof (fr_values _ _ _ _ _ _ HR) as HV.

(** ** C62 *)
(** The two-layer model settles exactly when its forcing does. *)
Theorem c62_settles : forall reg s p q1 q2 d1 d2 F T TD N L,
  tl_values reg s p -> positive_tl p -> tl_converts reg s q1 q2 d1 d2 -> p_dt p < 2 * d1 ->
  forcing_response reg p F T TD N -> Un_cv F L ->
  Un_cv T (L / p_lambda0 p) /\ Un_cv TD (L / p_lambda0 p) /\ Un_cv N 0.
Proof.
  intros reg s p q1 q2 d1 d2 F T TD N L Hv Hp HC Hd HR HF. start_tl Hv Hp HC HR.
  destruct (two_cv p Hp Hd F L HF) as (U & V).
  split; [eapply cv_ext; [intros i; symmetry; apply HV|exact U]|].
  split; [eapply cv_ext; [intros i; symmetry; apply HV|exact V]|].
  eapply cv_ext; [intros i; symmetry; apply HV|]. exact (two_cv_heat p Hp Hd F L HF).
Qed.
Theorem c62_settles_only_then : forall reg s p q1 q2 d1 d2 F T TD N x,
  tl_values reg s p -> positive_tl p -> tl_converts reg s q1 q2 d1 d2 -> p_dt p < 2 * d1 ->
  forcing_response reg p F T TD N -> Un_cv T x -> Un_cv F (p_lambda0 p * x).
Proof.
  intros reg s p q1 q2 d1 d2 F T TD N x Hv Hp HC Hd HR HT. start_tl Hv Hp HC HR.
  apply (two_back p Hp Hd F x). eapply cv_ext; [intros i; apply HV|exact HT].
Qed.

(** What was forced long ago is forgotten. *)
Theorem c62_forgets : forall reg s p q1 q2 d1 d2 F G T TD N T' TD' N',
  tl_values reg s p -> positive_tl p -> tl_converts reg s q1 q2 d1 d2 -> p_dt p < 2 * d1 ->
  forcing_response reg p F T TD N -> forcing_response reg p G T' TD' N' -> merges F G ->
  merges T T' /\ merges TD TD' /\ merges N N'.
Proof.
  intros reg s p q1 q2 d1 d2 F G T TD N T' TD' N' Hv Hp HC Hd HR HR' HF. start_tl Hv Hp HC HR.
  pose proof (fr_values _ _ _ _ _ _ HR') as HV'. destruct (two_merge p Hp Hd F G HF) as (U & V).
  split; [eapply merges_ext; [intros i; symmetry; apply HV|intros i; symmetry; apply HV'|exact U]|].
  split; [eapply merges_ext; [intros i; symmetry; apply HV|intros i; symmetry; apply HV'|exact V]|].
  eapply merges_ext; [intros i; symmetry; apply HV|intros i; symmetry; apply HV'|].
  pose proof (mC p (l_conv p Hp)). pose proof (mCD p (l_conv p Hp)). pose proof (l_dt p Hp).
  apply en_merge; try lra; [apply Hp|assumption..].
Qed.

(** A forcing that repeats itself has a response that does so in the long run. *)
Theorem c62_cycles : forall reg s p q1 q2 d1 d2 F T TD N m,
  tl_values reg s p -> positive_tl p -> tl_converts reg s q1 q2 d1 d2 -> p_dt p < 2 * d1 ->
  forcing_response reg p F T TD N -> merges (fun i => F (i + m)%nat) F ->
  merges (fun i => T (i + m)%nat) T /\ merges (fun i => TD (i + m)%nat) TD /\ merges (fun i => N (i + m)%nat) N.
Proof.
  intros reg s p q1 q2 d1 d2 F T TD N m Hv Hp HC Hd HR HF. start_tl Hv Hp HC HR.
  destruct (two_shift p Hp Hd F m HF) as (U & V).
  split; [eapply merges_ext; [intros i; symmetry; apply HV|intros i; symmetry; apply HV|exact U]|].
  split; [eapply merges_ext; [intros i; symmetry; apply HV|intros i; symmetry; apply HV|exact V]|].
  eapply merges_ext; [intros i; symmetry; apply HV|intros i; symmetry; apply HV|].
  pose proof (mC p (l_conv p Hp)). pose proof (mCD p (l_conv p Hp)). pose proof (l_dt p Hp).
  apply en_shift_merge; try lra; [apply Hp|assumption..].
Qed.

(** Averages over a window respond like a constant. *)
Theorem c62_averages : forall reg s p q1 q2 d1 d2 F T TD N m L,
  tl_values reg s p -> positive_tl p -> tl_converts reg s q1 q2 d1 d2 -> p_dt p < 2 * d1 ->
  forcing_response reg p F T TD N -> Un_cv (window m F) L ->
  Un_cv (window m T) (L / p_lambda0 p) /\ Un_cv (window m TD) (L / p_lambda0 p).
Proof.
  intros reg s p q1 q2 d1 d2 F T TD N m L Hv Hp HC Hd HR HF. start_tl Hv Hp HC HR.
  destruct (two_window p Hp Hd F m L HF) as (U & V).
  split; [eapply cv_ext; [|exact U]|eapply cv_ext; [|exact V]]; intros i; apply sum_eq; intros k _; symmetry; apply HV.
Qed.

(** Under a steady increase of the forcing by [g] a step the model warms at
    [g] / [lambda0] a step, [lag] seconds behind the equilibrium, for every step. *)
Theorem c62_ramp : forall reg s p q1 q2 d1 d2 F T TD N g c,
  tl_values reg s p -> positive_tl p -> tl_converts reg s q1 q2 d1 d2 -> p_dt p < 2 * d1 ->
  forcing_response reg p F T TD N -> merges F (fun i => g * INR i + c) ->
  let lag := (p_C p + p_eps p * p_CD p) / p_lambda0 p in
  merges T (fun i => (g * (INR i - lag / p_dt p) + c) / p_lambda0 p) /\
  merges TD (fun i => (g * (INR i - (lag + p_CD p / p_eta p) / p_dt p) + c) / p_lambda0 p) /\
  Un_cv N ((p_C p + p_CD p) * (g / p_lambda0 p) / p_dt p).
Proof.
  intros reg s p q1 q2 d1 d2 F T TD N g c Hv Hp HC Hd HR HF lag. start_tl Hv Hp HC HR.
  destruct (two_ramp p Hp Hd F g c HF) as (U & V & SU & SL). fold lag in U, V.
  split; [eapply merges_ext; [intros i; symmetry; apply HV|reflexivity|exact U]|].
  split; [eapply merges_ext; [intros i; symmetry; apply HV|reflexivity|exact V]|].
  eapply cv_ext; [intros i; symmetry; apply HV|].
  eapply cv_to; [|exact (en_cv_of p Hp F _ _ SU SL)]. unfold Rdiv. ring.
Qed.

(** The whole response to a forcing that adds up to [A], and the heat it leaves. *)
Theorem c62_totals : forall reg s p q1 q2 d1 d2 F T TD N A,
  tl_values reg s p -> positive_tl p -> tl_converts reg s q1 q2 d1 d2 -> p_dt p < 2 * d1 ->
  forcing_response reg p F T TD N -> Un_cv (sum_f_R0 F) A ->
  Un_cv (sum_f_R0 T) (A / p_lambda0 p) /\ Un_cv (sum_f_R0 TD) (A / p_lambda0 p) /\ Un_cv (sum_f_R0 N) 0.
Proof.
  intros reg s p q1 q2 d1 d2 F T TD N A Hv Hp HC Hd HR HF. start_tl Hv Hp HC HR.
  destruct (two_total p Hp Hd F A HF) as (U & V). pose proof (two_heat_total p Hp Hd F A HF) as W.
  split; [|split]; [eapply cv_ext; [|exact U]|eapply cv_ext; [|exact V]|eapply cv_ext; [|exact W]]; intros i; apply sum_eq; intros k _; symmetry; apply HV.
Qed.

(** ** The impulse-response model, for every step *)
Section Boxes.
Variables (reg : Registry) (parse : string -> option (Qty (xenv reg))) (s : IR (xenv reg)) (p : IRP).
Hypothesis Hr : ir_reachable (xenv reg) parse s.
Hypothesis Hv : ir_values reg s p.
Hypothesis P1 : 0 < p_d1 p.
Hypothesis P2 : 0 < p_d2 p.
Hypothesis P3 : 0 < p_idt p.
Lemma B1 F : filt (exp (- p_idt p / p_d1 p)) (p_q1 p) F (bt1 p F). Proof. apply run_filt. Qed.
Lemma B2 F : filt (exp (- p_idt p / p_d2 p)) (p_q2 p) F (bt2 p F). Proof. apply run_filt. Qed.
Lemma E1 : Rabs (exp (- p_idt p / p_d1 p)) < 1. Proof. apply exp_range; assumption. Qed.
Lemma E2 : Rabs (exp (- p_idt p / p_d2 p)) < 1. Proof. apply exp_range; assumption. Qed.

Lemma hn_merge F G k m1 m2 : merges F G -> merges (bt1 p F) (bt1 p G) -> merges (bt2 p F) (bt2 p G) ->
  merges (hn p F k m1 m2) (hn p G k m1 m2).
Proof.
  intros HF H1 H2. apply cv_S.
  apply cv_ext with (fun i => (F i - G i) - ((k + m1) * (bt1 p F i - bt1 p G i) + (k + m2) * (bt2 p F i - bt2 p G i))).
  { intros i. cbn [hn]. ring. }
  apply cv_to with (0 - ((k + m1) * 0 + (k + m2) * 0)); [ring|].
  apply CV_minus; [exact HF|]. apply CV_plus; apply cv_scal; assumption.
Qed.
Lemma hn_shift_merge F n k m1 m2 : merges (fun i => F (i + n)%nat) F -> merges (fun i => bt1 p F (i + n)%nat) (bt1 p F) ->
  merges (fun i => bt2 p F (i + n)%nat) (bt2 p F) -> merges (fun i => hn p F k m1 m2 (i + n)%nat) (hn p F k m1 m2).
Proof.
  intros HF H1 H2. apply cv_S.
  apply cv_ext with (fun i => (F (i + n)%nat - F i) - ((k + m1) * (bt1 p F (i + n)%nat - bt1 p F i) + (k + m2) * (bt2 p F (i + n)%nat - bt2 p F i))).
  { intros i. rewrite Nat.add_succ_l. cbn [hn]. ring. }
  apply cv_to with (0 - ((k + m1) * 0 + (k + m2) * 0)); [ring|].
  apply CV_minus; [exact HF|]. apply CV_plus; apply cv_scal; assumption.
Qed.
(** The heat uptake balances in equilibrium. *)
Lemma hn_balance k m1 m2 : 0 < p_q1 p -> 0 < p_q2 p -> p_d1 p < p_d2 p -> 0 < p_ieps p ->
  usize reg (units (ir_q1 (xenv reg) s)) = usize reg u_CWm2 ->
  usize reg (units (ir_q2 (xenv reg) s)) = usize reg u_CWm2 ->
  heat_const reg s k m1 m2 -> 1 - (k + m1) * p_q1 p - (k + m2) * p_q2 p = 0.
Proof.
  intros Q1 Q2 Pd Pe U1 U2 HC.
  assert (HR : ir_constant_forcing_response reg s 1 (bt1 p (fun _ => 1)) (bt2 p (fun _ => 1))
     (fun i => bt1 p (fun _ => 1) i + bt2 p (fun _ => 1) i) (hn p (fun _ => 1) k m1 m2)).
  { intros e HF. apply (ir_run_reports reg parse s p e _ Hr Hv HF k m1 m2 HC). }
  pose proof (c17_impulse_response_heat_uptake_any_efficacy _ _ _ _ _ _ _ _ _ Hr Hv Q1 Q2 P1 Pd Pe P3 U1 U2 HR) as Z.
  apply cv_next in Z.
  pose proof (filt_cv _ _ E1 _ _ 1 (B1 (fun _ => 1)) (cv_const 1)) as C1.
  pose proof (filt_cv _ _ E2 _ _ 1 (B2 (fun _ => 1)) (cv_const 1)) as C2.
  apply (UL_sequence (fun i => hn p (fun _ => 1) k m1 m2 (S i))); [|exact Z].
  apply cv_ext with (fun i => 1 - (k + m1) * bt1 p (fun _ => 1) i - (k + m2) * bt2 p (fun _ => 1) i).
  { intros i. cbn [hn]. ring. }
  apply cv_to with (1 - (k + m1) * (p_q1 p * 1) - (k + m2) * (p_q2 p * 1)); [ring|].
  apply CV_minus; [apply CV_minus; [apply cv_const|]|]; apply cv_scal; assumption.
Qed.
End Boxes.

Theorem c62_impulse_response_settles : forall reg parse s p F T1 T2 T N L,
  ir_reachable (xenv reg) parse s -> ir_values reg s p -> 0 < p_d1 p -> 0 < p_d2 p -> 0 < p_idt p ->
  ir_forcing_response reg s F T1 T2 T N -> Un_cv F L ->
  Un_cv T1 (p_q1 p * L) /\ Un_cv T2 (p_q2 p * L) /\ Un_cv T ((p_q1 p + p_q2 p) * L).
Proof.
  intros reg parse s p F T1 T2 T N L Hr Hv P1 P2 P3 HR HF.
  destruct (irf_values _ _ _ _ _ _ _ _ _ Hr Hv HR) as (k & m1 & m2 & HC & HV).
  pose proof (filt_cv _ _ (E1 p P1 P3) _ _ L (B1 p F) HF) as C1.
  pose proof (filt_cv _ _ (E2 p P2 P3) _ _ L (B2 p F) HF) as C2.
  split; [eapply cv_ext; [intros i; symmetry; apply HV|exact C1]|].
  split; [eapply cv_ext; [intros i; symmetry; apply HV|exact C2]|].
  eapply cv_ext; [intros i; symmetry; apply HV|]. rewrite Rmult_plus_distr_r. apply CV_plus; assumption.
Qed.
Theorem c62_impulse_response_settles_only_then : forall reg parse s p F T1 T2 T N x,
  ir_reachable (xenv reg) parse s -> ir_values reg s p -> 0 < p_q1 p -> 0 < p_q2 p -> 0 < p_d1 p -> 0 < p_d2 p -> 0 < p_idt p ->
  ir_forcing_response reg s F T1 T2 T N -> Un_cv T x -> Un_cv F (x / (p_q1 p + p_q2 p)).
Proof.
  intros reg parse s p F T1 T2 T N x Hr Hv Q1 Q2 P1 P2 P3 HR HT.
  destruct (irf_values _ _ _ _ _ _ _ _ _ Hr Hv HR) as (k & m1 & m2 & HC & HV).
  destruct (parallel_back _ _ _ _ _ _ _ x (k_range (p_d1 p) (p_idt p) P1 P3) (k_range (p_d2 p) (p_idt p) P2 P3) Q1 Q2 (B1 p F) (B2 p F)) as (L & HL).
  { eapply cv_ext; [intros i; apply HV|exact HT]. }
  destruct (c62_impulse_response_settles _ _ _ _ _ _ _ _ _ _ Hr Hv P1 P2 P3 HR HL) as (_ & _ & C).
  rewrite (UL_sequence _ _ _ HT C). eapply cv_to; [|exact HL]. field. lra.
Qed.
Theorem c62_impulse_response_heat_uptake : forall reg parse s p F T1 T2 T N,
  ir_reachable (xenv reg) parse s -> ir_values reg s p ->
  0 < p_q1 p -> 0 < p_q2 p -> 0 < p_d1 p -> p_d1 p < p_d2 p -> 0 < p_ieps p -> 0 < p_idt p ->
  usize reg (units (ir_q1 (xenv reg) s)) = usize reg u_CWm2 ->
  usize reg (units (ir_q2 (xenv reg) s)) = usize reg u_CWm2 ->
  ir_forcing_response reg s F T1 T2 T N ->
  (forall L, Un_cv F L -> Un_cv N 0) /\ (forall A, Un_cv (sum_f_R0 F) A -> Un_cv (sum_f_R0 N) 0).
Proof.
  intros reg parse s p F T1 T2 T N Hr Hv Q1 Q2 P1 Pd Pe P3 U1 U2 HR.
  assert (P2 : 0 < p_d2 p) by lra.
  destruct (irf_values _ _ _ _ _ _ _ _ _ Hr Hv HR) as (k & m1 & m2 & HC & HV).
  pose proof (hn_balance reg parse s p Hr Hv P1 P2 P3 k m1 m2 Q1 Q2 Pd Pe U1 U2 HC) as HB. split.
  - intros L HF. pose proof (filt_cv _ _ (E1 p P1 P3) _ _ L (B1 p F) HF) as C1.
    pose proof (filt_cv _ _ (E2 p P2 P3) _ _ L (B2 p F) HF) as C2.
    eapply cv_ext; [intros i; symmetry; apply HV|]. apply cv_S.
    apply cv_ext with (fun i => F i - (k + m1) * bt1 p F i - (k + m2) * bt2 p F i); [intros i; cbn [hn]; ring|].
    apply cv_to with (L - (k + m1) * (p_q1 p * L) - (k + m2) * (p_q2 p * L)).
    { transitivity (L * (1 - (k + m1) * p_q1 p - (k + m2) * p_q2 p)); [ring|]. rewrite HB. ring. }
    apply CV_minus; [apply CV_minus; [exact HF|]|]; apply cv_scal; assumption.
  - intros A HF. pose proof (filt_total _ _ (E1 p P1 P3) _ _ A (B1 p F) eq_refl HF) as C1.
    pose proof (filt_total _ _ (E2 p P2 P3) _ _ A (B2 p F) eq_refl HF) as C2.
    apply cv_S.
    apply cv_ext with (fun i => sum_f_R0 F i - (k + m1) * sum_f_R0 (bt1 p F) i - (k + m2) * sum_f_R0 (bt2 p F) i).
    { intros i. rewrite (decomp_sum N (S i)) by lia. cbn [pred].
      replace (N 0%nat) with 0 by (symmetry; apply HV). rewrite Rplus_0_l.
      rewrite !scal_sum, <- !minus_sum. apply sum_eq. intros j _. destruct (HV (S j)) as (_ & _ & _ & ->). cbn [hn]. ring. }
    apply cv_to with (A - (k + m1) * (p_q1 p * A) - (k + m2) * (p_q2 p * A)).
    { transitivity (A * (1 - (k + m1) * p_q1 p - (k + m2) * p_q2 p)); [ring|]. rewrite HB. ring. }
    apply CV_minus; [apply CV_minus; [exact HF|]|]; apply cv_scal; assumption.
Qed.
Theorem c62_impulse_response_forgets : forall reg parse s p F G T1 T2 T N T1' T2' T' N',
  ir_reachable (xenv reg) parse s -> ir_values reg s p -> 0 < p_d1 p -> 0 < p_d2 p -> 0 < p_idt p ->
  ir_forcing_response reg s F T1 T2 T N -> ir_forcing_response reg s G T1' T2' T' N' -> merges F G ->
  merges T1 T1' /\ merges T2 T2' /\ merges T T' /\ merges N N'.
Proof.
  intros reg parse s p F G T1 T2 T N T1' T2' T' N' Hr Hv P1 P2 P3 HR HR' HF.
  destruct (irf_values _ _ _ _ _ _ _ _ _ Hr Hv HR) as (k & m1 & m2 & HC & HV).
  destruct (irf_values _ _ _ _ _ _ _ _ _ Hr Hv HR') as (k' & m1' & m2' & HC' & HV').
  destruct (heat_const_unique _ _ _ _ _ _ _ _ HC HC') as (<- & <- & <-).
  pose proof (filt_merge _ _ (E1 p P1 P3) _ _ _ _ (B1 p F) (B1 p G) HF) as C1.
  pose proof (filt_merge _ _ (E2 p P2 P3) _ _ _ _ (B2 p F) (B2 p G) HF) as C2.
  split; [eapply merges_ext; [intros i; symmetry; apply HV|intros i; symmetry; apply HV'|exact C1]|].
  split; [eapply merges_ext; [intros i; symmetry; apply HV|intros i; symmetry; apply HV'|exact C2]|].
  split; (eapply merges_ext; [intros i; symmetry; apply HV|intros i; symmetry; apply HV'|]).
  - apply merges_plus; assumption.
  - apply hn_merge; assumption.
Qed.
Theorem c62_impulse_response_cycles : forall reg parse s p F T1 T2 T N m,
  ir_reachable (xenv reg) parse s -> ir_values reg s p -> 0 < p_d1 p -> 0 < p_d2 p -> 0 < p_idt p ->
  ir_forcing_response reg s F T1 T2 T N -> merges (fun i => F (i + m)%nat) F ->
  merges (fun i => T1 (i + m)%nat) T1 /\ merges (fun i => T2 (i + m)%nat) T2 /\
  merges (fun i => T (i + m)%nat) T /\ merges (fun i => N (i + m)%nat) N.
Proof.
  intros reg parse s p F T1 T2 T N m Hr Hv P1 P2 P3 HR HF.
  destruct (irf_values _ _ _ _ _ _ _ _ _ Hr Hv HR) as (k & m1 & m2 & HC & HV).
  pose proof (filt_merge _ _ (E1 p P1 P3) _ _ _ _ (filt_tail _ _ _ _ m (B1 p F)) (B1 p F) HF) as C1.
  pose proof (filt_merge _ _ (E2 p P2 P3) _ _ _ _ (filt_tail _ _ _ _ m (B2 p F)) (B2 p F) HF) as C2.
  split; [eapply merges_ext; [intros i; symmetry; apply HV|intros i; symmetry; apply HV|exact C1]|].
  split; [eapply merges_ext; [intros i; symmetry; apply HV|intros i; symmetry; apply HV|exact C2]|].
  split; (eapply merges_ext; [intros i; symmetry; apply HV|intros i; symmetry; apply HV|]).
  - exact (merges_plus _ _ _ _ C1 C2).
  - apply hn_shift_merge; assumption.
Qed.
Theorem c62_impulse_response_averages : forall reg parse s p F T1 T2 T N m L,
  ir_reachable (xenv reg) parse s -> ir_values reg s p -> 0 < p_d1 p -> 0 < p_d2 p -> 0 < p_idt p ->
  ir_forcing_response reg s F T1 T2 T N -> Un_cv (window m F) L ->
  Un_cv (window m T1) (p_q1 p * L) /\ Un_cv (window m T2) (p_q2 p * L) /\ Un_cv (window m T) ((p_q1 p + p_q2 p) * L).
Proof.
  intros reg parse s p F T1 T2 T N m L Hr Hv P1 P2 P3 HR HF.
  destruct (irf_values _ _ _ _ _ _ _ _ _ Hr Hv HR) as (k & m1 & m2 & HC & HV).
  pose proof (filt_cv _ _ (E1 p P1 P3) _ _ L (filt_window _ _ _ _ m (B1 p F)) HF) as C1.
  pose proof (filt_cv _ _ (E2 p P2 P3) _ _ L (filt_window _ _ _ _ m (B2 p F)) HF) as C2.
  assert (D1 : Un_cv (window m T1) (p_q1 p * L)).
  { eapply cv_ext; [|exact C1]. intros i; apply sum_eq; intros j _; symmetry; apply HV. }
  assert (D2 : Un_cv (window m T2) (p_q2 p * L)).
  { eapply cv_ext; [|exact C2]. intros i; apply sum_eq; intros j _; symmetry; apply HV. }
  split; [exact D1|]. split; [exact D2|].
  apply cv_ext with (fun i => 1 * window m T1 i + 1 * window m T2 i).
  { intros i. symmetry. apply window_lin. intros j. destruct (HV j) as (-> & -> & -> & _). ring. }
  apply cv_to with (1 * (p_q1 p * L) + 1 * (p_q2 p * L)); [ring|]. apply CV_plus; apply cv_scal; assumption.
Qed.
(** Each box follows a ramp [dt] / (1 - exp(- [dt] / [d])) seconds behind. *)
Theorem c62_impulse_response_ramp : forall reg parse s p F T1 T2 T N g c,
  ir_reachable (xenv reg) parse s -> ir_values reg s p -> 0 < p_d1 p -> 0 < p_d2 p -> 0 < p_idt p ->
  ir_forcing_response reg s F T1 T2 T N -> merges F (fun i => g * INR i + c) ->
  let lag d := p_idt p / (1 - exp (- p_idt p / d)) in
  let box q d i := q * (g * (INR i - lag d / p_idt p) + c) in
  merges T1 (box (p_q1 p) (p_d1 p)) /\ merges T2 (box (p_q2 p) (p_d2 p)) /\
  merges T (fun i => box (p_q1 p) (p_d1 p) i + box (p_q2 p) (p_d2 p) i) /\
  (forall d, 0 < d -> d < lag d < d + p_idt p).
Proof.
  intros reg parse s p F T1 T2 T N g c Hr Hv P1 P2 P3 HR HF lag box.
  destruct (irf_values _ _ _ _ _ _ _ _ _ Hr Hv HR) as (k & m1 & m2 & HC & HV).
  pose proof (filt_ramp _ _ (E1 p P1 P3) _ _ _ _ (B1 p F) HF) as C1.
  pose proof (filt_ramp _ _ (E2 p P2 P3) _ _ _ _ (B2 p F) HF) as C2.
  pose proof (x_ne1 _ (E1 p P1 P3)) as Z1. pose proof (x_ne1 _ (E2 p P2 P3)) as Z2.
  assert (D1 : merges T1 (box (p_q1 p) (p_d1 p))).
  { eapply merges_ext; [intros i; symmetry; apply HV| |exact C1]. intros i. unfold box, lag. field. split; [exact Z1|lra]. }
  assert (D2 : merges T2 (box (p_q2 p) (p_d2 p))).
  { eapply merges_ext; [intros i; symmetry; apply HV| |exact C2]. intros i. unfold box, lag. field. split; [exact Z2|lra]. }
  split; [exact D1|]. split; [exact D2|]. split.
  - eapply merges_ext; [|reflexivity|exact (merges_plus _ _ _ _ D1 D2)].
    intros i. cbv beta. destruct (HV i) as (-> & -> & -> & _). reflexivity.
  - intros d Hd. unfold lag. set (h := p_idt p / d). assert (Hh : 0 < h) by (apply pos_div; assumption).
    replace (- p_idt p / d) with (- h) by (unfold h; field; lra).
    pose proof (exp_ineq1 (- h) ltac:(lra)) as A. pose proof (exp_ineq1 h ltac:(lra)) as B.
    assert (M : exp h * exp (- h) = 1) by (rewrite <- exp_plus, Rplus_opp_r; apply exp_0).
    pose proof (exp_pos h) as Xp. pose proof (exp_pos (- h)) as Yp.
    assert (Y1 : exp (- h) < 1) by (rewrite <- exp_0; apply exp_increasing; lra).
    assert (Ed : p_idt p = h * d) by (unfold h; field; lra). rewrite Ed.
    assert (W : (1 + h) * exp (- h) < 1) by (apply Rlt_le_trans with (exp h * exp (- h)); [apply Rmult_lt_compat_r; assumption|lra]).
    split.
    + apply Rmult_lt_reg_r with (1 - exp (- h)); [lra|]. unfold Rdiv. rewrite Rmult_assoc, Rinv_l, Rmult_1_r by lra.
      rewrite (Rmult_comm h d). apply Rmult_lt_compat_l; lra.
    + apply Rmult_lt_reg_r with (1 - exp (- h)); [lra|]. unfold Rdiv. rewrite Rmult_assoc, Rinv_l, Rmult_1_r by lra.
      replace (d + h * d) with (d * (1 + h)) by ring. rewrite (Rmult_comm h d), Rmult_assoc.
      apply Rmult_lt_compat_l; [assumption|]. lra.
Qed.
Theorem c62_impulse_response_totals : forall reg parse s p F T1 T2 T N A,
  ir_reachable (xenv reg) parse s -> ir_values reg s p -> 0 < p_d1 p -> 0 < p_d2 p -> 0 < p_idt p ->
  ir_forcing_response reg s F T1 T2 T N -> Un_cv (sum_f_R0 F) A ->
  Un_cv (sum_f_R0 T1) (p_q1 p * A) /\ Un_cv (sum_f_R0 T2) (p_q2 p * A) /\ Un_cv (sum_f_R0 T) ((p_q1 p + p_q2 p) * A).
Proof.
  intros reg parse s p F T1 T2 T N A Hr Hv P1 P2 P3 HR HF.
  destruct (irf_values _ _ _ _ _ _ _ _ _ Hr Hv HR) as (k & m1 & m2 & HC & HV).
  pose proof (filt_total _ _ (E1 p P1 P3) _ _ A (B1 p F) eq_refl HF) as C1.
  pose proof (filt_total _ _ (E2 p P2 P3) _ _ A (B2 p F) eq_refl HF) as C2.
  split; [eapply cv_ext; [|exact C1]; intros i; apply sum_eq; intros j _; symmetry; apply HV|].
  split; [eapply cv_ext; [|exact C2]; intros i; apply sum_eq; intros j _; symmetry; apply HV|].
  rewrite Rmult_plus_distr_r. eapply cv_ext; [|apply CV_plus; [exact C1|exact C2]].
  intros i. cbv beta. rewrite <- sum_plus. apply sum_eq. intros j _. symmetry. apply HV.
Qed.

(** Forcings of each kind, and the model of C58 with steps of five years. *)
Lemma inv_n_cv : Un_cv (fun i => / INR (S i)) 0.
Proof. apply cv_ext with (fun i => / INR (S i)); [reflexivity|]. intros eps He. destruct (nat_above (/ eps)) as (n & Hn). exists n. intros m Hm.
  unfold R_dist. rewrite Rminus_0_r, Rabs_pos_eq by (left; apply Rinv_0_lt_compat, lt_0_INR; lia).
  rewrite <- (Rinv_inv eps). apply Rinv_lt_contravar.
  - apply pos_mul; [apply Rinv_0_lt_compat; assumption|apply lt_0_INR; lia].
  - eapply Rlt_le_trans; [exact Hn|]. apply le_INR. lia.
Qed.
Example c62_case : forall reg parse F, exists s q1 q2 d1 d2 T TD N,
  tl_reachable (xenv reg) parse s /\ tl_values reg s (ex_step 5) /\ positive_tl (ex_step 5) /\ tl_converts reg s q1 q2 d1 d2 /\
  p_dt (ex_step 5) < 2 * d1 /\ forcing_response reg (ex_step 5) F T TD N.
Proof.
  intros reg parse F. assert (Hp : positive_tl (ex_step 5)) by (apply ex_step_pos; lra).
  destruct (tl_model reg parse (ex_step 5)) as (s & Hr & Hv).
  destruct (converts_exists reg s _ Hv Hp) as (q1 & q2 & d1 & d2 & HC).
  exists s, q1, q2, d1, d2. do 3 eexists. do 4 (split; [assumption|]). split; [|apply fr_exists, Hp].
  destruct (c58_limit_in_parameters _ _ _ _ _ _ _ Hv Hp HC) as (HL & _). cbn zeta in HL. apply HL.
  unfold ex_step, p_C, p_CD, water_capacity. cbn. split; lra.
Qed.
Example c62_forcing_cases :
  Un_cv (fun i => 4 + / INR (S i)) 4 /\
  merges (fun i => 3 * INR i + (1 + / INR (S i))) (fun i => 3 * INR i + 1) /\
  merges (fun i => (-1) ^ (i + 2)) (fun i => (-1) ^ i) /\ Un_cv (window 1 (fun i => (-1) ^ i)) 0 /\
  Un_cv (sum_f_R0 (fun i => if (i <? 2)%nat then 5 else 0)) 10.
Proof.
  split; [apply cv_to with (4 + 0); [ring|]; apply CV_plus; [apply cv_const|apply inv_n_cv]|].
  split; [apply cv_ext with (fun i => / INR (S i)); [intros i; ring|apply inv_n_cv]|].
  split; [apply cv_ext with (fun _ => 0); [intros i; rewrite pow_add; cbn; ring|apply cv_const]|].
  split; [apply cv_ext with (fun _ => 0); [intros i; unfold window; cbn [sum_f_R0]; rewrite Nat.add_0_r, pow_add; cbn; ring|apply cv_const]|].
  apply cv_S. apply cv_ext with (fun _ => 10); [|apply cv_const].
  induction i as [|i IH]; [cbn; ring|]. cbn [sum_f_R0] in *. rewrite <- IH. cbn [Nat.ltb Nat.leb]. ring.
Qed.
Example c62_impulse_response_case : forall reg parse F, exists s T1 T2 T N,
  ir_reachable (xenv reg) parse s /\ ir_values reg s ex_ir /\
  usize reg (units (ir_q1 (xenv reg) s)) = usize reg u_CWm2 /\
  usize reg (units (ir_q2 (xenv reg) s)) = usize reg u_CWm2 /\
  ir_forcing_response reg s F T1 T2 T N.
Proof.
  intros reg parse F. destruct (ir_model reg parse ex_ir) as (s & Hr & Hv & U1 & U2); [cbn; lra|].
  destruct (lam_mag_exists reg s ex_ir Hv) as (x & Hx); try (cbn; lra).
  assert (HC : heat_const reg s x 0 0) by (apply (heat_const_1 reg parse s ex_ir); auto; cbn; lra).
  exists s. do 4 eexists. rewrite U1, U2. repeat (split; [auto|]).
  intros e HF. apply (ir_run_reports reg parse s ex_ir e _ Hr Hv HF _ _ _ HC).
Qed.
