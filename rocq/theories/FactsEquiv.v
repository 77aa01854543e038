(** Properties C25-C27: the two models are the same system. *)
From Coq Require Import List String QArith Reals Qreals Bool Arith Lra Lia Psatz.
From Verif Require Import Arith Pint Base TwoLayer Impulse Scm Api Spec Exact SpecReal
  GenTL GenTLHist GenIR GenIRHist GenMeta RealUnits RealTL RealGeo RealConv RealIR RealTrace RealModels RealEuler RealBox RealEquiv
  FactsRun FactsTL FactsTL2 FactsIR FactsConv.
Import ListNotations.
Local Open Scope R_scope.

(** ** C25 *)
Theorem c25_same_continuous_system : forall reg s p,
  tl_values reg s p -> convertible_tl p ->
  exists r g d1 d2 q1 q2 phi1 phi2,
    tl_get_impulse_response_parameters (xenv reg) s = Ok r /\
    geoffroy (xenv reg) (tl_du _ s) (tl_dl _ s) (tl_lambda0 _ s) (tl_efficacy _ s) (tl_eta _ s) = Ok g /\
    is_qty reg (irp_d1 _ r) d1 u_s /\ is_qty reg (irp_d2 _ r) d2 u_s /\
    is_qty reg (irp_q1 _ r) q1 u_CWm2 /\ is_qty reg (irp_q2 _ r) q2 u_CWm2 /\
    is_qty reg (g_phi1 g) phi1 u_none /\ is_qty reg (g_phi2 g) phi2 u_none /\
    (forall F T1 T2, box_forced q1 d1 F T1 -> box_forced q2 d2 F T2 ->
       two_layer_forced p F (fun t => T1 t + T2 t) (fun t => phi1 * T1 t + phi2 * T2 t)) /\
    (forall F T TD, two_layer_forced p F T TD ->
       exists T1 T2, box_forced q1 d1 F T1 /\ box_forced q2 d2 F T2 /\
         forall t, T t = T1 t + T2 t /\ TD t = phi1 * T1 t + phi2 * T2 t) /\
    (forall F T1 T2 T TD, box_forced q1 d1 F T1 -> box_forced q2 d2 F T2 -> two_layer_forced p F T TD ->
       forall t, 0 <= t -> T t = T1 t + T2 t /\ TD t = phi1 * T1 t + phi2 * T2 t).
Proof.
  intros reg s p Hv HP. pose proof HP as (P1 & P2 & P3 & Ha & P5 & P6).
  destruct (t2i_ok reg s p Hv Ha P1 P2 P3 P5 P6) as (r & Hr & V1 & V2 & V3 & V4 & V5).
  pose proof Hv as (W1 & W2 & W3 & _ & W5 & W6 & _).
  destruct (geoffroy_ok reg _ _ _ _ _ _ _ _ _ _ W1 W2 W3 W5 W6 P1 P2 P3 P5 P6) as (g & Hg & Vg).
  destruct Vg as [_ _ _ _ _ _ _ G1 G2 _ _]. fold (p_C p) in G1, G2. fold (p_CD p) in G1, G2.
  exists r, g. do 6 eexists. split; [exact Hr|]. split; [exact Hg|]. do 6 (split; [eassumption|]).
  split; [intros F T1 T2 H1 H2; apply boxes_to_layers; assumption|].
  split.
  - intros F T TD H. destruct (layers_to_boxes p HP F T TD H) as (B1 & B2).
    do 2 eexists. split; [exact B1|]. split; [exact B2|]. intros t. split; symmetry; [apply X_T, HP|apply X_TD, HP].
  - intros F T1 T2 T TD B1 B2 H t Ht. destruct (layers_to_boxes p HP F T TD H) as (B1' & B2').
    pose proof (mt1 p HP) as Q1. pose proof (mt2 p HP) as Q2.
    rewrite (box_forced_unique _ _ _ _ _ (Rgt_not_eq _ _ Q1) B1 B1' t Ht).
    rewrite (box_forced_unique _ _ _ _ _ (Rgt_not_eq _ _ Q2) B2 B2' t Ht).
    split; symmetry; [apply X_T, HP|apply X_TD, HP].
Qed.

(** The forced equations have solutions, for instance under the ramp F(t) = c t. *)
Lemma ramp_box q d c : d <> 0 -> box_forced q d (fun t => c * t) (fun t => q * c * (t - d + d * exp (- t / d))).
Proof.
  intros Hd.
  assert (D : forall t, derivable_pt_lim (fun t => q * c * (t - d + d * exp (- t / d))) t (q * c * (1 - exp (- t / d)))).
  { intros t.
    assert (A : derivable_pt_lim (fun x => exp (- x / d)) t (exp (- t / d) * (- 1 / d))).
    { apply (derivable_pt_lim_comp (fun x => - x / d) exp); [|apply derivable_pt_lim_exp].
      apply lim_ext with (fun x => - / d * id x); [intros; unfold id; field; assumption|].
      eapply lim_eq; [apply (derivable_pt_lim_scal id (- / d) t 1), derivable_pt_lim_id|]. field. assumption. }
    apply lim_ext with (fun x => q * c * id x + q * c * (- fct_cte d x + d * exp (- x / d))); [intros; unfold id, fct_cte; ring|].
    eapply lim_eq.
    - apply (lim_lin id (fun x => - fct_cte d x + d * exp (- x / d))); [apply derivable_pt_lim_id|].
      apply lim_ext with (fun x => (- 1) * fct_cte d x + d * exp (- x / d)); [intros; unfold fct_cte; ring|].
      apply (lim_lin (fct_cte d) (fun x => exp (- x / d))); [apply derivable_pt_lim_const|exact A].
    - field. assumption. }
  split; [|split].
  - unfold Rdiv. rewrite Ropp_0, Rmult_0_l, exp_0. ring.
  - intros t _. apply derivable_continuous_pt. eexists. apply D.
  - intros t _. eapply lim_eq; [apply D|]. field. assumption.
Qed.
Example c25_case : forall reg, exists s T TD,
  tl_values reg s ex_conv /\ convertible_tl ex_conv /\ two_layer_forced ex_conv (fun t => 3 * t) T TD.
Proof.
  intros reg. destruct (tl_model reg (fun _ => None) ex_conv) as (s & _ & Hv). exists s. do 2 eexists.
  split; [exact Hv|]. split; [exact ex_conv_ok|].
  apply (boxes_to_layers _ ex_conv_ok); apply ramp_box.
  - pose proof (mt1 _ ex_conv_ok). lra.
  - pose proof (mt2 _ ex_conv_ok). lra.
Qed.

(** ** C26 *)
Definition converted (reg : Registry) (p : TLP) (x : R) : IRP :=
  let g f := f (p_C p) (p_CD p) (p_lambda0 p) (p_eps p) (p_eta p) in
  mkIRPhys (g gq1) (g gq2) (g gtau1 / year_s reg) (g gtau2 / year_s reg) (p_eps p) x.

Lemma conversion reg parse s p r dt x s' : tl_values reg s p -> convertible_tl p ->
  tl_get_impulse_response_parameters (xenv reg) s = Ok r -> is_qty reg dt x u_yr ->
  ir_new (xenv reg) (ir_args_of r dt) = Ok s' ->
  ir_reachable (xenv reg) parse s' /\ ir_values reg s' (converted reg p x) /\
  ir_q1 _ s' = irp_q1 _ r /\ ir_q2 _ s' = irp_q2 _ r /\ ir_d1 _ s' = irp_d1 _ r /\ ir_d2 _ s' = irp_d2 _ r /\
  ir_efficacy _ s' = tl_efficacy _ s.
Proof.
  intros Hv (P1 & P2 & P3 & Ha & P5 & P6) Hr0 Hdt Hnew.
  destruct (t2i_ok reg s p Hv Ha P1 P2 P3 P5 P6) as (r' & Hr & V1 & V2 & V3 & V4 & V5).
  rewrite Hr0 in Hr. injection Hr as <-.
  pose proof (s_to_yr reg _ _ V1) as W1. pose proof (s_to_yr reg _ _ V2) as W2.
  assert (Ve : is_qty reg (irp_efficacy _ r) (p_eps p) u_none) by (rewrite V5; apply Hv).
  assert (HC : 0 < p_C p) by (apply cap_pos; assumption). assert (HCD : 0 < p_CD p) by (apply cap_pos; assumption).
  pose proof (gtau_lt _ _ _ _ _ HC HCD P3 P5 P6) as T12.
  destruct (ir_make reg parse (irp_q1 _ r) (irp_q2 _ r) (irp_d1 _ r) (irp_d2 _ r) (irp_efficacy _ r) dt
    (converted reg p x) V3 V4 W1 W2 Ve Hdt) as (s2 & Hs2 & A1 & A2 & E1 & E2 & E3 & E4 & E5 & E6).
  { cbn. apply Rmult_lt_compat_r; [apply Rinv_0_lt_compat; apply year_s_pos|exact T12]. }
  unfold ir_args_of in Hnew. rewrite Hs2 in Hnew. injection Hnew as ->.
  rewrite <- V5. auto 10.
Qed.

Lemma box_run_scale q d dt Y F n : Y <> 0 -> d <> 0 -> box_run q (d / Y) (dt / Y) F n = box_run q d dt F n.
Proof.
  intros HY Hd. induction n as [|n IH]; [reflexivity|]. cbn [box_run]. rewrite IH. unfold box_solution.
  replace (- (dt / Y) / (d / Y)) with (- dt / d) by (field; auto). reflexivity.
Qed.

Lemma converted_runs reg p F i : convertible_tl p ->
  bt1 (converted reg p (p_dt p / year_s reg)) F i =
    box_run (gq1 (p_C p) (p_CD p) (p_lambda0 p) (p_eps p) (p_eta p)) (gtau1 (p_C p) (p_CD p) (p_lambda0 p) (p_eps p) (p_eta p)) (p_dt p) F i /\
  bt2 (converted reg p (p_dt p / year_s reg)) F i =
    box_run (gq2 (p_C p) (p_CD p) (p_lambda0 p) (p_eps p) (p_eta p)) (gtau2 (p_C p) (p_CD p) (p_lambda0 p) (p_eps p) (p_eta p)) (p_dt p) F i.
Proof.
  intros HP. pose proof (mt1 p HP). pose proof (mt2 p HP). pose proof (year_s_pos reg).
  unfold bt1, bt2, converted. cbn [p_q1 p_q2 p_d1 p_d2 p_idt]. rewrite !box_run_scale by lra. auto.
Qed.

Lemma conv_of_pos p : positive_tl p -> convertible_tl p.
Proof. intros (P1 & P2 & P3 & P4 & P5 & P6 & P7). repeat split; assumption. Qed.

Theorem c26_surface_temperatures_agree : forall reg parse s p e F M r s' d1 T TD N T1 T2 T' N',
  tl_setup reg parse s p e F -> positive_tl p ->
  tl_get_impulse_response_parameters (xenv reg) s = Ok r ->
  ir_new (xenv reg) (ir_args_of r (tl_delta_t _ s)) = Ok s' ->
  is_qty reg (irp_d1 _ r) d1 u_s -> p_dt p <= d1 ->
  (forall i, (i < npoints e)%nat -> Rabs (F i) <= M) ->
  tl_reports reg s e T TD N -> ir_reports reg s' e T1 T2 T' N' ->
  forall i, (i < npoints e)%nat -> Rabs (T i - T' i) <= p_dt p * M / p_C p.
Proof.
  intros reg parse s p e F M r s' d1 T TD N T1 T2 T' N' HS Hp Hr Hnew Hd1 Hs HM HR HR' i Hi.
  pose proof (conv_of_pos p Hp) as HP. pose proof HS as (Hre & Hv & HF).
  assert (Hdt : 0 < p_dt p) by apply Hp.
  destruct (conversion reg parse s p r _ _ s' Hv HP Hr (s_to_yr reg _ _ (proj2 (proj2 (proj2 (proj2 (proj2 (proj2 Hv))))))) Hnew) as (Hre' & Hv' & _).
  assert (HS' : ir_setup reg parse s' (converted reg p (p_dt p / year_s reg)) e F) by (split; auto).
  destruct (setup_inv _ _ _ _ _ _ _ _ _ HS HR) as (_ & HI). destruct (HI i Hi) as (-> & _).
  destruct (ir_setup_inv _ _ _ _ _ _ _ _ _ _ HS' HR') as (HI' & _). destruct (HI' i Hi) as (_ & _ & ->).
  destruct (converted_runs reg p F i HP) as (-> & ->).
  destruct HP as (P1 & P2 & P3 & Ha & P5 & P6). destruct (t2i_ok reg s p Hv Ha P1 P2 P3 P5 P6) as (r' & Hr' & V1 & _).
  rewrite Hr in Hr'. injection Hr' as <-. rewrite (is_qty_unique reg _ _ _ _ Hd1 V1) in Hs.
  apply surface_error; auto using conv_of_pos.
  - intros j Hj. apply HM. lia.
  - eapply Rle_trans; [apply Rabs_pos|apply (HM i Hi)].
Qed.

(** The deep temperatures too, in terms of the two boxes. *)
Theorem c26_deep_temperatures_agree : forall reg parse s p e F M r g s' d1 phi1 phi2 T TD N T1 T2 T' N',
  tl_setup reg parse s p e F -> positive_tl p ->
  tl_get_impulse_response_parameters (xenv reg) s = Ok r ->
  geoffroy (xenv reg) (tl_du _ s) (tl_dl _ s) (tl_lambda0 _ s) (tl_efficacy _ s) (tl_eta _ s) = Ok g ->
  is_qty reg (g_phi1 g) phi1 u_none -> is_qty reg (g_phi2 g) phi2 u_none ->
  ir_new (xenv reg) (ir_args_of r (tl_delta_t _ s)) = Ok s' ->
  is_qty reg (irp_d1 _ r) d1 u_s -> p_dt p <= d1 ->
  (forall i, (i < npoints e)%nat -> Rabs (F i) <= M) ->
  tl_reports reg s e T TD N -> ir_reports reg s' e T1 T2 T' N' ->
  forall i, (i < npoints e)%nat ->
    Rabs (TD i - (phi1 * T1 i + phi2 * T2 i)) <= 2 * p_eta p / (p_CD p * sqrt (discriminant p)) * (p_dt p * M / p_C p).
Proof.
  intros reg parse s p e F M r g s' d1 phi1 phi2 T TD N T1 T2 T' N' HS Hp Hr Hg G1 G2 Hnew Hd1 Hs HM HR HR' i Hi.
  pose proof (conv_of_pos p Hp) as HP. pose proof HS as (Hre & Hv & HF).
  assert (Hdt : 0 < p_dt p) by apply Hp.
  destruct (conversion reg parse s p r _ _ s' Hv HP Hr (s_to_yr reg _ _ (proj2 (proj2 (proj2 (proj2 (proj2 (proj2 Hv))))))) Hnew) as (Hre' & Hv' & _).
  assert (HS' : ir_setup reg parse s' (converted reg p (p_dt p / year_s reg)) e F) by (split; auto).
  destruct (setup_inv _ _ _ _ _ _ _ _ _ HS HR) as (_ & HI). destruct (HI i Hi) as (_ & -> & _).
  destruct (ir_setup_inv _ _ _ _ _ _ _ _ _ _ HS' HR') as (HI' & _). destruct (HI' i Hi) as (-> & -> & _).
  destruct (converted_runs reg p F i HP) as (-> & ->).
  destruct HP as (P1 & P2 & P3 & Ha & P5 & P6). destruct (t2i_ok reg s p Hv Ha P1 P2 P3 P5 P6) as (r' & Hr' & V1 & _).
  rewrite Hr in Hr'. injection Hr' as <-. rewrite (is_qty_unique reg _ _ _ _ Hd1 V1) in Hs.
  pose proof Hv as (W1 & W2 & W3 & _ & W5 & W6 & _).
  destruct (geoffroy_ok reg _ _ _ _ _ _ _ _ _ _ W1 W2 W3 W5 W6 P1 P2 P3 P5 P6) as (g' & Hg' & Vg).
  rewrite Hg in Hg'. injection Hg' as <-. destruct Vg as [_ _ _ _ _ _ _ G1' G2' _ _].
  rewrite (is_qty_unique reg _ _ _ _ G1 G1'), (is_qty_unique reg _ _ _ _ G2 G2').
  fold (p_C p) (p_CD p). apply deep_error; auto using conv_of_pos.
  - intros j Hj. apply HM. lia.
  - eapply Rle_trans; [apply Rabs_pos|apply (HM i Hi)].
Qed.

(** ** C27 *)
(** The constants of the heat uptake for q1, q2 in units of the right size. *)
Lemma heat_any reg parse s p : ir_reachable (xenv reg) parse s -> ir_values reg s p -> convertible_ir p ->
  usize reg (units (ir_q1 (xenv reg) s)) = usize reg u_CWm2 ->
  usize reg (units (ir_q2 (xenv reg) s)) = usize reg u_CWm2 ->
  (p_ieps p <> 1 -> exists hp, step_status (xenv reg) s = Ok hp) ->
  let Y := year_s reg in
  let l := hlam (p_q1 p) (p_q2 p) in
  let C := hC (p_q1 p) (p_q2 p) (Y * p_d1 p) (Y * p_d2 p) in
  let CD := hCD (p_q1 p) (p_q2 p) (Y * p_d1 p) (Y * p_d2 p) (p_ieps p) in
  let h := heta (p_q1 p) (p_q2 p) (Y * p_d1 p) (Y * p_d2 p) (p_ieps p) in
  heat_const reg s l ((p_ieps p - 1) * h * (1 - gphi1 C CD l (p_ieps p) h)) ((p_ieps p - 1) * h * (1 - gphi2 C CD l (p_ieps p) h)).
Proof.
  intros Hr Hv (P1 & P2 & P3 & P4 & P5) U1 U2 Hst Y l C CD h.
  assert (Z1 : p_q1 p + p_q2 p <> 0) by lra. assert (P4' : 0 < p_d2 p) by lra.
  assert (Z2 : p_q1 p * p_d2 p + p_q2 p * p_d1 p <> 0).
  { pose proof (pos_mul _ _ P1 P4'). pose proof (pos_mul _ _ P2 P3). lra. }
  assert (Z : p_ieps p <> 0) by lra. assert (D1 : p_d1 p <> 0) by lra. assert (D2 : p_d2 p <> 0) by lra.
  destruct (lam_mag_exists reg s p Hv Z1 Z2 Z) as (x & Hx).
  pose proof (lam_mag_std reg s p Hv Z1 Z2 Z x U1 U2 Hx) as Ex. fold l in Ex. rewrite <- Ex.
  destruct (Req_dec (p_ieps p) 1) as [He|He].
  - pose proof (heat_const_1 reg parse s p Hr Hv D1 D2 Z1 Z2 Z x He Hx) as K.
    replace ((p_ieps p - 1) * h * (1 - gphi1 C CD x (p_ieps p) h)) with 0 by (rewrite He; ring).
    replace ((p_ieps p - 1) * h * (1 - gphi2 C CD x (p_ieps p) h)) with 0 by (rewrite He; ring). exact K.
  - assert (Pd : p_d1 p <> p_d2 p) by lra.
    pose proof (heat_const_eff reg parse s p Hr Hv D1 D2 Z1 Z2 Z P1 P2 P3 P4' P5 Pd He x (Hst He) Hx) as K.
    cbn zeta in K. fold Y l C CD h in K. rewrite <- Ex in K. exact K.
Qed.

(** The heat uptake of any impulse-response model, in terms of the two-layer
    parameters its own conversion returns. *)
Theorem c27_heat_uptake_of_the_equivalent_model : forall reg parse s p e F T1 T2 T N,
  ir_setup reg parse s p e F -> convertible_ir p ->
  usize reg (units (ir_q1 (xenv reg) s)) = usize reg u_CWm2 ->
  usize reg (units (ir_q2 (xenv reg) s)) = usize reg u_CWm2 ->
  ir_reports reg s e T1 T2 T N ->
  exists r g lambda0 eta phi1 phi2,
    ir_get_two_layer_parameters (xenv reg) s = Ok r /\
    geoffroy (xenv reg) (tlp_du _ r) (tlp_dl _ r) (tlp_lambda0 _ r) (tlp_efficacy _ r) (tlp_eta _ r) = Ok g /\
    is_qty reg (tlp_lambda0 _ r) lambda0 u_Wm2C /\ is_qty reg (tlp_eta _ r) eta u_Wm2C /\
    is_qty reg (g_phi1 g) phi1 u_none /\ is_qty reg (g_phi2 g) phi2 u_none /\
    forall i, (S i < npoints e)%nat ->
      let TD := phi1 * T1 i + phi2 * T2 i in
      N (S i) = F i - lambda0 * T i - (p_ieps p - 1) * eta * (T i - TD).
Proof.
  intros reg parse s p e F T1 T2 T N HS HP U1 U2 HR. pose proof HS as (Hr & Hv & HF).
  destruct (ir_setup_inv _ _ _ _ _ _ _ _ _ _ HS HR) as (HI & k & m1 & m2 & HC & HN).
  pose proof HP as (P1 & P2 & P3 & P4 & P5).
  pose proof (i2t_values reg s p Hv HP) as K. cbn zeta in K. destruct K as (r & Hi2t & A1 & A2 & A3 & A4 & A5).
  assert (Ve : is_qty reg (tlp_efficacy _ r) (p_ieps p) u_none) by (rewrite A5; apply Hv).
  pose proof (year_s_pos reg) as PY.
  assert (D1 : 0 < year_s reg * p_d1 p) by (apply pos_mul; lra). assert (D2 : 0 < year_s reg * p_d2 p) by (apply pos_mul; lra).
  assert (Dn : year_s reg * p_d1 p <> year_s reg * p_d2 p).
  { assert (year_s reg * p_d1 p < year_s reg * p_d2 p) by (apply Rmult_lt_compat_l; lra). lra. }
  pose proof (hlam_pos _ _ _ _ _ P1 P2 D1 D2 Dn P5) as Q1. pose proof (hC_pos _ _ _ _ _ P1 P2 D1 D2 Dn P5) as Q2.
  pose proof (hCD_pos _ _ _ _ _ P1 P2 D1 D2 Dn P5) as Q3. pose proof (heta_pos _ _ _ _ _ P1 P2 D1 D2 Dn P5) as Q4.
  destruct (geoffroy_ok reg _ _ _ _ _ _ _ _ _ _ A2 A3 A1 Ve A4) as (g & Hg & Vg); try assumption; try (apply pos_div; lra).
  destruct Vg as [_ _ _ _ _ _ _ G1 G2 _ _].
  set (C := hC _ _ _ _) in *. set (CD := hCD _ _ _ _ _) in *.
  replace (water_capacity (C / (1000 * 4181))) with C in * by (unfold water_capacity; field).
  replace (water_capacity (CD / (1000 * 4181))) with CD in * by (unfold water_capacity; field).
  exists r, g. do 4 eexists. split; [exact Hi2t|]. split; [exact Hg|]. do 4 (split; [eassumption|]).
  intros i Hi TD. subst TD. destruct (HC ltac:(lia)) as (HC0 & _).
  assert (Hst : exists hp, step_status (xenv reg) s = Ok hp).
  { unfold heat_const in HC0. destruct (step_status (xenv reg) s); [eauto|contradiction]. }
  pose proof (heat_any reg parse s p Hr Hv HP U1 U2 (fun _ => Hst)) as HC1. cbn zeta in HC1. fold C CD in HC1.
  destruct (heat_const_unique _ _ _ _ _ _ _ _ HC0 HC1) as (-> & -> & ->).
  rewrite (HN (S i) Hi). cbn [hn]. destruct (HI i ltac:(lia)) as (-> & -> & ->). ring.
Qed.

(** From parameters in the documented units the converted model never aborts. *)
Lemma documented_q reg s r : documented_units s -> tl_get_impulse_response_parameters (xenv reg) s = Ok r ->
  ueq (units (irp_d1 _ r)) u_JW /\ ueq (units (irp_d2 _ r)) u_JW /\
  ueq (units (irp_q1 _ r)) u_CWm2 /\ ueq (units (irp_q2 _ r)) u_CWm2 /\ ueq (units (tl_efficacy _ s)) [].
Proof.
  intros (U1 & U2 & U3 & U4 & U5) Hr.
  apply ueq_eqb in U1, U2, U3, U4, U5.
  destruct (t2i_units (xenv reg) s r U1 U2 U3 U4 U5 Hr) as (K1 & K2 & K3 & K4 & _). auto.
Qed.
Lemma delta_free_JW u : ueq u u_JW -> delta_free u.
Proof.
  intros H x Hx. rewrite (H x). unfold u_JW. expos. unfold ind.
  destruct (String.eqb_spec sJ x) as [<-|]; [discriminate|]. destruct (String.eqb_spec sW x) as [<-|]; [discriminate|].
  ring.
Qed.
Lemma status_documented reg parse s p : ir_reachable (xenv reg) parse s -> ir_values reg s p -> convertible_ir p -> p_ieps p <> 1 ->
  ueq (units (ir_q1 _ s)) u_CWm2 -> ueq (units (ir_q2 _ s)) u_CWm2 ->
  delta_free (units (ir_d1 _ s)) -> delta_free (units (ir_d2 _ s)) -> ueq (units (ir_efficacy _ s)) [] ->
  exists hp, step_status (xenv reg) s = Ok hp.
Proof.
  intros Hr Hv (P1 & P2 & P3 & P4 & P5) He U1 U2 U3 U4 U5.
  assert (P4' : 0 < p_d2 p) by lra.
  destruct (status_eff reg parse s p Hr Hv) as (r & g & Hi & _ & _ & _ & Hst); try assumption; try lra.
  { pose proof (pos_mul _ _ P1 P4'). pose proof (pos_mul _ _ P2 P3). lra. }
  rewrite Hst. destruct (i2t_units (xenv reg) s r u_CWm2 U1 U2 U3 U4 U5 Hi) as (_ & K).
  rewrite (proj2 (eta_unit_test _ _ K) (ueq_refl _)). eauto.
Qed.

Lemma converted_ok reg p x : convertible_tl p -> convertible_ir (converted reg p x).
Proof.
  intros HP. pose proof (year_s_pos reg) as Y. unfold convertible_ir, converted. cbn [p_q1 p_q2 p_d1 p_d2 p_ieps].
  split; [apply mq1, HP|]. split; [apply mq2, HP|]. split; [apply pos_div; [apply mt1, HP|exact Y]|].
  split; [apply Rmult_lt_compat_r; [apply Rinv_0_lt_compat, Y|apply mt, HP]|apply HP].
Qed.

(** Both runs succeed: every driver, every length. *)
Theorem c27_both_runs_succeed : forall reg parse s p e F r,
  tl_setup reg parse s p e F -> positive_tl p -> documented_units s ->
  tl_get_impulse_response_parameters (xenv reg) s = Ok r ->
  exists s' T TD N T1 T2 T' N',
    ir_new (xenv reg) (ir_args_of r (tl_delta_t _ s)) = Ok s' /\
    tl_reports reg s e T TD N /\ ir_reports reg s' e T1 T2 T' N'.
Proof.
  intros reg parse s p e F r HS Hp Hu Hr.
  pose proof (conv_of_pos p Hp) as HP. pose proof HS as (Hre & Hv & HF).
  pose proof (s_to_yr reg _ _ (proj2 (proj2 (proj2 (proj2 (proj2 (proj2 Hv))))))) as Hdt.
  destruct (c22_round_trip_two_layer reg s p Hv HP) as (r' & Hr' & K). rewrite Hr in Hr'. injection Hr' as <-.
  destruct (K _ _ Hdt) as (s' & _ & Hnew & _). clear K.
  destruct (conversion reg parse s p r _ _ s' Hv HP Hr Hdt Hnew) as (Hre' & Hv' & E1 & E2 & E3 & E4 & E5).
  destruct (documented_q reg s r Hu Hr) as (D1 & D2 & U1 & U2 & U3).
  rewrite <- E1 in U1. rewrite <- E2 in U2. rewrite <- E3 in D1. rewrite <- E4 in D2. rewrite <- E5 in U3.
  pose proof (heat_any reg parse s' _ Hre' Hv' (converted_ok reg p _ HP) (usize_expo reg _ _ U1) (usize_expo reg _ _ U2)
    (fun He => status_documented reg parse s' _ Hre' Hv' (converted_ok reg p _ HP) He U1 U2 (delta_free_JW _ D1) (delta_free_JW _ D2) U3)) as HC.
  cbn zeta in HC.
  exists s'. do 7 eexists. split; [exact Hnew|]. split.
  - apply (reports_of reg parse s p e F HS). intros _. destruct Hp as (Q1 & Q2 & _ & _ & _ & _ & Q7). lra.
  - apply (ir_run_reports reg parse s' _ e F Hre' Hv' HF _ _ _ HC).
Qed.

(** The converted model's heat uptake in terms of the original parameters. *)
Theorem c27_converted_heat_uptake : forall reg parse s p e F r g s' phi1 phi2 dt x T1 T2 T' N',
  tl_setup reg parse s p e F -> convertible_tl p -> documented_units s ->
  tl_get_impulse_response_parameters (xenv reg) s = Ok r ->
  geoffroy (xenv reg) (tl_du _ s) (tl_dl _ s) (tl_lambda0 _ s) (tl_efficacy _ s) (tl_eta _ s) = Ok g ->
  is_qty reg (g_phi1 g) phi1 u_none -> is_qty reg (g_phi2 g) phi2 u_none ->
  is_qty reg dt x u_yr -> ir_new (xenv reg) (ir_args_of r dt) = Ok s' ->
  ir_reports reg s' e T1 T2 T' N' ->
  forall i, (S i < npoints e)%nat ->
    let TD := phi1 * T1 i + phi2 * T2 i in
    N' (S i) = F i - p_lambda0 p * T' i - (p_eps p - 1) * p_eta p * (T' i - TD).
Proof.
  intros reg parse s p e F r g s' phi1 phi2 dt x T1 T2 T' N' HS HP Hu Hr Hg G1 G2 Hdt Hnew HR' i Hi TD. subst TD.
  pose proof HS as (Hre & Hv & HF).
  destruct (conversion reg parse s p r _ _ s' Hv HP Hr Hdt Hnew) as (Hre' & Hv' & E1 & E2 & E3 & E4 & E5).
  assert (HS' : ir_setup reg parse s' (converted reg p x) e F) by (split; auto).
  destruct (documented_q reg s r Hu Hr) as (D1 & D2 & U1 & U2 & U3).
  rewrite <- E1 in U1. rewrite <- E2 in U2. rewrite <- E3 in D1. rewrite <- E4 in D2. rewrite <- E5 in U3.
  pose proof (heat_any reg parse s' _ Hre' Hv' (converted_ok reg p _ HP) (usize_expo reg _ _ U1) (usize_expo reg _ _ U2)
    (fun He => status_documented reg parse s' _ Hre' Hv' (converted_ok reg p _ HP) He U1 U2 (delta_free_JW _ D1) (delta_free_JW _ D2) U3)) as HC.
  cbn zeta in HC. unfold converted in HC. cbn [p_q1 p_q2 p_d1 p_d2 p_ieps] in HC.
  pose proof (mC p HP) as QC. pose proof (mCD p HP) as QCD. pose proof (ml p HP) as Ql. pose proof (me p HP) as Qe. pose proof (mh p HP) as Qh.
  pose proof (year_s_pos reg) as QY.
  assert (YY : forall z, year_s reg * (z / year_s reg) = z) by (intros; field; lra). rewrite !YY in HC.
  rewrite back_lam in HC by assumption. rewrite back_C in HC by assumption. rewrite back_CD in HC by assumption.
  rewrite back_eta in HC by assumption.
  destruct (ir_setup_inv _ _ _ _ _ _ _ _ _ _ HS' HR') as (HI & k & m1 & m2 & HC0 & HN).
  destruct (HC0 ltac:(lia)) as (HC1 & _). destruct (heat_const_unique _ _ _ _ _ _ _ _ HC1 HC) as (-> & -> & ->).
  rewrite (HN (S i) Hi). cbn [hn]. destruct (HI i ltac:(lia)) as (-> & -> & ->).
  pose proof Hv as (W1 & W2 & W3 & _ & W5 & W6 & _). destruct HP as (P1 & P2 & P3 & Ha & P5 & P6).
  destruct (geoffroy_ok reg _ _ _ _ _ _ _ _ _ _ W1 W2 W3 W5 W6 P1 P2 P3 P5 P6) as (g' & Hg' & Vg).
  rewrite Hg in Hg'. injection Hg' as <-. destruct Vg as [_ _ _ _ _ _ _ G1' G2' _ _].
  rewrite (is_qty_unique reg _ _ _ _ G1 G1'), (is_qty_unique reg _ _ _ _ G2 G2').
  fold (p_C p) (p_CD p). unfold converted. ring.
Qed.

Theorem c27_heat_uptakes_agree : forall reg parse s p e F M r s' d1 T TD N T1 T2 T' N',
  tl_setup reg parse s p e F -> positive_tl p -> documented_units s ->
  tl_get_impulse_response_parameters (xenv reg) s = Ok r ->
  ir_new (xenv reg) (ir_args_of r (tl_delta_t _ s)) = Ok s' ->
  is_qty reg (irp_d1 _ r) d1 u_s -> p_dt p <= d1 ->
  (forall i, (i < npoints e)%nat -> Rabs (F i) <= M) ->
  tl_reports reg s e T TD N -> ir_reports reg s' e T1 T2 T' N' ->
  forall i, (i < npoints e)%nat ->
    Rabs (N i - N' i) <=
      (p_lambda0 p + Rabs (p_eps p - 1) * p_eta p * (1 + 2 * p_eta p / (p_CD p * sqrt (discriminant p)))) * (p_dt p * M / p_C p).
Proof.
  intros reg parse s p e F M r s' d1 T TD N T1 T2 T' N' HS Hp Hu Hr Hnew Hd1 Hs HM HR HR' i Hi.
  pose proof (conv_of_pos p Hp) as HP. pose proof HS as (Hre & Hv & HF).
  pose proof (s_to_yr reg _ _ (proj2 (proj2 (proj2 (proj2 (proj2 (proj2 Hv))))))) as Hdt.
  destruct (conversion reg parse s p r _ _ s' Hv HP Hr Hdt Hnew) as (Hre' & Hv' & _).
  assert (HS' : ir_setup reg parse s' (converted reg p (p_dt p / year_s reg)) e F) by (split; auto).
  destruct (setup_inv _ _ _ _ _ _ _ _ _ HS HR) as (_ & HI).
  destruct (ir_setup_inv _ _ _ _ _ _ _ _ _ _ HS' HR') as (_ & k & m1 & m2 & _ & HN').
  pose proof (mC p HP) as QC. pose proof (mCD p HP) as QCD. pose proof (ml p HP) as Ql. pose proof (me p HP) as Qe. pose proof (mh p HP) as Qh.
  assert (HM0 : 0 <= M) by (eapply Rle_trans; [apply Rabs_pos|apply (HM i Hi)]).
  assert (Qdt : 0 < p_dt p) by apply Hp.
  assert (Qd : 0 < sqrt (discriminant p)).
  { apply sqrt_lt_R0. rewrite discriminant_ok. apply gdelta_pos; assumption. }
  set (B := p_dt p * M / p_C p). set (K := 2 * p_eta p / (p_CD p * sqrt (discriminant p))).
  assert (HB : 0 <= B).
  { unfold B, Rdiv. apply Rmult_le_pos; [apply Rmult_le_pos; lra|]. left. apply Rinv_0_lt_compat, QC. }
  assert (HK : 0 < K) by (unfold K; apply pos_div; [lra|]; apply pos_mul; assumption).
  assert (Hfac : 0 <= Rabs (p_eps p - 1) * p_eta p) by (apply Rmult_le_pos; [apply Rabs_pos|lra]).
  destruct i as [|i].
  - destruct (HI 0%nat Hi) as (_ & _ & ->). rewrite (HN' 0%nat Hi). cbn [en hn]. rewrite Rminus_0_r, Rabs_R0.
    apply Rmult_le_pos; [|exact HB]. assert (0 <= Rabs (p_eps p - 1) * p_eta p * (1 + K)) by (apply Rmult_le_pos; lra). lra.
  - pose proof Hv as (W1 & W2 & W3 & _ & W5 & W6 & _). pose proof HP as (P1 & P2 & P3 & Ha & P5 & P6).
    destruct (geoffroy_ok reg _ _ _ _ _ _ _ _ _ _ W1 W2 W3 W5 W6 P1 P2 P3 P5 P6) as (g & Hg & Vg).
    destruct Vg as [_ _ _ _ _ _ _ G1 G2 _ _].
    pose proof (c27_converted_heat_uptake reg parse s p e F r g s' _ _ _ _ T1 T2 T' N' HS HP Hu Hr Hg G1 G2 Hdt Hnew HR' i Hi) as EN.
    cbn zeta in EN. rewrite EN.
    pose proof (c26_surface_temperatures_agree reg parse s p e F M r s' d1 T TD N T1 T2 T' N' HS Hp Hr Hnew Hd1 Hs HM HR HR' i ltac:(lia)) as S1.
    pose proof (c26_deep_temperatures_agree reg parse s p e F M r g s' d1 _ _ T TD N T1 T2 T' N' HS Hp Hr Hg G1 G2 Hnew Hd1 Hs HM HR HR' i ltac:(lia)) as S2.
    fold B in S1, S2. fold K in S2.
    destruct (HI (S i) Hi) as (_ & _ & ->). rewrite en_balance by lra. rewrite Ha.
    destruct (HI i ltac:(lia)) as (<- & <- & _).
    set (TD' := _ * T1 i + _ * T2 i) in *.
    replace (F i - (p_lambda0 p - 0 * T i) * T i - (p_eps p - 1) * p_eta p * (T i - TD i) -
       (F i - p_lambda0 p * T' i - (p_eps p - 1) * p_eta p * (T' i - TD')))
      with (- p_lambda0 p * (T i - T' i) + (p_eps p - 1) * p_eta p * ((TD i - TD') - (T i - T' i))) by ring.
    eapply Rle_trans; [apply Rabs_triang|]. rewrite !Rabs_mult, Rabs_Ropp, (Rabs_right (p_lambda0 p)), (Rabs_right (p_eta p)) by lra.
    assert (S3 : Rabs (TD i - TD' - (T i - T' i)) <= (1 + K) * B).
    { unfold Rminus at 1. eapply Rle_trans; [apply Rabs_triang|]. rewrite Rabs_Ropp. lra. }
    rewrite Rmult_plus_distr_r. apply Rplus_le_compat; [apply Rmult_le_compat_l; lra|].
    rewrite (Rmult_assoc _ (1 + K) B). apply Rmult_le_compat_l; assumption.
Qed.

(** Default-like parameters, one-year steps, efficacy 1.2, in documented units. *)
Lemma ex_conv_model reg parse : exists s, tl_reachable (xenv reg) parse s /\ tl_values reg s ex_conv /\ documented_units s.
Proof.
  destruct (tl_make reg parse _ _ _ _ _ _ _ ex_conv (is_qty_self reg _ _) (is_qty_self reg _ _) (is_qty_self reg _ _) (is_qty_self reg _ _)
    (is_qty_self reg _ _) (is_qty_self reg _ _) (is_qty_self reg _ _)) as (s & Hs & H1 & H2).
  exists s. split; [exact H1|]. split; [exact H2|].
  destruct (tl_new_ok (xenv reg) (mkTLArgs (xenv reg) (PQ (mkQ (env := xenv reg) (Fin (p_du ex_conv)) u_m)) (PQ (mkQ (env := xenv reg) (Fin (p_dl ex_conv)) u_m))
     (PQ (mkQ (env := xenv reg) (Fin (p_lambda0 ex_conv)) u_Wm2C)) (PQ (mkQ (env := xenv reg) (Fin (p_a ex_conv)) u_Wm2C2))
     (PQ (mkQ (env := xenv reg) (Fin (p_eps ex_conv)) u_none)) (PQ (mkQ (env := xenv reg) (Fin (p_eta ex_conv)) u_Wm2C))
     (PQ (mkQ (env := xenv reg) (Fin (p_dt ex_conv)) u_s)))) as (s2 & Hs2 & _ & Hg & _).
  { intros []; cbn; eapply good_of; apply is_qty_self. }
  rewrite Hs in Hs2. injection Hs2 as <-.
  pose proof (Hg Pdu) as K1. pose proof (Hg Pdl) as K2. pose proof (Hg Plambda0) as K3.
  pose proof (Hg Pefficacy) as K5. pose proof (Hg Peta) as K6. cbn in K1, K2, K3, K5, K6.
  injection K1 as K1. injection K2 as K2. injection K3 as K3. injection K5 as K5. injection K6 as K6.
  unfold documented_units. first [rewrite K1, K2, K3, K5, K6|rewrite <- K1, <- K2, <- K3, <- K5, <- K6]. cbn [units]. rewrite <- !ueq_eqb. repeat split; apply ueq_refl.
Qed.
Lemma ex_conv_step : p_dt ex_conv <= gtau1 (p_C ex_conv) (p_CD ex_conv) (p_lambda0 ex_conv) (p_eps ex_conv) (p_eta ex_conv).
Proof.
  pose proof ex_conv_ok as HP.
  pose proof (mC _ HP) as QC. pose proof (mCD _ HP) as QCD. pose proof (ml _ HP) as Ql. pose proof (me _ HP) as Qe. pose proof (mh _ HP) as Qh.
  pose proof (tau_prod _ _ _ _ _ QC QCD Ql Qe Qh) as TP. pose proof (tau_sum _ _ _ _ _ QC QCD Ql Qe Qh) as TS.
  pose proof (mt1 _ HP) as T1. pose proof (mt2 _ HP) as T2. set (t1 := gtau1 _ _ _ _ _) in *. set (t2 := gtau2 _ _ _ _ _) in *.
  assert (Hs : t1 * t2 >= p_dt ex_conv * (t1 + t2)).
  { rewrite TP, TS. unfold gb, p_C, p_CD, water_capacity, ex_conv. cbn. lra. }
  assert (0 < p_dt ex_conv) by (cbn; lra).
  assert (p_dt ex_conv * t2 <= t1 * t2); [|apply Rmult_le_reg_r with t2; assumption].
  pose proof (pos_mul _ _ H T1). lra.
Qed.
Example c26_case : forall reg parse, exists s e r s' d1 T TD N T1 T2 T' N',
  tl_setup reg parse s ex_conv e (fun i => sin (INR i)) /\ npoints e = 100%nat /\ positive_tl ex_conv /\ documented_units s /\
  tl_get_impulse_response_parameters (xenv reg) s = Ok r /\
  ir_new (xenv reg) (ir_args_of r (tl_delta_t _ s)) = Ok s' /\
  is_qty reg (irp_d1 _ r) d1 u_s /\ p_dt ex_conv <= d1 /\
  tl_reports reg s e T TD N /\ ir_reports reg s' e T1 T2 T' N' /\ (forall i, (i < npoints e)%nat -> Rabs (sin (INR i)) <= 1).
Proof.
  intros reg parse. destruct (ex_conv_model reg parse) as (s & Hr & Hv & Hu).
  destruct (a_series reg (fun i => sin (INR i)) 100) as (e & Hn & HF).
  assert (HS : tl_setup reg parse s ex_conv e (fun i => sin (INR i))) by (split; auto).
  assert (Hp : positive_tl ex_conv) by (unfold positive_tl, ex_conv; cbn; lra).
  pose proof ex_conv_ok as (P1 & P2 & P3 & Ha & P5 & P6).
  destruct (t2i_ok reg s ex_conv Hv Ha P1 P2 P3 P5 P6) as (r & Hr2 & V1 & _).
  destruct (c27_both_runs_succeed reg parse s ex_conv e _ r HS Hp Hu Hr2) as (s' & T & TD & N & T1 & T2 & T' & N' & K1 & K2 & K3).
  exists s, e, r, s', (gtau1 (p_C ex_conv) (p_CD ex_conv) (p_lambda0 ex_conv) (p_eps ex_conv) (p_eta ex_conv)).
  exists T, TD, N, T1, T2, T', N'. repeat (split; [assumption|]). split; [exact ex_conv_step|]. repeat (split; [assumption|]).
  intros i _. apply Rabs_le. pose proof (SIN_bound (INR i)). lra.
Qed.
Example c27_case : forall reg parse, exists s e r s' T1 T2 T' N',
  tl_setup reg parse s ex_conv e (fun i => INR i) /\ npoints e = 10%nat /\ documented_units s /\ p_eps ex_conv <> 1 /\
  tl_get_impulse_response_parameters (xenv reg) s = Ok r /\
  ir_new (xenv reg) (ir_args_of r (tl_delta_t _ s)) = Ok s' /\ ir_reports reg s' e T1 T2 T' N'.
Proof.
  intros reg parse. destruct (ex_conv_model reg parse) as (s & Hr & Hv & Hu).
  destruct (a_series reg (fun i => INR i) 10) as (e & Hn & HF).
  assert (HS : tl_setup reg parse s ex_conv e (fun i => INR i)) by (split; auto).
  assert (Hp : positive_tl ex_conv) by (unfold positive_tl, ex_conv; cbn; lra).
  pose proof ex_conv_ok as (P1 & P2 & P3 & Ha & P5 & P6).
  destruct (t2i_ok reg s ex_conv Hv Ha P1 P2 P3 P5 P6) as (r & Hr2 & V1 & _).
  destruct (c27_both_runs_succeed reg parse s ex_conv e _ r HS Hp Hu Hr2) as (s' & T & TD & N & T1 & T2 & T' & N' & K1 & K2 & K3).
  exists s, e, r, s', T1, T2, T', N'. repeat (split; [assumption|]). split; [cbn; lra|]. auto.
Qed.
