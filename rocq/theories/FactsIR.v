(** Properties C14, C15, C17-C20, C40: impulse-response runs in exact arithmetic,
    and the properties the two models share. *)
From Coq Require Import List String QArith Reals Qreals Bool Arith Lra Lia Psatz.
From Verif Require Import Arith Pint Base TwoLayer Impulse Scm Api Spec Exact SpecReal
  GenTL GenTLHist GenIR GenIRHist GenMeta RealUnits RealTL RealGeo RealConv RealIR RealModels RealEuler RealBox FactsRun FactsTL FactsTL2.
Import ListNotations.
Local Open Scope R_scope.

Lemma ir_short_reports reg parse s p e F k m1 m2 : ir_setup reg parse s p e F -> (npoints e < 2)%nat ->
  ir_reports reg s e (bt1 p F) (bt2 p F) (fun i => bt1 p F i + bt2 p F i) (hn p F k m1 m2).
Proof.
  intros (Hr & Hv & HF) Hn.
  pose proof (is_series_to_mags reg e F _ HF) as Hm. pose proof (is_series_nan_free reg e F _ HF) as Hnan.
  apply nan_free_existsb in Hnan.
  assert (HL : (List.length (map (fun i => Fin (F i)) (seq 0 (List.length (mags e)))) <= 1)%nat).
  { rewrite map_length, seq_length. unfold npoints in Hn. change (num (xenv reg)) with xnum in *. cbn in *. lia. }
  pose proof (idrive_ok (xenv reg) s e _ (NaN, None) Hm Hnan (or_introl HL)) as Hd.
  destruct (c01_impulse_response_shape (xenv reg) s _ e Hd) as (FF & A1 & A2 & A & B & HFF & LF & Ho & L1 & L2 & L3 & L4 & H0 & HA & _).
  eexists. split; [exact Hd|]. rewrite Ho.
  rewrite LF in L1, L2, L3, L4. change (List.length (mags e)) with (npoints e) in *.
  assert (Z : (0 < npoints e)%nat -> nth_error A1 0 = Some (Fin 0) /\ nth_error A2 0 = Some (Fin 0) /\ nth_error B 0 = Some (Fin 0)).
  { intros Hp. rewrite (nQ0 reg) in H0. apply H0. intros K. rewrite K in LF. cbn in LF. lia. }
  rewrite (is_first reg _ (bt1 p F) A1 L1), (is_first reg _ (bt2 p F) A2 L2),
    (is_first reg _ (fun i => bt1 p F i + bt2 p F i) A L3), (is_first reg _ (hn p F k m1 m2) B L4); [reflexivity| | | |];
    intros i Hi; replace i with 0%nat by lia; destruct (Z ltac:(lia)) as (Z1 & Z2 & Z3); auto.
  rewrite (HA 0%nat _ _ Z1 Z2). cbn. reflexivity.
Qed.

Lemma ir_reports_of reg parse s p e F k m1 m2 : ir_setup reg parse s p e F ->
  ((2 <= npoints e)%nat -> heat_const reg s k m1 m2) ->
  ir_reports reg s e (bt1 p F) (bt2 p F) (fun i => bt1 p F i + bt2 p F i) (hn p F k m1 m2).
Proof.
  intros HS H. destruct (Nat.lt_ge_cases (npoints e) 2) as [K|K].
  - eapply ir_short_reports; eauto.
  - destruct HS as (Hr & Hv & HF). apply (ir_run_reports reg parse); auto.
Qed.

Lemma ir_reports_as reg s e T1 T2 T N T1' T2' T' N' :
  (forall i, (i < npoints e)%nat -> T1 i = T1' i /\ T2 i = T2' i /\ T i = T' i /\ N i = N' i) ->
  ir_reports reg s e T1 T2 T N -> ir_reports reg s e T1' T2' T' N'.
Proof.
  intros H (s' & Hd & Ho). exists s'. split; [exact Hd|]. rewrite Ho.
  rewrite (first_ext reg _ T1 T1'), (first_ext reg _ T2 T2'), (first_ext reg _ T T'), (first_ext reg _ N N')
    by (intros i Hi; apply H, Hi). reflexivity.
Qed.

(** What a report says, with the heat uptake constants (arbitrary for runs of
    fewer than two entries). *)
Lemma ir_setup_inv reg parse s p e F T1 T2 T N : ir_setup reg parse s p e F -> ir_reports reg s e T1 T2 T N ->
  (forall i, (i < npoints e)%nat -> T1 i = bt1 p F i /\ T2 i = bt2 p F i /\ T i = bt1 p F i + bt2 p F i) /\
  exists k m1 m2, ((2 <= npoints e)%nat -> heat_const reg s k m1 m2 /\ p_d1 p <> 0 /\ p_d2 p <> 0) /\
    forall i, (i < npoints e)%nat -> N i = hn p F k m1 m2 i.
Proof.
  intros (Hr & Hv & HF) HR. destruct (ir_reports_inv reg parse s p e F Hr Hv HF T1 T2 T N HR) as (H1 & H2 & H3).
  split; [exact H1|]. destruct (Nat.lt_ge_cases (npoints e) 2) as [K|K].
  - exists 0, 0, 0. split; [lia|]. intros i Hi. replace i with 0%nat by lia. apply H2. lia.
  - destruct (H3 K) as (D1 & D2 & k & m1 & m2 & HC & HN). exists k, m1, m2. auto.
Qed.

Definition ex_ir : IRP := mkIRPhys (3/10) (4/10) 9 400 1 1.

(** ** C14 *)
Theorem c14_linear_in_the_forcing : forall reg parse p s e1 e2 e3 F G c1 c2 A1 B1 T1 N1 A2 B2 T2 N2,
  ir_setup reg parse s p e1 F -> ir_setup reg parse s p e2 G ->
  ir_setup reg parse s p e3 (fun i => c1 * F i + c2 * G i) ->
  npoints e1 = npoints e3 -> npoints e2 = npoints e3 ->
  ir_reports reg s e1 A1 B1 T1 N1 -> ir_reports reg s e2 A2 B2 T2 N2 ->
  ir_reports reg s e3 (fun i => c1 * A1 i + c2 * A2 i) (fun i => c1 * B1 i + c2 * B2 i)
    (fun i => c1 * T1 i + c2 * T2 i) (fun i => c1 * N1 i + c2 * N2 i).
Proof.
  intros reg parse p s e1 e2 e3 F G c1 c2 A1 B1 T1 N1 A2 B2 T2 N2 S1 S2 S3 L1 L2 R1 R2.
  destruct (ir_setup_inv _ _ _ _ _ _ _ _ _ _ S1 R1) as (I1 & k & m1 & m2 & HC & J1).
  destruct (ir_setup_inv _ _ _ _ _ _ _ _ _ _ S2 R2) as (I2 & k' & m1' & m2' & HC' & J2).
  rewrite L1 in *. rewrite L2 in *.
  eapply ir_reports_as; [|apply (ir_reports_of reg parse s p e3 _ k m1 m2 S3); intros Hn; apply (HC Hn)].
  intros i Hi. destruct (I1 i Hi) as (-> & -> & ->). destruct (I2 i Hi) as (-> & -> & ->).
  rewrite (J1 i Hi), (J2 i Hi).
  assert (K1 : forall i, bt1 p (fun i => c1 * F i + c2 * G i) i = c1 * bt1 p F i + c2 * bt1 p G i)
    by (intros; apply run_linear).
  assert (K2 : forall i, bt2 p (fun i => c1 * F i + c2 * G i) i = c1 * bt2 p F i + c2 * bt2 p G i)
    by (intros; apply run_linear).
  rewrite K1, K2. split; [reflexivity|]. split; [reflexivity|]. split; [ring|].
  destruct i as [|i]; cbn [hn]; [ring|].
  destruct (HC ltac:(lia)) as (HC1 & _). destruct (HC' ltac:(lia)) as (HC2 & _).
  destruct (heat_const_unique _ _ _ _ _ _ _ _ HC1 HC2) as (<- & <- & <-).
  rewrite K1, K2. ring.
Qed.

Example c14_case : forall reg parse, exists s e1 e2 e3 A1 B1 T1 N1 A2 B2 T2 N2,
  ir_setup reg parse s ex_ir e1 (fun i => INR i) /\ ir_setup reg parse s ex_ir e2 (fun _ => 1) /\
  ir_setup reg parse s ex_ir e3 (fun i => 2 * INR i + -3 * 1) /\
  npoints e1 = 5%nat /\ npoints e2 = 5%nat /\ npoints e3 = 5%nat /\
  ir_reports reg s e1 A1 B1 T1 N1 /\ ir_reports reg s e2 A2 B2 T2 N2.
Proof.
  intros reg parse. destruct (ir_model reg parse ex_ir) as (s & Hr & Hv & _); [cbn; lra|].
  destruct (a_series reg (fun i => INR i) 5) as (e1 & L1 & H1). destruct (a_series reg (fun _ => 1) 5) as (e2 & L2 & H2).
  destruct (a_series reg (fun i => 2 * INR i + -3 * 1) 5) as (e3 & L3 & H3).
  destruct (lam_mag_exists reg s ex_ir Hv) as (x & Hx); try (cbn; lra).
  assert (HC : heat_const reg s x 0 0) by (apply (heat_const_1 reg parse s ex_ir); auto; cbn; lra).
  exists s, e1, e2, e3. do 8 eexists. split; [split; auto|]. split; [split; auto|]. split; [split; auto|].
  split; [exact L1|]. split; [exact L2|]. split; [exact L3|].
  split; [apply (ir_run_reports reg parse s ex_ir e1 _ Hr Hv H1 _ _ _ HC)|apply (ir_run_reports reg parse s ex_ir e2 _ Hr Hv H2 _ _ _ HC)].
Qed.

(** ** C15 *)
Lemma delayed_series reg k e F : is_series reg e F u_Wm2 -> is_series reg (delayed k e) (shift k F) u_Wm2.
Proof.
  intros (Hd & H). split; [exact Hd|]. intros i x Hx. unfold delayed in *. cbn [mags aunits] in *.
  destruct (Nat.lt_ge_cases i k) as [Hi|Hi].
  - rewrite nth_error_app1 in Hx by (rewrite repeat_length; exact Hi).
    rewrite (nth_error_repeat _ Hi) in Hx. injection Hx as <-. exists 0. rewrite shift_lt by assumption. split; [reflexivity|ring].
  - rewrite nth_error_app2 in Hx by (rewrite repeat_length; exact Hi). rewrite repeat_length in Hx.
    destruct (H _ _ Hx) as (m & -> & Hm). exists m. split; [reflexivity|]. rewrite Hm. f_equal.
    replace i with (k + (i - k))%nat at 2 by lia. rewrite shift_ge. reflexivity.
Qed.
Lemma delayed_length reg k (e : QArr (xenv reg)) : npoints (delayed k e) = (k + npoints e)%nat.
Proof. unfold npoints, delayed. cbn [mags]. rewrite app_length, repeat_length. reflexivity. Qed.

Lemma shift_eq k n f g i : (forall j, (j < n)%nat -> f j = g j) -> (i < k + n)%nat -> shift k f i = shift k g i.
Proof.
  intros H Hi. unfold shift. destruct (Nat.ltb_spec i k); [reflexivity|]. apply H. lia.
Qed.

Theorem c15_two_layer_time_shift : forall reg parse s p e F k T TD N,
  tl_setup reg parse s p e F -> (2 <= npoints e)%nat -> tl_reports reg s e T TD N ->
  tl_reports reg s (delayed k e) (shift k T) (shift k TD) (shift k N).
Proof.
  intros reg parse s p e F k T TD N HS Hn HR. destruct (setup_inv _ _ _ _ _ _ _ _ _ HS HR) as (Hz & HI).
  pose proof HS as (Hr & Hv & HF).
  assert (HS' : tl_setup reg parse s p (delayed k e) (shift k F)) by (split; [|split]; auto; apply delayed_series, HF).
  eapply reports_as; [|apply (reports_of reg parse s p _ _ HS'); intros _; auto].
  intros i Hi. rewrite delayed_length in Hi.
  destruct (eu_shift p F k i) as (-> & ->). rewrite en_shift.
  repeat split; eapply shift_eq; try exact Hi; intros j Hj; symmetry; apply HI, Hj.
Qed.

Theorem c15_impulse_response_time_shift : forall reg parse s p e F k T1 T2 T N,
  ir_setup reg parse s p e F -> (2 <= npoints e)%nat -> ir_reports reg s e T1 T2 T N ->
  ir_reports reg s (delayed k e) (shift k T1) (shift k T2) (shift k T) (shift k N).
Proof.
  intros reg parse s p e F k T1 T2 T N HS Hn HR. destruct (ir_setup_inv _ _ _ _ _ _ _ _ _ _ HS HR) as (HI & c & m1 & m2 & HC & HN).
  pose proof HS as (Hr & Hv & HF).
  assert (HS' : ir_setup reg parse s p (delayed k e) (shift k F)) by (split; [|split]; auto; apply delayed_series, HF).
  eapply ir_reports_as; [|apply (ir_reports_of reg parse s p _ _ c m1 m2 HS'); intros _; apply (HC Hn)].
  intros i Hi. rewrite delayed_length in Hi.
  assert (K1 : forall i, bt1 p (shift k F) i = shift k (bt1 p F) i) by (intros; apply run_shift).
  assert (K2 : forall i, bt2 p (shift k F) i = shift k (bt2 p F) i) by (intros; apply run_shift).
  rewrite K1, K2. split; [|split; [|split]].
  - eapply shift_eq; try exact Hi; intros j Hj; symmetry; apply HI, Hj.
  - eapply shift_eq; try exact Hi; intros j Hj; symmetry; apply HI, Hj.
  - transitivity (shift k (fun i => bt1 p F i + bt2 p F i) i).
    + cbn beta. rewrite ?K1, ?K2. unfold shift. destruct (i <? k)%nat; ring.
    + eapply shift_eq; try exact Hi; intros j Hj; symmetry; apply HI, Hj.
  - transitivity (shift k (hn p F c m1 m2) i).
    + destruct i as [|i]; cbn [hn].
      * unfold shift. destruct k; reflexivity.
      * rewrite K1, K2. destruct (Nat.lt_trichotomy (S i) k) as [L|[L|L]].
        -- rewrite !shift_lt by lia. ring.
        -- rewrite !(shift_lt k) by lia. unfold shift. destruct (Nat.ltb_spec (S i) k); [lia|].
           replace (S i - k)%nat with 0%nat by lia. cbn. ring.
        -- unfold shift. destruct (Nat.ltb_spec i k), (Nat.ltb_spec (S i) k); try lia.
           replace (S i - k)%nat with (S (i - k)) by lia. reflexivity.
    + eapply shift_eq; try exact Hi; intros j Hj; symmetry; apply HN, Hj.
Qed.

Example c15_case : forall reg parse, exists s e T TD N,
  tl_setup reg parse s ex_tl e (fun i => INR i) /\ npoints e = 4%nat /\ npoints (delayed 3 e) = 7%nat /\
  tl_reports reg s e T TD N /\ shift 3 T 5 = T 2%nat /\ 0 < T 2%nat.
Proof.
  intros reg parse. destruct (tl_run_exists reg parse ex_tl (fun i => INR i) 4) as (s & e & Hr & Hv & Hn & HF & HR); cbn; try lra.
  exists s, e. do 3 eexists. split; [split; auto|]. split; [exact Hn|]. split; [exact (eq_trans (delayed_length reg 3 e) (f_equal (Nat.add 3) Hn))|].
  split; [exact HR|]. split; [reflexivity|].
  unfold eu. cbn. unfold dT_dt, dTD_dt, p_C, p_CD, water_capacity. cbn. lra.
Qed.

(** ** C17 *)
Theorem c17_two_layer_equilibrium : forall reg p F,
  positive_tl p -> small_step p ->
  exists T TD N, constant_forcing_response reg p F T TD N /\
    Un_cv T (F / p_lambda0 p) /\ Un_cv TD (F / p_lambda0 p) /\ Un_cv N 0.
Proof.
  intros reg p F Hp Hs. exists (eu p (fun _ => F)), (el p (fun _ => F)), (en p (fun _ => F)).
  split; [|split; [apply eu_cv; assumption|split; [apply el_cv; assumption|apply en_cv; assumption]]].
  intros parse s e (Hr & Hv & HF). destruct Hp as (P1 & P2 & P3 & P4 & P5 & P6 & P7).
  apply (run_reports reg parse s p e _ Hr Hv HF); lra.
Qed.

Lemma ir_response_values reg parse s p F T1 T2 T N : ir_reachable (xenv reg) parse s -> ir_values reg s p ->
  ir_constant_forcing_response reg s F T1 T2 T N ->
  exists k m1 m2, heat_const reg s k m1 m2 /\ p_d1 p <> 0 /\ p_d2 p <> 0 /\
  forall i, T1 i = bt1 p (fun _ => F) i /\ T2 i = bt2 p (fun _ => F) i /\
            T i = bt1 p (fun _ => F) i + bt2 p (fun _ => F) i /\ N i = hn p (fun _ => F) k m1 m2 i.
Proof.
  intros Hr Hv H.
  destruct (a_series reg (fun _ => F) 2) as (e & Hn & HF).
  assert (HS : ir_setup reg parse s p e (fun _ => F)) by (split; auto).
  destruct (ir_setup_inv _ _ _ _ _ _ _ _ _ _ HS (H e HF)) as (_ & k & m1 & m2 & HC & _).
  destruct (HC ltac:(lia)) as (HC0 & D1 & D2). exists k, m1, m2. repeat (split; [assumption|]). clear HC.
  intros i. destruct (a_series reg (fun _ => F) (S (S i))) as (e' & Hn' & HF').
  assert (HS' : ir_setup reg parse s p e' (fun _ => F)) by (split; auto).
  destruct (ir_setup_inv _ _ _ _ _ _ _ _ _ _ HS' (H e' HF')) as (I1 & k' & m1' & m2' & HC' & HN).
  destruct (I1 i ltac:(lia)) as (-> & -> & ->). rewrite (HN i ltac:(lia)).
  destruct (HC' ltac:(lia)) as (HC1 & _). destruct (heat_const_unique _ _ _ _ _ _ _ _ HC0 HC1) as (<- & <- & <-). auto.
Qed.

Theorem c17_impulse_response_equilibrium : forall reg parse s p F T1 T2 T N,
  ir_reachable (xenv reg) parse s -> ir_values reg s p -> 0 < p_d1 p -> 0 < p_d2 p -> 0 < p_idt p ->
  ir_constant_forcing_response reg s F T1 T2 T N ->
  Un_cv T1 (p_q1 p * F) /\ Un_cv T2 (p_q2 p * F) /\ Un_cv T ((p_q1 p + p_q2 p) * F).
Proof.
  intros reg parse s p F T1 T2 T N Hr Hv P1 P2 P3 H.
  destruct (ir_response_values _ _ _ _ _ _ _ _ _ Hr Hv H) as (k & m1 & m2 & _ & _ & _ & HV).
  assert (C1 : Un_cv T1 (p_q1 p * F)).
  { eapply cv_ext; [intros i; symmetry; apply HV|]. apply run_const_cv; assumption. }
  assert (C2 : Un_cv T2 (p_q2 p * F)).
  { eapply cv_ext; [intros i; symmetry; apply HV|]. apply run_const_cv; assumption. }
  split; [exact C1|]. split; [exact C2|]. rewrite Rmult_plus_distr_r.
  eapply cv_ext; [|apply CV_plus; [exact C1|exact C2]]. intros i. destruct (HV i) as (-> & -> & -> & _). reflexivity.
Qed.

(** The heat uptake tends to 0 for every step size, with efficacy 1 (q1, q2 in
    units of the size of delta_degC/(W/m^2); see C29) ... *)
Theorem c17_impulse_response_heat_uptake : forall reg parse s p F T1 T2 T N,
  ir_reachable (xenv reg) parse s -> ir_values reg s p -> 0 < p_d1 p -> 0 < p_d2 p -> 0 < p_idt p ->
  p_q1 p + p_q2 p <> 0 -> p_q1 p * p_d2 p + p_q2 p * p_d1 p <> 0 ->
  usize reg (units (ir_q1 (xenv reg) s)) = usize reg u_CWm2 ->
  usize reg (units (ir_q2 (xenv reg) s)) = usize reg u_CWm2 ->
  p_ieps p = 1 ->
  ir_constant_forcing_response reg s F T1 T2 T N ->
  Un_cv N 0.
Proof.
  intros reg parse s p F T1 T2 T N Hr Hv P1 P2 P3 Z1 Z2 U1 U2 He H.
  destruct (ir_response_values _ _ _ _ _ _ _ _ _ Hr Hv H) as (k & m1 & m2 & HC & D1 & D2 & HV).
  assert (Z : p_ieps p <> 0) by lra.
  destruct (lam_mag_exists reg s p Hv Z1 Z2 Z) as (x & Hx).
  pose proof (heat_const_1 reg parse s p Hr Hv D1 D2 Z1 Z2 Z x He Hx) as HC'.
  apply (lam_mag_std reg s p Hv Z1 Z2 Z x U1 U2) in Hx. subst x.
  destruct (heat_const_unique _ _ _ _ _ _ _ _ HC HC') as (-> & -> & ->).
  apply cv_S. eapply cv_ext; [intros i; symmetry; destruct (HV (S i)) as (_ & _ & _ & E); exact E|]. cbn [hn].
  apply cv_to with (F - hlam (p_q1 p) (p_q2 p) * (p_q1 p * F + p_q2 p * F) - (0 * (p_q1 p * F) + 0 * (p_q2 p * F))).
  { unfold hlam. field. assumption. }
  pose proof (run_const_cv (p_q1 p) (p_d1 p) (p_idt p) P1 P3 F) as C1.
  pose proof (run_const_cv (p_q2 p) (p_d2 p) (p_idt p) P2 P3 F) as C2.
  apply CV_minus; [apply CV_minus; [apply cv_const|]|].
  - apply CV_mult; [apply cv_const|]. apply CV_plus; assumption.
  - apply CV_plus; (apply CV_mult; [apply cv_const|assumption]).
Qed.

(** ... and with any other efficacy the code accepts, for positive parameters. *)
Theorem c17_impulse_response_heat_uptake_any_efficacy : forall reg parse s p F T1 T2 T N,
  ir_reachable (xenv reg) parse s -> ir_values reg s p ->
  0 < p_q1 p -> 0 < p_q2 p -> 0 < p_d1 p -> p_d1 p < p_d2 p -> 0 < p_ieps p -> 0 < p_idt p ->
  usize reg (units (ir_q1 (xenv reg) s)) = usize reg u_CWm2 ->
  usize reg (units (ir_q2 (xenv reg) s)) = usize reg u_CWm2 ->
  ir_constant_forcing_response reg s F T1 T2 T N ->
  Un_cv N 0.
Proof.
  intros reg parse s p F T1 T2 T N Hr Hv Q1 Q2 P1 P2 Pe P3 U1 U2 H.
  assert (P2' : 0 < p_d2 p) by lra.
  assert (Z1 : p_q1 p + p_q2 p <> 0) by lra.
  assert (Z2 : p_q1 p * p_d2 p + p_q2 p * p_d1 p <> 0).
  { pose proof (pos_mul _ _ Q1 P2'). pose proof (pos_mul _ _ Q2 P1). lra. }
  destruct (Req_dec (p_ieps p) 1) as [He|He].
  { eapply c17_impulse_response_heat_uptake; eauto. }
  destruct (ir_response_values _ _ _ _ _ _ _ _ _ Hr Hv H) as (k & m1 & m2 & HC & D1 & D2 & HV).
  assert (Z : p_ieps p <> 0) by lra.
  destruct (lam_mag_exists reg s p Hv Z1 Z2 Z) as (x & Hx).
  assert (Pd : p_d1 p <> p_d2 p) by lra.
  assert (Hst : exists hp, step_status (xenv reg) s = Ok hp).
  { unfold heat_const in HC. destruct (step_status (xenv reg) s); [eauto|contradiction]. }
  pose proof (heat_const_eff reg parse s p Hr Hv D1 D2 Z1 Z2 Z Q1 Q2 P1 P2' Pe Pd He x Hst Hx) as HC'.
  apply (lam_mag_std reg s p Hv Z1 Z2 Z x U1 U2) in Hx. subst x.
  destruct (heat_const_unique _ _ _ _ _ _ _ _ HC HC') as (-> & -> & ->). clear HC'.
  set (Y := year_s reg) in *.
  pose proof (Yd1 reg p P1) as PY1. pose proof (Yd2 reg p P2') as PY2. fold Y in PY1, PY2.
  assert (PY : Y * p_d1 p < Y * p_d2 p) by (apply Rmult_lt_compat_l; [apply year_s_pos|assumption]).
  assert (PYn : Y * p_d1 p <> Y * p_d2 p) by lra.
  set (C := hC (p_q1 p) (p_q2 p) (Y * p_d1 p) (Y * p_d2 p)) in *.
  set (CD := hCD (p_q1 p) (p_q2 p) (Y * p_d1 p) (Y * p_d2 p) (p_ieps p)) in *.
  set (h := heta (p_q1 p) (p_q2 p) (Y * p_d1 p) (Y * p_d2 p) (p_ieps p)) in *.
  set (l := hlam (p_q1 p) (p_q2 p)) in *.
  assert (PC : 0 < C) by (apply (hC_pos _ _ _ _ (p_ieps p)); assumption).
  assert (PCD : 0 < CD) by (apply hCD_pos; assumption).
  assert (Ph : 0 < h) by (apply heta_pos; assumption).
  assert (Pl : 0 < l) by (unfold l, hlam; apply pos_div; lra).
  destruct (h_q (p_q1 p) (p_q2 p) (Y * p_d1 p) (Y * p_d2 p) (p_ieps p) Q1 Q2 PY1 PY2 PYn Pe PY) as (HQ1 & HQ2).
  fold C CD h l in HQ1, HQ2.
  pose proof (q_phi_sum C CD l (p_ieps p) h PC PCD Pl Pe Ph) as QP. rewrite HQ1, HQ2 in QP.
  apply cv_S. eapply cv_ext; [intros i; symmetry; destruct (HV (S i)) as (_ & _ & _ & E); exact E|]. cbn [hn].
  set (f1 := gphi1 C CD l (p_ieps p) h) in *. set (f2 := gphi2 C CD l (p_ieps p) h) in *.
  apply cv_to with (F - l * (p_q1 p * F + p_q2 p * F) -
     ((p_ieps p - 1) * h * (1 - f1) * (p_q1 p * F) + (p_ieps p - 1) * h * (1 - f2) * (p_q2 p * F))).
  { replace ((p_ieps p - 1) * h * (1 - f1) * (p_q1 p * F) + (p_ieps p - 1) * h * (1 - f2) * (p_q2 p * F)) with
      ((p_ieps p - 1) * h * F * ((p_q1 p + p_q2 p) - (f1 * p_q1 p + f2 * p_q2 p))) by ring.
    rewrite QP. unfold l, hlam. field. assumption. }
  pose proof (run_const_cv (p_q1 p) (p_d1 p) (p_idt p) P1 P3 F) as C1.
  pose proof (run_const_cv (p_q2 p) (p_d2 p) (p_idt p) P2' P3 F) as C2.
  apply CV_minus; [apply CV_minus; [apply cv_const|]|].
  - apply CV_mult; [apply cv_const|]. apply CV_plus; assumption.
  - apply CV_plus; (apply CV_mult; [apply cv_const|assumption]).
Qed.

Example c17_case : positive_tl ex_tl /\ small_step ex_tl.
Proof. split; [unfold positive_tl; cbn; lra|]. unfold small_step, p_C, p_CD, water_capacity; cbn; lra. Qed.
Example c17_impulse_response_case : forall reg parse, exists s T1 T2 T N,
  ir_reachable (xenv reg) parse s /\ ir_values reg s ex_ir /\
  usize reg (units (ir_q1 (xenv reg) s)) = usize reg u_CWm2 /\
  usize reg (units (ir_q2 (xenv reg) s)) = usize reg u_CWm2 /\
  ir_constant_forcing_response reg s 4 T1 T2 T N.
Proof.
  intros reg parse. destruct (ir_model reg parse ex_ir) as (s & Hr & Hv & U1 & U2); [cbn; lra|].
  destruct (lam_mag_exists reg s ex_ir Hv) as (x & Hx); try (cbn; lra).
  assert (HC : heat_const reg s x 0 0) by (apply (heat_const_1 reg parse s ex_ir); auto; cbn; lra).
  exists s. do 4 eexists. rewrite U1, U2. repeat (split; [auto|]).
  intros e HF. apply (ir_run_reports reg parse s ex_ir e _ Hr Hv HF _ _ _ HC).
Qed.

(** ** C18 *)
Theorem c18_boxes_are_exact_solutions : forall reg parse s p e F T1 T2 T N,
  ir_setup reg parse s p e F -> ir_reports reg s e T1 T2 T N ->
  ((0 < npoints e)%nat -> T1 0%nat = 0 /\ T2 0%nat = 0) /\
  forall i, (S i < npoints e)%nat ->
    (exists y, box_ode (p_q1 p) (p_d1 p) (F i) (T1 i) (p_idt p) y) /\
    (forall y, box_ode (p_q1 p) (p_d1 p) (F i) (T1 i) (p_idt p) y -> T1 (S i) = y (p_idt p)) /\
    (exists y, box_ode (p_q2 p) (p_d2 p) (F i) (T2 i) (p_idt p) y) /\
    (forall y, box_ode (p_q2 p) (p_d2 p) (F i) (T2 i) (p_idt p) y -> T2 (S i) = y (p_idt p)) /\
    T (S i) = T1 (S i) + T2 (S i).
Proof.
  intros reg parse s p e F T1 T2 T N HS HR. destruct (ir_setup_inv _ _ _ _ _ _ _ _ _ _ HS HR) as (HI & k & m1 & m2 & HC & HN).
  split; [intros Hp; destruct (HI 0%nat Hp) as (-> & -> & _); split; reflexivity|].
  intros i Hi. destruct (HC ltac:(lia)) as (_ & D1 & D2).
  destruct (HI (S i) Hi) as (-> & -> & ->). destruct (HI i ltac:(lia)) as (-> & -> & _).
  split; [eexists; apply box_ode_exists, D1|]. split; [intros y Hy; symmetry; apply (box_ode_unique _ _ _ _ _ _ D1 Hy)|].
  split; [eexists; apply box_ode_exists, D2|]. split; [intros y Hy; symmetry; apply (box_ode_unique _ _ _ _ _ _ D2 Hy)|].
  reflexivity.
Qed.

Example c18_case : forall reg parse, exists s e T1 T2 T N,
  ir_setup reg parse s ex_ir e (fun i => INR i) /\ npoints e = 4%nat /\ ir_reports reg s e T1 T2 T N /\ T1 2%nat > 0.
Proof.
  intros reg parse. destruct (ir_run_exists reg parse ex_ir (fun i => INR i) 4) as (s & e & N & Hr & Hv & _ & _ & Hn & HF & HR); cbn; try lra.
  exists s, e. do 4 eexists. split; [split; auto|]. split; [exact Hn|]. split; [exact HR|].
  unfold bt1. rewrite !run_S. cbn [box_run INR p_q1 p_d1 p_idt ex_ir].
  pose proof (k_range 9 1 ltac:(lra) ltac:(lra)). lra.
Qed.

(** ** C19 *)
Lemma stretched_nth {A} (l : list A) k i : (0 < k)%nat -> nth_error (flat_map (fun x => repeat x k) l) i = nth_error l (i / k).
Proof.
  intros Hk. revert i. induction l as [|x l IH]; intros i; cbn [flat_map].
  - destruct (i / k)%nat; destruct i; reflexivity.
  - destruct (Nat.lt_ge_cases i k) as [H|H].
    + rewrite nth_error_app1 by (rewrite repeat_length; exact H). rewrite Nat.div_small by exact H. cbn.
      apply nth_error_repeat, H.
    + rewrite nth_error_app2 by (rewrite repeat_length; exact H). rewrite repeat_length, IH.
      replace i with (i - k + 1 * k)%nat at 2 by lia. rewrite Nat.div_add by lia. rewrite Nat.add_1_r. reflexivity.
Qed.
Lemma stretched_series reg k e F : (0 < k)%nat -> is_series reg e F u_Wm2 ->
  is_series reg (stretched k e) (fun i => F (i / k)%nat) u_Wm2.
Proof.
  intros Hk (Hd & H). split; [exact Hd|]. intros i x Hx. unfold stretched in *. cbn [mags aunits] in *.
  rewrite stretched_nth in Hx by exact Hk. apply H, Hx.
Qed.
Lemma stretched_length reg k (e : QArr (xenv reg)) : npoints (stretched k e) = (k * npoints e)%nat.
Proof.
  unfold npoints, stretched. cbn [mags]. generalize (mags e). intros l.
  induction l as [|x l IH]; [cbn; lia|]. cbn [flat_map]. rewrite app_length, repeat_length, IH. cbn [List.length]. lia.
Qed.

Theorem c19_step_size_does_not_matter : forall reg parse s s' p e F k T1 T2 T N T1' T2' T' N',
  (0 < k)%nat ->
  ir_setup reg parse s p e F ->
  ir_setup reg parse s' (mkIRPhys (p_q1 p) (p_q2 p) (p_d1 p) (p_d2 p) (p_ieps p) (p_idt p / INR k)) (stretched k e)
    (fun i => F (i / k)%nat) ->
  (2 <= npoints e)%nat ->
  ir_reports reg s e T1 T2 T N -> ir_reports reg s' (stretched k e) T1' T2' T' N' ->
  forall i, (i < npoints e)%nat -> T1' (k * i)%nat = T1 i /\ T2' (k * i)%nat = T2 i /\ T' (k * i)%nat = T i.
Proof.
  intros reg parse s s' p e F k T1 T2 T N T1' T2' T' N' Hk HS HS' Hn HR HR' i Hi.
  destruct (ir_setup_inv _ _ _ _ _ _ _ _ _ _ HS HR) as (HI & c & m1 & m2 & HC & _).
  destruct (ir_setup_inv _ _ _ _ _ _ _ _ _ _ HS' HR') as (HI' & _).
  destruct (HC Hn) as (_ & D1 & D2).
  destruct (HI i Hi) as (-> & -> & ->).
  destruct (HI' (k * i)%nat) as (-> & -> & ->).
  { rewrite stretched_length. apply Nat.mul_lt_mono_pos_l; assumption. }
  unfold bt1, bt2. cbn [p_q1 p_q2 p_d1 p_d2 p_ieps p_idt]. rewrite !run_stretch by assumption. auto.
Qed.

(** The drivers of the finer run are those values, and the finer run succeeds
    whenever the coarser one does. *)
Theorem c19_finer_run_succeeds : forall reg parse s s' p e F k q T1 T2 T N,
  (0 < k)%nat ->
  ir_setup reg parse s p e F -> (2 <= npoints e)%nat -> ir_reports reg s e T1 T2 T N ->
  is_qty reg q (p_idt p / INR k) u_yr ->
  ir_set_delta_t (xenv reg) (PQ q) s = (s', Ok tt) ->
  ir_setup reg parse s' (mkIRPhys (p_q1 p) (p_q2 p) (p_d1 p) (p_d2 p) (p_ieps p) (p_idt p / INR k)) (stretched k e)
    (fun i => F (i / k)%nat) /\
  npoints (stretched k e) = (k * npoints e)%nat /\
  exists T1' T2' T' N', ir_reports reg s' (stretched k e) T1' T2' T' N'.
Proof.
  intros reg parse s s' p e F k q T1 T2 T N Hk HS Hn HR Hq Hset.
  destruct (ir_setup_inv _ _ _ _ _ _ _ _ _ _ HS HR) as (HI & c & m1 & m2 & HC & _).
  destruct (HC Hn) as (HC0 & D1 & D2). destruct HS as (Hr & (V1 & V2 & V3 & V4 & V5 & V6) & HF).
  destruct (ir_set_succ (xenv reg) Pdt s q (proj1 Hq)) as (s2 & Hs2 & G1 & G2 & _).
  change (ir_param_set (xenv reg) Pdt (PQ q) s) with (ir_set_delta_t (xenv reg) (PQ q) s) in Hs2.
  rewrite Hset in Hs2. injection Hs2 as <-.
  pose proof (G2 Pq1 ltac:(discriminate)) as E1. pose proof (G2 Pq2 ltac:(discriminate)) as E2.
  pose proof (G2 Pd1 ltac:(discriminate)) as E3. pose proof (G2 Pd2 ltac:(discriminate)) as E4.
  pose proof (G2 Peff ltac:(discriminate)) as E5. cbn in E1, E2, E3, E4, E5, G1.
  assert (Hr' : ir_reachable (xenv reg) parse s').
  { pose proof (ir_reach_call reg parse (ISetDeltaT (xenv reg) (PQ q)) s Hr) as K. cbn [ir_call] in K. rewrite Hset in K. exact K. }
  set (p' := mkIRPhys _ _ _ _ _ _).
  assert (Hv' : ir_values reg s' p').
  { unfold ir_values, p'. cbn [p_q1 p_q2 p_d1 p_d2 p_ieps p_idt]. rewrite E1, E2, E3, E4, E5, G1. auto 10. }
  assert (HS' : ir_setup reg parse s' p' (stretched k e) (fun i => F (i / k)%nat)).
  { split; [exact Hr'|]. split; [exact Hv'|]. apply stretched_series; assumption. }
  split; [exact HS'|]. split; [apply stretched_length|].
  assert (HCs : heat_const reg s' c m1 m2).
  { apply ir_values_numbers with (parse := parse) (p := p') in Hv'; [|exact Hr'].
    assert (NV : ir_numbers reg s p) by (apply (ir_values_numbers reg parse); [exact Hr|unfold ir_values; auto 10]).
    destruct NV as [M1 M2 M3 M4 M5 M6]. destruct Hv' as [K1 K2 K3 K4 K5 K6]. cbn [p_q1 p_q2 p_d1 p_d2 p_ieps p_idt p'] in *.
    unfold heat_const in *. unfold step_status, heat_pars, ir_get_two_layer_parameters in *.
    rewrite K3, K4, K5, E1, E2, E3, E4, E5. rewrite M3, M4, M5 in HC0. exact HC0. }
  do 4 eexists. apply (ir_reports_of reg parse s' p' _ _ c m1 m2 HS'). auto.
Qed.

(** The two-layer model does not have this property: halving the step changes
    the temperature after two coarse steps. *)
Theorem c19_two_layer_depends_on_the_step : forall reg parse, exists p s s' e T TD N T' TD' N',
  positive_tl p /\ small_step p /\
  tl_setup reg parse s p e (fun _ => 1) /\
  tl_setup reg parse s' (mkTLPhys (p_du p) (p_dl p) (p_lambda0 p) (p_a p) (p_eps p) (p_eta p) (p_dt p / 2)) (stretched 2 e) (fun _ => 1) /\
  npoints e = 3%nat /\
  tl_reports reg s e T TD N /\ tl_reports reg s' (stretched 2 e) T' TD' N' /\ T' 4%nat <> T 2%nat.
Proof.
  intros reg parse. set (p := mkTLPhys (/ 4181000) (/ 4181000) (1/4) 0 1 (1/4) 1).
  set (p' := mkTLPhys (/ 4181000) (/ 4181000) (1/4) 0 1 (1/4) (1 / 2)).
  destruct (tl_model reg parse p) as (s & Hr & Hv). destruct (tl_model reg parse p') as (s' & Hr' & Hv').
  destruct (a_series reg (fun _ => 1) 3) as (e & Hn & HF).
  assert (HF' : is_series reg (stretched 2 e) (fun _ => 1) u_Wm2) by (apply (stretched_series reg 2 e (fun _ => 1)); [lia|exact HF]).
  exists p, s, s', e. do 6 eexists.
  split; [unfold positive_tl, p; cbn; lra|]. split; [unfold small_step, p_C, p_CD, water_capacity, p; cbn; lra|].
  split; [split; auto|]. split; [split; [exact Hr'|split; [exact Hv'|exact HF']]|]. split; [exact Hn|].
  split; [apply (run_reports reg parse s p e _ Hr Hv HF); cbn; lra|].
  split; [apply (run_reports reg parse s' p' _ _ Hr' Hv' HF'); cbn; lra|].
  unfold eu, p, p'; cbn; unfold dT_dt, dTD_dt, p_C, p_CD, water_capacity; cbn. lra.
Qed.

Example c19_case : forall reg parse, exists s s' e q T1 T2 T N T1' T2' T' N',
  ir_setup reg parse s ex_ir e (fun i => INR i) /\ npoints e = 3%nat /\ ir_reports reg s e T1 T2 T N /\
  is_qty reg q (p_idt ex_ir / INR 4) u_yr /\ ir_set_delta_t (xenv reg) (PQ q) s = (s', Ok tt) /\
  ir_reports reg s' (stretched 4 e) T1' T2' T' N' /\ T' 8%nat = T 2%nat.
Proof.
  intros reg parse. destruct (ir_run_exists reg parse ex_ir (fun i => INR i) 3) as (s & e & N & Hr & Hv & _ & _ & Hn & HF & HR); cbn; try lra.
  assert (HS : ir_setup reg parse s ex_ir e (fun i => INR i)) by (split; auto).
  pose proof (is_qty_self reg (p_idt ex_ir / INR 4) u_yr) as Hq.
  destruct (ir_set_succ (xenv reg) Pdt s _ (proj1 Hq)) as (s' & Hset & _).
  destruct (c19_finer_run_succeeds reg parse s s' ex_ir e _ 4 _ _ _ _ _ ltac:(lia) HS ltac:(lia) HR Hq Hset)
    as (HS' & _ & T1' & T2' & T' & N' & HR').
  exists s, s', e. do 5 eexists. exists T1', T2', T', N'. repeat (split; [eassumption|]).
  destruct (c19_step_size_does_not_matter reg parse s s' ex_ir e _ 4 _ _ _ _ _ _ _ _ ltac:(lia) HS HS' ltac:(lia) HR HR' 2 ltac:(lia))
    as (_ & _ & K). exact K.
Qed.

(** ** C20 *)
Theorem c20_sign : forall reg parse s p e F T1 T2 T N,
  ir_setup reg parse s p e F -> ir_reports reg s e T1 T2 T N -> positive_ir p ->
  (forall i, (i < npoints e)%nat -> 0 <= F i) ->
  forall i, (i < npoints e)%nat -> 0 <= T1 i /\ 0 <= T2 i /\ 0 <= T i.
Proof.
  intros reg parse s p e F T1 T2 T N HS HR (P1 & P2 & P3 & P4 & P5) H i Hi.
  destruct (ir_setup_inv _ _ _ _ _ _ _ _ _ _ HS HR) as (HI & _). destruct (HI i Hi) as (-> & -> & ->).
  assert (K : forall q d, 0 < q -> 0 < d -> 0 <= box_run q d (p_idt p) F i).
  { intros q d Hq Hd. rewrite <- (run_zero q d (p_idt p) (fun _ => 0) i) by reflexivity.
    apply run_order; auto; [lra|]. intros j Hj. apply H. lia. }
  pose proof (K _ _ P1 P3). pose proof (K _ _ P2 P4). unfold bt1, bt2. lra.
Qed.

Theorem c20_monotone : forall reg parse s s' p e e' F G T1 T2 T N T1' T2' T' N',
  ir_setup reg parse s p e F -> ir_setup reg parse s' p e' G -> npoints e = npoints e' ->
  ir_reports reg s e T1 T2 T N -> ir_reports reg s' e' T1' T2' T' N' -> positive_ir p ->
  (forall i, (i < npoints e)%nat -> F i <= G i) ->
  forall i, (i < npoints e)%nat -> T1 i <= T1' i /\ T2 i <= T2' i /\ T i <= T' i.
Proof.
  intros reg parse s s' p e e' F G T1 T2 T N T1' T2' T' N' HS HS' Hn HR HR' (P1 & P2 & P3 & P4 & P5) H i Hi.
  destruct (ir_setup_inv _ _ _ _ _ _ _ _ _ _ HS HR) as (HI & _). destruct (HI i Hi) as (-> & -> & ->).
  destruct (ir_setup_inv _ _ _ _ _ _ _ _ _ _ HS' HR') as (HI' & _). destruct (HI' i ltac:(lia)) as (-> & -> & ->).
  assert (K : forall q d, 0 < q -> 0 < d -> box_run q d (p_idt p) F i <= box_run q d (p_idt p) G i).
  { intros q d Hq Hd. apply run_order; auto; [lra|]. intros j Hj. apply H. lia. }
  pose proof (K _ _ P1 P3). pose proof (K _ _ P2 P4). unfold bt1, bt2. lra.
Qed.

Theorem c20_bounded : forall reg parse s p e F T1 T2 T N M,
  ir_setup reg parse s p e F -> ir_reports reg s e T1 T2 T N -> positive_ir p ->
  (forall i, (i < npoints e)%nat -> Rabs (F i) <= M) ->
  forall i, (i < npoints e)%nat -> Rabs (T1 i) <= p_q1 p * M /\ Rabs (T2 i) <= p_q2 p * M /\ Rabs (T i) <= (p_q1 p + p_q2 p) * M.
Proof.
  intros reg parse s p e F T1 T2 T N M HS HR (P1 & P2 & P3 & P4 & P5) H i Hi.
  destruct (ir_setup_inv _ _ _ _ _ _ _ _ _ _ HS HR) as (HI & _). destruct (HI i Hi) as (-> & -> & ->).
  assert (HM : 0 <= M) by (eapply Rle_trans; [apply Rabs_pos|apply (H i Hi)]).
  assert (K : forall q d, 0 < q -> 0 < d -> Rabs (box_run q d (p_idt p) F i) <= q * M).
  { intros q d Hq Hd. apply run_bound; auto; [lra|]. intros j Hj. apply H. lia. }
  pose proof (K _ _ P1 P3) as B1. pose proof (K _ _ P2 P4) as B2. unfold bt1, bt2.
  split; [exact B1|]. split; [exact B2|]. eapply Rle_trans; [apply Rabs_triang|]. lra.
Qed.

(** A step ten times the short timescale is no problem. *)
Example c20_case : forall reg parse, exists s e T1 T2 T N,
  positive_ir (mkIRPhys (3/10) (4/10) 9 400 1 90) /\
  ir_setup reg parse s (mkIRPhys (3/10) (4/10) 9 400 1 90) e (fun i => INR i) /\ npoints e = 4%nat /\
  ir_reports reg s e T1 T2 T N /\ 0 < T1 2%nat.
Proof.
  intros reg parse. set (p := mkIRPhys (3/10) (4/10) 9 400 1 90).
  destruct (ir_run_exists reg parse p (fun i => INR i) 4) as (s & e & N & Hr & Hv & _ & _ & Hn & HF & HR); cbn; try lra.
  exists s, e. do 4 eexists. split; [unfold positive_ir, p; cbn; lra|]. split; [split; auto|]. split; [exact Hn|]. split; [exact HR|].
  unfold bt1, p. rewrite !run_S. cbn [box_run INR p_q1 p_d1 p_idt].
  pose proof (k_range 9 90 ltac:(lra) ltac:(lra)). lra.
Qed.

(** ** C40 *)
Theorem c40_impulse_response_efficacy : forall reg parse p eps s s' e F T1 T2 T N T1' T2' T' N',
  ir_setup reg parse s p e F ->
  ir_setup reg parse s' (mkIRPhys (p_q1 p) (p_q2 p) (p_d1 p) (p_d2 p) eps (p_idt p)) e F ->
  ir_reports reg s e T1 T2 T N -> ir_reports reg s' e T1' T2' T' N' ->
  forall i, (i < npoints e)%nat -> T1' i = T1 i /\ T2' i = T2 i /\ T' i = T i.
Proof.
  intros reg parse p eps s s' e F T1 T2 T N T1' T2' T' N' HS HS' HR HR' i Hi.
  destruct (ir_setup_inv _ _ _ _ _ _ _ _ _ _ HS HR) as (HI & _). destruct (HI i Hi) as (-> & -> & ->).
  destruct (ir_setup_inv _ _ _ _ _ _ _ _ _ _ HS' HR') as (HI' & _). destruct (HI' i Hi) as (-> & -> & ->).
  auto.
Qed.
