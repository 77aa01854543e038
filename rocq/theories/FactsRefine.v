(** Property C55: smaller steps. *)
From Coq Require Import List String QArith Reals Qreals Bool Arith Lra Lia Psatz.
From Verif Require Import Arith Pint Base TwoLayer Impulse Scm Api Spec Exact SpecReal SpecRefine
  GenTL GenTLHist GenIR GenIRHist GenMeta RealUnits RealTL RealGeo RealConv RealIR RealTrace RealModels RealEuler RealBox RealEquiv
  FactsRun FactsTL FactsTL2 FactsIR FactsConv FactsEquiv.
Import ListNotations.
Local Open Scope R_scope.

Section Ex.
Variable p : TLP.
Hypothesis HP : convertible_tl p.
Hypothesis Hdt : 0 < p_dt p.
Notation gg f := (f (p_C p) (p_CD p) (p_lambda0 p) (p_eps p) (p_eta p)).
Notation Y1 F := (box_run (gg gq1) (gg gtau1) (p_dt p) F).
Notation Y2 F := (box_run (gg gq2) (gg gtau2) (p_dt p) F).

Lemma range0 : forall t, Rmin 0 (p_dt p) <= t <= Rmax 0 (p_dt p) <-> 0 <= t <= p_dt p.
Proof. intros t. rewrite Rmin_left, Rmax_right by lra. reflexivity. Qed.

Lemma segment F T0 TD0 y yD : two_layer_ode p F (p_dt p) y yD -> y 0 = T0 -> yD 0 = TD0 ->
  X1 p (y (p_dt p)) (yD (p_dt p)) = box_solution (gg gq1) (gg gtau1) F (X1 p T0 TD0) (p_dt p) /\
  X2 p (y (p_dt p)) (yD (p_dt p)) = box_solution (gg gq2) (gg gtau2) F (X2 p T0 TD0) (p_dt p).
Proof.
  intros D E0 E1. pose proof (mdiff p HP) as Hd. pose proof (mt1 p HP). pose proof (mt2 p HP).
  assert (F1 : forall t, gg gphi2 / (gg gphi2 - gg gphi1) * y t + - / (gg gphi2 - gg gphi1) * yD t = X1 p (y t) (yD t)) by (intros; unfold X1; field; lra).
  assert (F2 : forall t, - gg gphi1 / (gg gphi2 - gg gphi1) * y t + / (gg gphi2 - gg gphi1) * yD t = X2 p (y t) (yD t)) by (intros; unfold X2; field; lra).
  split.
  - apply (box_ode_unique _ _ _ _ (p_dt p) (fun t => X1 p (y t) (yD t))); [lra|]. split; [now rewrite E0, E1|].
    intros t Ht. apply range0 in Ht. destruct (D t Ht) as (D1 & D2). rewrite <- (X1_rate p HP).
    eapply lim_ext; [exact F1|]. eapply lim_eq; [apply lim_lin; eassumption|]. unfold X1. field. lra.
  - apply (box_ode_unique _ _ _ _ (p_dt p) (fun t => X2 p (y t) (yD t))); [lra|]. split; [now rewrite E0, E1|].
    intros t Ht. apply range0 in Ht. destruct (D t Ht) as (D1 & D2). rewrite <- (X2_rate p HP).
    eapply lim_ext; [exact F2|]. eapply lim_eq; [apply lim_lin; eassumption|]. unfold X2. field. lra.
Qed.

Lemma exact_modes F T TD : exact_two_layer p F T TD -> forall n,
  T n = Y1 F n + Y2 F n /\ TD n = gg gphi1 * Y1 F n + gg gphi2 * Y2 F n.
Proof.
  intros (Z1 & Z2 & H).
  assert (K : forall n, X1 p (T n) (TD n) = Y1 F n /\ X2 p (T n) (TD n) = Y2 F n).
  { induction n as [|n (I1 & I2)].
    - rewrite Z1, Z2. unfold X1, X2, Rdiv. cbn [box_run]. split; ring.
    - destruct (H n) as (y & yD & D & E0 & E1 & E2 & E3).
      destruct (segment (F n) _ _ y yD D E0 E1) as (S1 & S2). rewrite E2, E3 in S1, S2.
      cbn [box_run]. rewrite <- I1, <- I2. auto. }
  intros n. destruct (K n) as (<- & <-). rewrite (X_T p HP), (X_TD p HP). auto.
Qed.

Lemma exact_exists F : exact_two_layer p F (fun n => Y1 F n + Y2 F n) (fun n => gg gphi1 * Y1 F n + gg gphi2 * Y2 F n).
Proof.
  split; [cbn; ring|]. split; [cbn; ring|]. intros i. pose proof (mt1 p HP). pose proof (mt2 p HP).
  destruct (box_ode_exists (gg gq1) (gg gtau1) (F i) (Y1 F i) (p_dt p) ltac:(lra)) as (A0 & A1).
  destruct (box_ode_exists (gg gq2) (gg gtau2) (F i) (Y2 F i) (p_dt p) ltac:(lra)) as (B0 & B1).
  exists (fun t => box_solution (gg gq1) (gg gtau1) (F i) (Y1 F i) t + box_solution (gg gq2) (gg gtau2) (F i) (Y2 F i) t).
  exists (fun t => gg gphi1 * box_solution (gg gq1) (gg gtau1) (F i) (Y1 F i) t + gg gphi2 * box_solution (gg gq2) (gg gtau2) (F i) (Y2 F i) t).
  split; [|rewrite A0, B0; repeat split; reflexivity].
  intros t Ht. apply range0 in Ht. specialize (A1 t Ht). specialize (B1 t Ht). split.
  - rewrite (mode_T p HP). apply (derivable_pt_lim_plus (box_solution (gg gq1) (gg gtau1) (F i) (Y1 F i)) (box_solution (gg gq2) (gg gtau2) (F i) (Y2 F i))); assumption.
  - rewrite (mode_TD p HP (F i)). apply lim_lin; assumption.
Qed.
End Ex.

(** Error of a run with [k] steps per forcing value. *)
Section Err.
Variable p : TLP.
Hypothesis HP : convertible_tl p.
Hypothesis Hdt : 0 < p_dt p.
Notation gg f := (f (p_C p) (p_CD p) (p_lambda0 p) (p_eps p) (p_eta p)).
Variables (F T TD : nat -> R) (k n : nat) (M : R).
Hypothesis Hk : (0 < k)%nat.
Hypothesis HE : exact_two_layer p F T TD.
Hypothesis Hs : p_dt p / INR k <= gg gtau1.
Hypothesis HF : forall i, (i < n)%nat -> Rabs (F i) <= M.
Hypothesis HM : 0 <= M.
Notation pk := (with_step p (p_dt p / INR k)).
Notation Fk := (fun i => F (i / k)%nat).

Lemma conv_step : convertible_tl pk.
Proof. destruct HP as (P1 & P2 & P3 & P4 & P5 & P6). repeat split; assumption. Qed.
Lemma k_pos : 0 < INR k.
Proof. apply lt_0_INR, Hk. Qed.
Lemma step_pos : 0 < p_dt pk.
Proof. cbn. apply Rmult_lt_0_compat; [exact Hdt|]. apply Rinv_0_lt_compat, k_pos. Qed.

Lemma refined_error i : (i <= n)%nat ->
  Rabs (eu pk Fk (k * i) - T i) <= p_dt p / INR k * M / p_C p /\
  Rabs (el pk Fk (k * i) - TD i) <= 2 * p_eta p / (p_CD p * sqrt (discriminant p)) * (p_dt p / INR k * M / p_C p).
Proof.
  intros Hi. destruct (exact_modes p HP Hdt F T TD HE i) as (-> & ->).
  pose proof (mt1 p HP). pose proof (mt2 p HP).
  assert (HFk : forall j, (j < k * i)%nat -> Rabs (Fk j) <= M).
  { intros j Hj. apply HF. apply Nat.div_lt_upper_bound; [lia|]. nia. }
  pose proof (surface_error pk conv_step step_pos Hs Fk M (k * i) HFk HM) as A.
  pose proof (deep_error pk conv_step step_pos Hs Fk M (k * i) HFk HM) as B.
  unfold p_C, p_CD, discriminant in *. cbn [with_step p_du p_dl p_lambda0 p_eps p_eta p_dt] in *.
  rewrite !run_stretch in A, B by (try assumption; lra). auto.
Qed.
End Err.

(** ** C55 *)
(** The exact solution exists, and there is only one. *)
Theorem c55_exact_solution : forall p F, convertible_tl p -> 0 < p_dt p ->
  exists T TD, exact_two_layer p F T TD /\
    forall T' TD', exact_two_layer p F T' TD' -> forall i, T' i = T i /\ TD' i = TD i.
Proof.
  intros p F HP Hdt. do 2 eexists. split; [apply (exact_exists p HP Hdt F)|].
  intros T' TD' H i. exact (exact_modes p HP Hdt F T' TD' H i).
Qed.

(** [k] steps per forcing value: the error is inversely proportional to [k],
    however long the run.  ([k] = 1 is an ordinary run.) *)
Theorem c55_error_of_a_refined_run : forall reg parse s p e F M k r d1 T TD Tk TDk Nk,
  positive_tl p -> (0 < k)%nat ->
  tl_setup reg parse s (with_step p (p_dt p / INR k)) (stretched k e) (fun i => F (i / k)%nat) ->
  exact_two_layer p F T TD ->
  tl_get_impulse_response_parameters (xenv reg) s = Ok r -> is_qty reg (irp_d1 _ r) d1 u_s ->
  p_dt p / INR k <= d1 ->
  (forall i, (i < npoints e)%nat -> Rabs (F i) <= M) ->
  tl_reports reg s (stretched k e) Tk TDk Nk ->
  forall i, (i < npoints e)%nat ->
    Rabs (Tk (k * i)%nat - T i) <= p_dt p * M / p_C p / INR k /\
    Rabs (TDk (k * i)%nat - TD i) <= 2 * p_eta p / (p_CD p * sqrt (discriminant p)) * (p_dt p * M / p_C p / INR k).
Proof.
  intros reg parse s p e F M k r d1 T TD Tk TDk Nk Hp Hk HS HE Hr Hd1 Hs HM HR i Hi.
  pose proof (conv_of_pos p Hp) as HP. assert (Hdt : 0 < p_dt p) by apply Hp.
  destruct (setup_inv _ _ _ _ _ _ _ _ _ HS HR) as (_ & HI).
  destruct (HI (k * i)%nat) as (-> & -> & _).
  { rewrite stretched_length. apply Nat.mul_lt_mono_pos_l; assumption. }
  pose proof HS as (_ & Hv & _).
  pose proof (conv_step p HP k) as (P1 & P2 & P3 & Ha & P5 & P6).
  destruct (t2i_ok reg s _ Hv Ha P1 P2 P3 P5 P6) as (r' & Hr' & V1 & _).
  rewrite Hr in Hr'. injection Hr' as <-. rewrite (is_qty_unique reg _ _ _ _ Hd1 V1) in Hs.
  assert (HM0 : 0 <= M) by (eapply Rle_trans; [apply Rabs_pos|apply (HM i Hi)]).
  pose proof (k_pos k Hk) as Kp. pose proof (mC p HP) as QC.
  destruct (refined_error p HP Hdt F T TD k (npoints e) M Hk HE Hs HM HM0 i ltac:(lia)) as (A & B).
  replace (p_dt p * M / p_C p / INR k) with (p_dt p / INR k * M / p_C p) by (field; lra). auto.
Qed.

Lemma bound_exists (F : nat -> R) n : exists M, 0 <= M /\ forall i, (i < n)%nat -> Rabs (F i) <= M.
Proof.
  induction n as [|n (M & M0 & H)]; [exists 0; split; [lra|intros i Hi; lia]|].
  exists (Rmax M (Rabs (F n))). split; [eapply Rle_trans; [exact M0|apply Rmax_l]|].
  intros i Hi. destruct (Nat.eq_dec i n) as [->|Hn]; [apply Rmax_r|].
  eapply Rle_trans; [apply H; lia|apply Rmax_l].
Qed.
Lemma cv_by (u : nat -> R) l B c : 0 < c -> 0 <= B ->
  (forall k, (0 < k)%nat -> 1 / INR k <= c -> Rabs (u k - l) <= B / INR k) -> Un_cv (fun k => u (S k)) l.
Proof.
  intros Hc HB H eps He.
  destruct (archimed_cor1 (Rmin c (eps / (B + 1)))) as (N & HN & HN0).
  { apply Rmin_glb_lt; [exact Hc|]. apply Rmult_lt_0_compat; [exact He|]. apply Rinv_0_lt_compat. lra. }
  exists N. intros m Hm. unfold R_dist.
  assert (Np : 0 < INR N) by (apply lt_0_INR; lia).
  assert (Sp : 0 < INR (S m)) by (apply lt_0_INR; lia).
  assert (Hi : / INR (S m) <= / INR N) by (apply Rinv_le_contravar; [exact Np|apply le_INR; lia]).
  assert (H1 : / INR (S m) < eps / (B + 1)) by (pose proof (Rmin_r c (eps / (B + 1))); lra).
  assert (H2 : / INR (S m) < c) by (pose proof (Rmin_l c (eps / (B + 1))); lra).
  assert (H3 : 0 < / INR (S m)) by (apply Rinv_0_lt_compat, Sp).
  eapply Rle_lt_trans; [apply H; [lia|unfold Rdiv; lra]|].
  apply Rle_lt_trans with ((B + 1) * / INR (S m)); [unfold Rdiv; apply Rmult_le_compat_r; lra|].
  apply Rlt_le_trans with ((B + 1) * (eps / (B + 1))); [apply Rmult_lt_compat_l; lra|].
  right. field. lra.
Qed.

(** As the steps get smaller the reported temperatures converge to the exact
    solution of the two-layer equations (without any condition on the step the
    refinement starts from). *)
Theorem c55_smaller_steps_converge : forall reg parse p e F T TD Tk TDk,
  positive_tl p -> exact_two_layer p F T TD ->
  (forall k, (0 < k)%nat -> exists s N,
     tl_setup reg parse s (with_step p (p_dt p / INR k)) (stretched k e) (fun i => F (i / k)%nat) /\
     tl_reports reg s (stretched k e) (Tk k) (TDk k) N) ->
  forall i, (i < npoints e)%nat ->
    Un_cv (fun k => Tk (S k) (S k * i)%nat) (T i) /\ Un_cv (fun k => TDk (S k) (S k * i)%nat) (TD i).
Proof.
  intros reg parse p e F T TD Tk TDk Hp HE HR i Hi.
  pose proof (conv_of_pos p Hp) as HP. assert (Hdt : 0 < p_dt p) by apply Hp.
  destruct (bound_exists F (npoints e)) as (M & HM0 & HM).
  pose proof (mt1 p HP) as T1. pose proof (mC p HP) as QC. pose proof (mCD p HP) as QCD. pose proof (mh p HP) as Qh.
  set (t1 := gtau1 (p_C p) (p_CD p) (p_lambda0 p) (p_eps p) (p_eta p)) in *.
  set (B := p_dt p * M / p_C p). set (K := 2 * p_eta p / (p_CD p * sqrt (discriminant p))).
  assert (HB : 0 <= B) by (unfold B, Rdiv; apply Rmult_le_pos; [apply Rmult_le_pos; lra|left; apply Rinv_0_lt_compat, QC]).
  assert (Qd : 0 < sqrt (discriminant p)).
  { apply sqrt_lt_R0. rewrite discriminant_ok. apply gdelta_pos; auto using ml, me. }
  assert (HK : 0 < K) by (unfold K; apply pos_div; [lra|]; apply pos_mul; assumption).
  assert (G : forall k, (0 < k)%nat -> 1 / INR k <= t1 / p_dt p ->
    Rabs (Tk k (k * i)%nat - T i) <= B / INR k /\ Rabs (TDk k (k * i)%nat - TD i) <= K * B / INR k).
  { intros k Hk Hs. destruct (HR k Hk) as (s & N & HS & HRk).
    destruct (setup_inv _ _ _ _ _ _ _ _ _ HS HRk) as (_ & HI).
    destruct (HI (k * i)%nat) as (-> & -> & _).
    { rewrite stretched_length. apply Nat.mul_lt_mono_pos_l; assumption. }
    pose proof (k_pos k Hk) as Kp.
    assert (Hs' : p_dt p / INR k <= t1).
    { replace (p_dt p / INR k) with (p_dt p * (1 / INR k)) by (field; lra).
      replace t1 with (p_dt p * (t1 / p_dt p)) by (field; lra). apply Rmult_le_compat_l; lra. }
    destruct (refined_error p HP Hdt F T TD k (npoints e) M Hk HE Hs' HM HM0 i ltac:(lia)) as (A1 & A2).
    replace (B / INR k) with (p_dt p / INR k * M / p_C p) by (unfold B; field; lra).
    replace (K * B / INR k) with (K * (p_dt p / INR k * M / p_C p)) by (unfold B; field; lra). auto. }
  assert (Hc : 0 < t1 / p_dt p) by (apply pos_div; assumption).
  split.
  - apply (cv_by (fun k => Tk k (k * i)%nat) (T i) B (t1 / p_dt p)); auto. intros k Hk Hs. apply (G k Hk Hs).
  - apply (cv_by (fun k => TDk k (k * i)%nat) (TD i) (K * B) (t1 / p_dt p)); auto.
    + apply Rmult_le_pos; lra.
    + intros k Hk Hs. apply (G k Hk Hs).
Qed.

(** The refined runs: set [delta_t] to a [k]-th of its value and repeat every
    driver value [k] times. *)
Theorem c55_refined_runs : forall reg parse s p e F k q,
  tl_setup reg parse s p e F -> positive_tl p -> (0 < k)%nat -> is_qty reg q (p_dt p / INR k) u_s ->
  exists s', tl_set_delta_t (xenv reg) (PQ q) s = (s', Ok tt) /\
    tl_setup reg parse s' (with_step p (p_dt p / INR k)) (stretched k e) (fun i => F (i / k)%nat) /\
    npoints (stretched k e) = (k * npoints e)%nat /\
    exists T TD N, tl_reports reg s' (stretched k e) T TD N.
Proof.
  intros reg parse s p e F k q HS Hp Hk Hq. destruct HS as (Hr & (V1 & V2 & V3 & V4 & V5 & V6 & V7) & HF).
  destruct (tl_set_succ (xenv reg) Pdelta_t s q (proj1 Hq)) as (s' & Hs & G1 & G2 & _).
  change (tl_param_set (xenv reg) Pdelta_t (PQ q) s) with (tl_set_delta_t (xenv reg) (PQ q) s) in Hs.
  exists s'. split; [exact Hs|].
  pose proof (G2 Pdu ltac:(discriminate)) as E1. pose proof (G2 Pdl ltac:(discriminate)) as E2.
  pose proof (G2 Plambda0 ltac:(discriminate)) as E3. pose proof (G2 Pa ltac:(discriminate)) as E4.
  pose proof (G2 Pefficacy ltac:(discriminate)) as E5. pose proof (G2 Peta ltac:(discriminate)) as E6.
  cbn in E1, E2, E3, E4, E5, E6, G1.
  assert (HS' : tl_setup reg parse s' (with_step p (p_dt p / INR k)) (stretched k e) (fun i => F (i / k)%nat)).
  { split; [|split].
    - pose proof (tl_reach_call reg parse (TSetDeltaT (xenv reg) (PQ q)) s Hr) as K. cbn [tl_call] in K. rewrite Hs in K. exact K.
    - unfold tl_values. cbn [with_step p_du p_dl p_lambda0 p_a p_eps p_eta p_dt]. rewrite E1, E2, E3, E4, E5, E6, G1. auto 10.
    - apply stretched_series; assumption. }
  split; [exact HS'|]. split; [apply stretched_length|].
  do 3 eexists. apply (reports_of reg parse s' _ _ _ HS'). intros _.
  pose proof (k_pos k Hk) as Kp. destruct Hp as (P1 & P2 & _ & _ & _ & _ & P7). cbn.
  assert (0 < p_dt p / INR k) by (apply pos_div; assumption). lra.
Qed.

Example c55_case : forall reg parse, exists s e T TD Tk TDk,
  tl_setup reg parse s ex_conv e (fun i => sin (INR i)) /\ positive_tl ex_conv /\ npoints e = 100%nat /\
  exact_two_layer ex_conv (fun i => sin (INR i)) T TD /\
  (forall k, (0 < k)%nat -> exists s N,
     tl_setup reg parse s (with_step ex_conv (p_dt ex_conv / INR k)) (stretched k e) (fun i => sin (INR (i / k))) /\
     tl_reports reg s (stretched k e) (Tk k) (TDk k) N).
Proof.
  intros reg parse. destruct (ex_conv_model reg parse) as (s & Hr & Hv & Hu).
  destruct (a_series reg (fun i => sin (INR i)) 100) as (e & Hn & HF).
  assert (HS : tl_setup reg parse s ex_conv e (fun i => sin (INR i))) by (split; auto).
  assert (Hp : positive_tl ex_conv) by (unfold positive_tl, ex_conv; cbn; lra).
  assert (Hdt : 0 < p_dt ex_conv) by apply Hp.
  destruct (c55_exact_solution ex_conv (fun i => sin (INR i)) ex_conv_ok Hdt) as (T & TD & HE & _).
  exists s, e, T, TD.
  exists (fun k => eu (with_step ex_conv (p_dt ex_conv / INR k)) (fun i => sin (INR (i / k)))).
  exists (fun k => el (with_step ex_conv (p_dt ex_conv / INR k)) (fun i => sin (INR (i / k)))).
  repeat (split; [assumption|]). intros k Hk.
  destruct (c55_refined_runs reg parse s ex_conv e _ k (mkQ (env := xenv reg) (Fin (p_dt ex_conv / INR k)) u_s) HS Hp Hk (is_qty_self reg _ _))
    as (s' & _ & HS' & _). exists s'. eexists. split; [exact HS'|].
  apply (reports_of reg parse s' _ _ _ HS'). intros _.
  pose proof (k_pos k Hk). cbn. assert (0 < 31557600 / INR k) by (apply pos_div; lra).
  unfold ex_conv in *. cbn in *. lra.
Qed.
