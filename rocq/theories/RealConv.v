(** The parameter conversions in exact arithmetic, for quantities in arbitrary
    compatible units. *)
From Coq Require Import List String QArith Reals Qreals Bool Arith Lra Lia.
From Coq Require Lqa.
From Verif Require Import Arith Pint Base TwoLayer Impulse Scm Api Spec Exact SpecReal
  GenTL GenTLHist GenIR GenIRHist GenMeta RealUnits RealTL RealGeo.
Import ListNotations.
Local Open Scope R_scope.

Definition u_ps : Units := [(ss, -1)%Q].
Definition u_ps2 : Units := [(ss, -2)%Q].
Definition u_CJm2 : Units := [(sJ, -1)%Q; (sdC, 1)%Q; (sm, 2)%Q].

Ltac dims reg :=
  let k := fresh "k" in let Hk := fresh "Hk" in
  intros k Hk;
  rewrite ?dimx_umul, ?dimx_udiv, ?dimx_upow, ?dimx_uinv;
  unfold umul; rewrite ?dimx_app;
  cbn [dimx u_m u_s u_yr u_month u_none u_dC u_Wm2 u_Wm2C u_Wm2C2 u_JCm2 u_CWm2 u_kgm3 u_JCkg u_ps u_ps2 u_CJm2];
  cbn [sdim xenv ndim] in *;
  pose proof (rg_joule_dim reg k Hk); pose proof (rg_year_dim reg k Hk); pose proof (rg_month_dim reg k Hk);
  pose proof (rg_kelvin_dim reg k Hk);
  Lqa.lra.
Ltac sizes reg :=
  rewrite ?usize_umul, ?usize_udiv, ?usize_upow, ?usize_uinv;
  unfold umul; rewrite ?usize_app;
  cbn [usize u_m u_s u_yr u_month u_none u_dC u_Wm2 u_Wm2C u_Wm2C2 u_JCm2 u_CWm2 u_kgm3 u_JCkg u_ps u_ps2 u_CJm2]; rpow;
  rewrite ?(rg_joule reg); rgpos reg; field; repeat split; lra.

Section Conv.
Variable reg : Registry.
Notation E := (xenv reg).
Notation is_qty := (is_qty reg).
Notation same_dim := (same_dim E).
Notation usize := (usize reg).

Lemma mulT p q x y u v w : is_qty p x u -> is_qty q y v -> same_dim (umul u v) w -> usize (umul u v) = usize w ->
  is_qty (qmul E p q) (x * y) w.
Proof.
  intros Hp Hq Hd Hs. eapply is_qty_conv; [apply (is_qty_mul reg _ _ _ _ _ _ Hp Hq)|exact Hd|]. rewrite Hs. reflexivity.
Qed.
Lemma divT p q x y u v w : is_qty p x u -> is_qty q y v -> y <> 0 -> same_dim (udiv u v) w -> usize (udiv u v) = usize w ->
  exists r, qdiv E p q = Ok r /\ is_qty r (x / y) w.
Proof.
  intros Hp Hq Hy Hd Hs. destruct (qdiv_ok reg p q x y u v Hp Hq Hy) as (r & Hr & Vr & _).
  exists r. split; [exact Hr|]. eapply is_qty_conv; [exact Vr|exact Hd|]. rewrite Hs. reflexivity.
Qed.
Lemma addT p q x y u : is_qty p x u -> is_qty q y u -> exists r, qadd E p q = Ok r /\ is_qty r (x + y) u.
Proof.
  intros Hp Hq. destruct (qadd_ok reg p q x y u u Hp Hq (same_dim_refl reg u) eq_refl) as (r & H1 & H2 & _). eauto.
Qed.
Lemma subT p q x y u : is_qty p x u -> is_qty q y u -> exists r, qsub E p q = Ok r /\ is_qty r (x - y) u.
Proof.
  intros Hp Hq. destruct (qsub_ok reg p q x y u u Hp Hq (same_dim_refl reg u) eq_refl) as (r & H1 & H2 & _). eauto.
Qed.
Lemma cap2_qty q x : is_qty q x u_m ->
  is_qty (qmul E (qmul E q (HEAT_CAPACITY_WATER E)) (DENSITY_WATER E)) (water_capacity x) u_JCm2.
Proof.
  intros H.
  pose proof (is_qty_mul reg _ _ _ _ _ _ (is_qty_mul reg _ _ _ _ _ _ H (is_qty_lit reg 4181 u_JCkg))
                (is_qty_lit reg 1000 u_kgm3)) as K.
  rewrite Q2R_1000, Q2R_4181 in K.
  apply (is_qty_conv reg _ _ _ u_JCm2 (water_capacity x)) in K; [exact K|dims reg|].
  unfold water_capacity. sizes reg.
Qed.
Lemma Q2R_2 : Q2R 2 = 2. Proof. unfold Q2R; cbn; lra. Qed.
Lemma Q2R_4 : Q2R 4 = 4. Proof. unfold Q2R; cbn; lra. Qed.
Lemma scaleT (c : Q) (k : R) p x u : Q2R c = k -> is_qty p x u -> is_qty (qscale E (nQ E c) p) (k * x) u.
Proof. intros <- H. apply is_qty_scale, H. Qed.

Section G.
Variables (du dl lam eff eta : Qty E) (xdu xdl l e h : R).
Hypothesis Hdu : is_qty du xdu u_m.
Hypothesis Hdl : is_qty dl xdl u_m.
Hypothesis Hlam : is_qty lam l u_Wm2C.
Hypothesis Heff : is_qty eff e u_none.
Hypothesis Heta : is_qty eta h u_Wm2C.
Let C := water_capacity xdu.
Let CD := water_capacity xdl.

Record geo_values (g : Geoffroy E) : Prop := {
  gv_C : is_qty (g_C g) C u_JCm2;
  gv_CD : is_qty (g_CD g) CD u_JCm2;
  gv_b : is_qty (g_b g) (gb C CD l e h) u_ps;
  gv_bs : is_qty (g_bstar g) (gbs C CD l e h) u_ps;
  gv_delta : is_qty (g_delta g) (gdelta C CD l e h) u_ps2;
  gv_tau1 : is_qty (g_tau1 g) (gtau1 C CD l e h) u_s;
  gv_tau2 : is_qty (g_tau2 g) (gtau2 C CD l e h) u_s;
  gv_phi1 : is_qty (g_phi1 g) (gphi1 C CD l e h) u_none;
  gv_phi2 : is_qty (g_phi2 g) (gphi2 C CD l e h) u_none;
  gv_a1 : is_qty (g_a1 g) (ga1 C CD l e h) u_none;
  gv_a2 : is_qty (g_a2 g) (ga2 C CD l e h) u_none
}.

(** All cases. *)
Lemma geoffroy_cases :
  match geoffroy E du dl lam eff eta with
  | Ok g => xdu <> 0 /\ xdl <> 0 /\ l * h <> 0 /\ e <> 0 /\ 0 < gdelta C CD l e h /\ geo_values g
  | Err x => (x = ZeroDivisionError /\ (xdu = 0 \/ xdl = 0 \/ l * h = 0)) \/
      (xdu <> 0 /\ xdl <> 0 /\ l * h <> 0 /\
       ((x = ComplexValue /\ gdelta C CD l e h < 0) \/
        (x = ZeroDivisionError /\ 0 <= gdelta C CD l e h /\ (e = 0 \/ gdelta C CD l e h = 0))))
  end.
Proof.
  unfold geoffroy.
  pose proof (cap2_qty du xdu Hdu) as VC. fold C in VC.
  pose proof (cap2_qty dl xdl Hdl) as VCD. fold CD in VCD.
  set (qC := qmul E (qmul E du (HEAT_CAPACITY_WATER E)) (DENSITY_WATER E)) in *.
  set (qCD := qmul E (qmul E dl (HEAT_CAPACITY_WATER E)) (DENSITY_WATER E)) in *.
  assert (V1 : is_qty (qmul E eff eta) (e * h) u_Wm2C) by (apply (mulT _ _ _ _ _ _ _ Heff Heta); [dims reg|sizes reg]).
  destruct (addT _ _ _ _ _ Hlam V1) as (le & -> & Vle). cbn [bind].
  destruct (Req_EM_T xdu 0) as [Zu|Zu].
  { assert (C0 : C = 0) by (unfold C, water_capacity; rewrite Zu; ring). rewrite C0 in VC.
    rewrite (qdiv_zero reg _ _ _ VC). cbn [bind]. auto. }
  assert (ZC : C <> 0) by (apply cap_neq; assumption).
  destruct (divT _ _ _ _ _ _ u_ps Vle VC ZC) as (b1 & -> & Vb1); [dims reg|sizes reg|]. cbn [bind].
  destruct (Req_EM_T xdl 0) as [Zl|Zl].
  { assert (C0 : CD = 0) by (unfold CD, water_capacity; rewrite Zl; ring). rewrite C0 in VCD.
    rewrite (qdiv_zero reg _ _ _ VCD). cbn [bind]. auto. }
  assert (ZCD : CD <> 0) by (apply cap_neq; assumption).
  destruct (divT _ _ _ _ _ _ u_ps Heta VCD ZCD) as (b2 & -> & Vb2); [dims reg|sizes reg|]. cbn [bind].
  destruct (addT _ _ _ _ _ Vb1 Vb2) as (b & -> & Vb). cbn [bind]. change (is_qty b (gb C CD l e h) u_ps) in Vb.
  destruct (subT _ _ _ _ _ Vb1 Vb2) as (bs & -> & Vbs). cbn [bind]. change (is_qty bs (gbs C CD l e h) u_ps) in Vbs.
  pose proof (is_qty_mul reg _ _ _ _ _ _ VC VCD) as VCC.
  pose proof (is_qty_mul reg _ _ _ _ _ _ (scaleT 4 4 _ _ _ Q2R_4 Hlam) Heta) as V4.
  assert (ZCC : C * CD <> 0) by (apply Rmult_integral_contrapositive; auto).
  destruct (divT _ _ _ _ _ _ u_ps2 V4 VCC ZCC) as (d4 & -> & Vd4); [dims reg|sizes reg|]. cbn [bind].
  assert (Vbb : is_qty (qsq E b) (gb C CD l e h * gb C CD l e h) u_ps2).
  { eapply is_qty_conv; [apply (is_qty_sq reg _ _ _ Vb)|dims reg|].
    rewrite usize_sq. f_equal. sizes reg. }
  destruct (subT _ _ _ _ _ Vbb Vd4) as (dd & -> & Vdd). cbn [bind]. change (is_qty dd (gdelta C CD l e h) u_ps2) in Vdd.
  pose proof (is_qty_mul reg _ _ _ _ _ _ (scaleT 2 2 _ _ _ Q2R_2 Hlam) Heta) as V2.
  destruct (Req_EM_T (l * h) 0) as [Zlh|Zlh].
  { replace (2 * l * h) with 0 in V2 by (rewrite Rmult_assoc, Zlh; ring).
    rewrite (qdiv_zero reg _ _ _ V2). cbn [bind]. auto. }
  assert (Z2 : 2 * l * h <> 0) by (rewrite Rmult_assoc; apply Rmult_integral_contrapositive; split; [lra|assumption]).
  assert (Zh : h <> 0) by (intros ->; apply Zlh; ring).
  destruct (divT _ _ _ _ _ _ [(ss, 2%Q)] VCC V2 Z2) as (tc & -> & Vtc); [dims reg|sizes reg|]. cbn [bind].
  destruct (Rlt_dec (gdelta C CD l e h) 0) as [Nd|Nd].
  { rewrite (qsqrt_neg reg _ _ _ Vdd Nd). cbn [bind]. right. auto 10. }
  apply Rnot_lt_le in Nd.
  destruct (qsqrt_ok reg _ _ _ Vdd Nd) as (rd & -> & Vrd & _). cbn [bind].
  apply (is_qty_conv reg _ _ _ u_ps (sqrt (gdelta C CD l e h))) in Vrd.
  2: dims reg.
  2:{ f_equal. rewrite usize_sqrt. usz. cbn [usize u_ps u_ps2]. rpow. rewrite !Rmult_1_r, <- (sqrt_square (/ rg_size reg ss)).
      - f_equal. rgpos reg. field. lra.
      - left. apply Rinv_0_lt_compat, rg_pos. }
  destruct (subT _ _ _ _ _ Vb Vrd) as (bm & -> & Vbm). cbn [bind].
  assert (Vt1 : is_qty (qmul E tc bm) (gtau1 C CD l e h) u_s) by (apply (mulT _ _ _ _ _ _ _ Vtc Vbm); [dims reg|sizes reg]).
  destruct (addT _ _ _ _ _ Vb Vrd) as (bp & -> & Vbp). cbn [bind].
  assert (Vt2 : is_qty (qmul E tc bp) (gtau2 C CD l e h) u_s) by (apply (mulT _ _ _ _ _ _ _ Vtc Vbp); [dims reg|sizes reg]).
  pose proof (is_qty_mul reg _ _ _ _ _ _ (scaleT 2 2 _ _ _ Q2R_2 Heff) Heta) as V2e.
  destruct (Req_EM_T e 0) as [Ze|Ze].
  { replace (2 * e * h) with 0 in V2e by (rewrite Ze; ring).
    rewrite (qdiv_zero reg _ _ _ V2e). cbn [bind]. right. auto 10. }
  assert (Z2e : 2 * e * h <> 0) by (repeat (apply Rmult_integral_contrapositive; split); lra || assumption).
  destruct (divT _ _ _ _ _ _ u_s VC V2e Z2e) as (pc & -> & Vpc); [dims reg|sizes reg|]. cbn [bind].
  destruct (subT _ _ _ _ _ Vbs Vrd) as (sm_ & -> & Vsm). cbn [bind].
  assert (Vp1 : is_qty (qmul E pc sm_) (gphi1 C CD l e h) u_none) by (apply (mulT _ _ _ _ _ _ _ Vpc Vsm); [dims reg|sizes reg]).
  destruct (addT _ _ _ _ _ Vbs Vrd) as (sp_ & -> & Vsp). cbn [bind].
  assert (Vp2 : is_qty (qmul E pc sp_) (gphi2 C CD l e h) u_none) by (apply (mulT _ _ _ _ _ _ _ Vpc Vsp); [dims reg|sizes reg]).
  destruct (subT _ _ _ _ _ Vp2 Vp1) as (dphi & -> & Vdphi). cbn [bind].
  pose proof (is_qty_mul reg _ _ _ _ _ _ VC Vdphi) as Vad.
  assert (Edphi : gphi2 C CD l e h - gphi1 C CD l e h = C / (e * h) * sqrt (gdelta C CD l e h)).
  { unfold gphi1, gphi2. field. auto. }
  pose proof (is_qty_mul reg _ _ _ _ _ _ (is_qty_mul reg _ _ _ _ _ _ Vt1 Vp2) Hlam) as Vn1.
  destruct (Req_EM_T (gdelta C CD l e h) 0) as [Zd|Zd].
  { rewrite Edphi, Zd, sqrt_0, !Rmult_0_r in Vad. rewrite (qdiv_zero reg _ _ _ Vad). cbn [bind]. right. auto 10. }
  assert (Pd : 0 < gdelta C CD l e h) by lra.
  assert (Zad : C * (gphi2 C CD l e h - gphi1 C CD l e h) <> 0).
  { rewrite Edphi. pose proof (sqrt_lt_R0 _ Pd).
    assert (Zeh : e * h <> 0) by (apply Rmult_integral_contrapositive; auto). apply Rinv_neq_0_compat in Zeh.
    unfold Rdiv. repeat (apply Rmult_integral_contrapositive; split); lra || assumption. }
  destruct (divT _ _ _ _ _ _ u_none Vn1 Vad Zad) as (a1 & -> & Va1); [dims reg|sizes reg|]. cbn [bind].
  pose proof (is_qty_mul reg _ _ _ _ _ _ (is_qty_mul reg _ _ _ _ _ _ (is_qty_neg reg _ _ _ Vt2) Vp1) Hlam) as Vn2.
  destruct (divT _ _ _ _ _ _ u_none Vn2 Vad Zad) as (a2 & -> & Va2); [dims reg|sizes reg|]. cbn [bind].
  repeat (split; [assumption|]).
  constructor; cbn [g_C g_CD g_b g_bstar g_delta g_tau1 g_tau2 g_phi1 g_phi2 g_a1 g_a2]; assumption.
Qed.

Lemma geoffroy_ok : 0 < xdu -> 0 < xdl -> 0 < l -> 0 < e -> 0 < h ->
  exists g, geoffroy E du dl lam eff eta = Ok g /\ geo_values g.
Proof.
  intros Pu Pl P1 P2 P3. pose proof geoffroy_cases as H.
  assert (PC : 0 < C) by (apply cap_pos; assumption).
  assert (PCD : 0 < CD) by (apply cap_pos; assumption).
  pose proof (gdelta_pos C CD l e h PC PCD P1 P2 P3) as Pd. pose proof (pos_mul _ _ P1 P3).
  destruct (geoffroy E du dl lam eff eta) as [g|x].
  - exists g. split; [reflexivity|]. apply H.
  - exfalso. destruct H as [(_ & H)|(_ & _ & _ & [(_ & H)|(_ & _ & H)])]; lra.
Qed.
End G.

(** ** get_impulse_response_parameters *)
Section T2I.
Variables (s : TL E) (p : TLP).
Hypothesis Hv : tl_values reg s p.

Lemma t2i_a : p_a p <> 0 -> tl_get_impulse_response_parameters E s = Err ValueError.
Proof.
  intros Ha. destruct Hv as (_ & _ & _ & V & _). pose proof V as (_ & m & Hm & _).
  unfold tl_get_impulse_response_parameters. rewrite Hm. cbn [neqb nQ ar xenv exact]. rewrite Q2R_0.
  destruct (xeqb (Fin m) (Fin 0)) eqn:Ex; [|reflexivity].
  apply xeqb_Fin in Ex. apply (is_qty_mag_zero reg _ _ _ _ V Hm) in Ex. contradiction.
Qed.
Lemma t2i_a0 : p_a p = 0 -> neqb E (mag (tl_a E s)) (nQ E 0) = true.
Proof.
  intros Ha. destruct Hv as (_ & _ & _ & V & _). pose proof V as (_ & m & Hm & _).
  rewrite Hm. cbn [neqb nQ ar xenv exact]. rewrite Q2R_0. apply xeqb_Fin.
  apply (is_qty_mag_zero reg _ _ _ _ V Hm). exact Ha.
Qed.
Lemma t2i_cases : p_a p = 0 ->
  let d := gdelta (p_C p) (p_CD p) (p_lambda0 p) (p_eps p) (p_eta p) in
  match tl_get_impulse_response_parameters E s with
  | Ok _ => p_du p <> 0 /\ p_dl p <> 0 /\ p_lambda0 p * p_eta p <> 0 /\ p_eps p <> 0 /\ 0 < d
  | Err x => (x = ZeroDivisionError /\ (p_du p = 0 \/ p_dl p = 0 \/ p_lambda0 p * p_eta p = 0)) \/
      (p_du p <> 0 /\ p_dl p <> 0 /\ p_lambda0 p * p_eta p <> 0 /\
       ((x = ComplexValue /\ d < 0) \/ (x = ZeroDivisionError /\ 0 <= d /\ (p_eps p = 0 \/ d = 0))))
  end.
Proof.
  intros Ha d. unfold tl_get_impulse_response_parameters. rewrite t2i_a0 by assumption. cbn [negb].
  destruct Hv as (V1 & V2 & V3 & _ & V5 & V6 & _).
  pose proof (geoffroy_cases _ _ _ _ _ _ _ _ _ _ V1 V2 V3 V5 V6) as H. fold (p_C p) (p_CD p) d in H.
  destruct (geoffroy E _ _ _ _ _) as [g|x]; cbn [bind]; [|exact H].
  destruct H as (Zu & Zl & Zlh & Ze & Pd & [VC VCD _ _ _ Vt1 Vt2 Vp1 Vp2 _ _]).
  fold (p_C p) in *. fold (p_CD p) in *.
  destruct (subT _ _ _ _ _ Vp2 Vp1) as (dphi & -> & Vdphi). cbn [bind].
  pose proof (is_qty_mul reg _ _ _ _ _ _ VC Vdphi) as Vad.
  assert (Zh : p_eta p <> 0) by (intros K; apply Zlh; rewrite K; ring).
  assert (Zad : p_C p * (gphi2 (p_C p) (p_CD p) (p_lambda0 p) (p_eps p) (p_eta p) -
    gphi1 (p_C p) (p_CD p) (p_lambda0 p) (p_eps p) (p_eta p)) <> 0).
  { replace (gphi2 (p_C p) (p_CD p) (p_lambda0 p) (p_eps p) (p_eta p) -
      gphi1 (p_C p) (p_CD p) (p_lambda0 p) (p_eps p) (p_eta p)) with (p_C p / (p_eps p * p_eta p) * sqrt d)
      by (unfold gphi1, gphi2, d; field; auto).
    pose proof (sqrt_lt_R0 _ Pd). assert (ZC : p_C p <> 0) by (apply cap_neq; assumption).
    assert (Zeh : p_eps p * p_eta p <> 0) by (apply Rmult_integral_contrapositive; auto). apply Rinv_neq_0_compat in Zeh.
    unfold Rdiv. repeat (apply Rmult_integral_contrapositive; split); lra || assumption. }
  pose proof (is_qty_mul reg _ _ _ _ _ _ Vt1 Vp2) as Vn1.
  destruct (divT _ _ _ _ _ _ u_CWm2 Vn1 Vad Zad) as (x1 & -> & Vx1); [dims reg|sizes reg|]. cbn [bind].
  pose proof (is_qty_mul reg _ _ _ _ _ _ (is_qty_neg reg _ _ _ Vt2) Vp1) as Vn2.
  destruct (divT _ _ _ _ _ _ u_CWm2 Vn2 Vad Zad) as (x2 & -> & Vx2); [dims reg|sizes reg|]. cbn [bind].
  auto.
Qed.
Lemma t2i_ok : p_a p = 0 -> 0 < p_du p -> 0 < p_dl p -> 0 < p_lambda0 p -> 0 < p_eps p -> 0 < p_eta p ->
  exists r, tl_get_impulse_response_parameters E s = Ok r /\
    let g f := f (p_C p) (p_CD p) (p_lambda0 p) (p_eps p) (p_eta p) in
    is_qty (irp_d1 E r) (g gtau1) u_s /\ is_qty (irp_d2 E r) (g gtau2) u_s /\
    is_qty (irp_q1 E r) (g gq1) u_CWm2 /\ is_qty (irp_q2 E r) (g gq2) u_CWm2 /\
    irp_efficacy E r = tl_efficacy E s.
Proof.
  intros Ha P1 P2 P3 P4 P5. unfold tl_get_impulse_response_parameters. rewrite t2i_a0 by assumption. cbn [negb].
  destruct Hv as (V1 & V2 & V3 & _ & V5 & V6 & _).
  destruct (geoffroy_ok _ _ _ _ _ _ _ _ _ _ V1 V2 V3 V5 V6 P1 P2 P3 P4 P5) as (g & -> & Hg). cbn [bind].
  destruct Hg as [VC VCD _ _ _ Vt1 Vt2 Vp1 Vp2 _ _].
  fold (p_C p) in *. fold (p_CD p) in *.
  assert (PC : 0 < p_C p) by (apply cap_pos; assumption).
  assert (PCD : 0 < p_CD p) by (apply cap_pos; assumption).
  destruct (subT _ _ _ _ _ Vp2 Vp1) as (dphi & -> & Vdphi). cbn [bind].
  pose proof (is_qty_mul reg _ _ _ _ _ _ VC Vdphi) as Vad.
  pose proof (gphi_diff_pos _ _ _ _ _ PC PCD P3 P4 P5) as Pdphi.
  pose proof (pos_mul _ _ PC Pdphi) as Zad.
  pose proof (is_qty_mul reg _ _ _ _ _ _ Vt1 Vp2) as Vn1.
  destruct (divT _ _ _ _ _ _ u_CWm2 Vn1 Vad) as (x1 & -> & Vx1); [lra|dims reg|sizes reg|]. cbn [bind].
  pose proof (is_qty_mul reg _ _ _ _ _ _ (is_qty_neg reg _ _ _ Vt2) Vp1) as Vn2.
  destruct (divT _ _ _ _ _ _ u_CWm2 Vn2 Vad) as (x2 & -> & Vx2); [lra|dims reg|sizes reg|]. cbn [bind].
  eexists. split; [reflexivity|]. cbn [irp_d1 irp_d2 irp_q1 irp_q2 irp_efficacy].
  repeat split; assumption || apply Vt1 || apply Vt2 || apply Vx1 || apply Vx2.
Qed.
End T2I.

(** ** get_two_layer_parameters *)
Definition year_s : R := rg_size reg syr / rg_size reg ss.
Lemma year_s_pos : 0 < year_s.
Proof. unfold year_s. apply pos_div; apply rg_pos. Qed.
Lemma yr_to_s q x : is_qty q x u_yr -> is_qty q (year_s * x) u_s.
Proof.
  intros H. apply (is_qty_conv reg _ _ _ u_s (year_s * x)) in H; [exact H|dims reg|].
  unfold year_s. usz. rgpos reg. field. lra.
Qed.
Lemma s_to_yr q x : is_qty q x u_s -> is_qty q (x / year_s) u_yr.
Proof.
  intros H. apply (is_qty_conv reg _ _ _ u_yr (x / year_s)) in H; [exact H|dims reg|].
  unfold year_s. usz. rgpos reg. field. lra.
Qed.

Section I2T.
Variables (s : IR E) (x1 x2 t1 t2 e : R).
Hypothesis H1 : is_qty (ir_q1 E s) x1 u_CWm2.
Hypothesis H2 : is_qty (ir_q2 E s) x2 u_CWm2.
Hypothesis H3 : is_qty (ir_d1 E s) t1 u_s.
Hypothesis H4 : is_qty (ir_d2 E s) t2 u_s.
Hypothesis H5 : is_qty (ir_efficacy E s) e u_none.

(** The exact condition for success, and the values. *)
Lemma i2t_ok : x1 + x2 <> 0 -> x1 * t2 + x2 * t1 <> 0 -> e <> 0 ->
  exists r, ir_get_two_layer_parameters E s = Ok r /\
    is_qty (tlp_lambda0 E r) (hlam x1 x2) u_Wm2C /\
    is_qty (tlp_du E r) (hC x1 x2 t1 t2 / (1000 * 4181)) u_m /\
    is_qty (tlp_dl E r) (hCD x1 x2 t1 t2 e / (1000 * 4181)) u_m /\
    is_qty (tlp_eta E r) (heta x1 x2 t1 t2 e) u_Wm2C /\
    tlp_efficacy E r = ir_efficacy E s /\
    exists qq, qadd E (ir_q1 E s) (ir_q2 E s) = Ok qq /\ units (tlp_lambda0 E r) = udiv [] (units qq) /\
      (units qq = units (ir_q1 E s) \/ units qq = units (ir_q2 E s)).
Proof.
  intros Z1 Z2 Z3. unfold ir_get_two_layer_parameters.
  destruct (qadd_ok reg _ _ _ _ _ _ H1 H2 (same_dim_refl reg _) eq_refl) as (qq & Eqq & Vqq & Uqq). rewrite Eqq. cbn [bind].
  change (nQ E 1) with (Fin (Q2R 1)). rewrite Q2R_1.
  destruct (rdiv_ok reg 1 _ _ _ Vqq Z1) as (lam & -> & Vlam & Ulam). cbn [bind].
  apply (is_qty_conv reg _ _ _ u_Wm2C (hlam x1 x2)) in Vlam; [|dims reg|unfold hlam; f_equal; sizes reg].
  pose proof (is_qty_mul reg _ _ _ _ _ _ H1 H4) as V14.
  assert (V23 : is_qty (qmul E (ir_q2 E s) (ir_d1 E s)) (x2 * t1) (umul u_CWm2 u_s)) by (apply is_qty_mul; assumption).
  destruct (addT _ _ _ _ _ V14 V23) as (cden & -> & Vcd). cbn [bind].
  pose proof (is_qty_mul reg _ _ _ _ _ _ H3 H4) as V34.
  destruct (divT _ _ _ _ _ _ u_JCm2 V34 Vcd) as (C & -> & VC); [exact Z2|dims reg|sizes reg|]. cbn [bind].
  change (is_qty C (hC x1 x2 t1 t2) u_JCm2) in VC.
  assert (Va1 : is_qty (qmul E lam (ir_q1 E s)) (ha1 x1 x2) u_none) by (apply (mulT _ _ _ _ _ _ _ Vlam H1); [dims reg|sizes reg]).
  assert (Va2 : is_qty (qmul E lam (ir_q2 E s)) (ha2 x1 x2) u_none) by (apply (mulT _ _ _ _ _ _ _ Vlam H2); [dims reg|sizes reg]).
  pose proof (is_qty_mul reg _ _ _ _ _ _ H3 Va1) as W1. pose proof (is_qty_mul reg _ _ _ _ _ _ H4 Va2) as W2.
  destruct (addT _ _ _ _ _ W1 W2) as (da & -> & Vda). cbn [bind].
  assert (Wl : is_qty (qmul E lam da) (hlam x1 x2 * (t1 * ha1 x1 x2 + t2 * ha2 x1 x2)) u_JCm2)
    by (apply (mulT _ _ _ _ _ _ _ Vlam Vda); [dims reg|sizes reg]).
  destruct (subT _ _ _ _ _ Wl VC) as (cd0 & -> & Vcd0). cbn [bind].
  destruct (divT _ _ _ _ _ _ u_JCm2 Vcd0 H5) as (CD & -> & VCD); [exact Z3|dims reg|sizes reg|]. cbn [bind].
  change (is_qty CD (hCD x1 x2 t1 t2 e) u_JCm2) in VCD.
  pose proof (is_qty_mul reg _ _ _ _ _ _ H3 Va2) as W3. pose proof (is_qty_mul reg _ _ _ _ _ _ H4 Va1) as W4.
  destruct (addT _ _ _ _ _ W3 W4) as (eden & -> & Veden). cbn [bind].
  assert (Z4 : t1 * ha2 x1 x2 + t2 * ha1 x1 x2 <> 0).
  { unfold ha1, ha2, hlam. replace (t1 * (1 / (x1 + x2) * x2) + t2 * (1 / (x1 + x2) * x1))
      with ((x1 * t2 + x2 * t1) * / (x1 + x2)) by (field; assumption).
    apply Rmult_integral_contrapositive. split; [assumption|apply Rinv_neq_0_compat; assumption]. }
  destruct (divT _ _ _ _ _ _ u_Wm2C VCD Veden) as (eta & -> & Veta); [exact Z4|dims reg|sizes reg|]. cbn [bind].
  assert (VW : is_qty (qmul E (DENSITY_WATER E) (HEAT_CAPACITY_WATER E)) (1000 * 4181) (umul u_kgm3 u_JCkg)).
  { rewrite <- Q2R_1000, <- Q2R_4181. apply is_qty_mul; apply is_qty_lit. }
  destruct (divT _ _ _ _ _ _ u_m VC VW) as (du & -> & Vdu); [lra|dims reg|sizes reg|]. cbn [bind].
  destruct (divT _ _ _ _ _ _ u_m VCD VW) as (dl & -> & Vdl); [lra|dims reg|sizes reg|]. cbn [bind].
  eexists. split; [reflexivity|]. cbn [tlp_lambda0 tlp_du tlp_dl tlp_eta tlp_efficacy].
  split; [exact Vlam|]. split; [exact Vdu|]. split; [exact Vdl|]. split; [exact Veta|]. split; [reflexivity|].
  exists qq. auto.
Qed.
End I2T.
End Conv.
