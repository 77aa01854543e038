(** Properties C28-C31: units of the inputs, and the order of the timescales. *)
From Coq Require Import List String QArith Reals Qreals Bool Arith Lra Lia Psatz.
From Verif Require Import Arith Pint Base TwoLayer Impulse Scm Api Spec Exact SpecReal
  GenTL GenTLHist GenIR GenIRHist GenMeta RealUnits RealTL RealGeo RealConv RealIR RealTrace RealModels RealEuler RealBox RealEquiv
  FactsRun FactsTL FactsTL2 FactsIR FactsConv FactsEquiv.
Import ListNotations.
Local Open Scope R_scope.

Lemma list_ext {A} : forall (X Y : list A), (forall i, nth_error X i = nth_error Y i) -> X = Y.
Proof.
  induction X as [|x X IH]; intros [|y Y] H; [reflexivity|discriminate (H 0%nat)|discriminate (H 0%nat)|].
  pose proof (H 0%nat) as H0. injection H0 as ->. f_equal. apply IH. intros i. exact (H (S i)).
Qed.

(** ** C28 *)
Lemma tl_series_unique env dt l a e h cu cl F U L R U' L' R' :
  tl_series env dt l a e h cu cl F U L R -> tl_series env dt l a e h cu cl F U' L' R' -> U = U' /\ L = L' /\ R = R'.
Proof.
  intros (A1 & A2 & A3 & A4 & A5) (B1 & B2 & B3 & B4 & B5).
  assert (K : forall i, (i < List.length F)%nat ->
    nth_error U i = nth_error U' i /\ nth_error L i = nth_error L' i /\ nth_error R i = nth_error R' i).
  { induction i as [|i IH]; intros Hi.
    - assert (HF : F <> []) by (intros ->; cbn in Hi; lia).
      destruct (A4 HF) as (-> & -> & ->). destruct (B4 HF) as (-> & -> & ->). auto.
    - destruct (IH ltac:(lia)) as (E1 & E2 & _).
      destruct (nth_error F i) as [f|] eqn:Ef; [|apply nth_error_None in Ef; lia].
      destruct (nth_error U i) as [u|] eqn:Eu; [|apply nth_error_None in Eu; lia].
      destruct (nth_error L i) as [v|] eqn:Ev; [|apply nth_error_None in Ev; lia].
      destruct (A5 i f u v Hi Ef Eu Ev) as (-> & -> & ->).
      destruct (B5 i f u v Hi Ef (eq_sym E1) (eq_sym E2)) as (-> & -> & ->). auto. }
  assert (Ext : forall X Y : list (num env), List.length X = List.length F -> List.length Y = List.length F ->
    (forall i, (i < List.length F)%nat -> nth_error X i = nth_error Y i) -> X = Y).
  { intros X Y HX HY H. apply list_ext. intros i. destruct (Nat.lt_ge_cases i (List.length F)) as [Hi|Hi]; [apply H, Hi|].
    rewrite (proj2 (nth_error_None X i)), (proj2 (nth_error_None Y i)) by lia. reflexivity. }
  repeat split; apply Ext; auto; intros i Hi; apply K, Hi.
Qed.

(** Runs of two models with physically equal parameters and drivers, in any
    units, report identical numbers (also where they are non-finite). *)
Theorem c28_units_do_not_matter : forall reg parse s s' p e e' F,
  tl_setup reg parse s p e F -> tl_setup reg parse s' p e' F -> npoints e = npoints e' ->
  exists s1 s1', tl_drive (xenv reg) e s = (s1, Ok tt) /\ tl_drive (xenv reg) e' s' = (s1', Ok tt) /\
    tl_outputs (xenv reg) s1 = tl_outputs (xenv reg) s1'.
Proof.
  intros reg parse s s' p e e' F (Hr & Hv & HF) (Hr' & Hv' & HF') Hn.
  destruct (run_series reg parse s p e F Hr Hv HF) as (s1 & U & L & R & H1 & H2 & H3).
  destruct (run_series reg parse s' p e' F Hr' Hv' HF') as (s1' & U' & L' & R' & H1' & H2' & H3').
  exists s1, s1'. split; [exact H1|]. split; [exact H1'|]. rewrite H2, H2'. rewrite Hn in H3.
  destruct (tl_series_unique _ _ _ _ _ _ _ _ _ _ _ _ _ _ _ H3 H3') as (-> & -> & ->). reflexivity.
Qed.

(** 50 m and 0.05 km, a year and 31557600 s: two such models exist. *)
Example c28_case : forall parse, exists s s' e,
  tl_setup si parse s ex_tl e (fun i => INR i) /\ tl_setup si parse s' ex_tl e (fun i => INR i) /\ npoints e = 5%nat /\
  units (tl_du (xenv si) s) = u_m /\ units (tl_du (xenv si) s') = [("kilometer"%string, 1%Q)] /\ tl_du (xenv si) s <> tl_du (xenv si) s'.
Proof.
  intros parse. destruct (a_series si (fun i => INR i) 5) as (e & Hn & HF).
  assert (Hkm : is_qty si (mkQ (env := xenv si) (Fin (p_du ex_tl / 1000)) [("kilometer"%string, 1%Q)]) (p_du ex_tl) u_m).
  { split; [intros k Hk; do 4 (destruct k; [reflexivity|]); cbn in Hk; lia|]. eexists. split; [reflexivity|].
    unfold u_m. cbn [units usize]. rewrite !Rpow_1 by apply rg_pos.
    assert (E1 : rg_size si "kilometer" = 1000).
    { cbn [rg_size si]. unfold si_size. replace (si_sizeq "kilometer") with 1000%Q by reflexivity. unfold Q2R; cbn; lra. }
    assert (E2 : rg_size si sm = 1).
    { cbn [rg_size si]. unfold si_size. replace (si_sizeq sm) with 1%Q by reflexivity. unfold Q2R; cbn; lra. }
    change "meter"%string with sm in *. rewrite E1, E2. lra. }
  destruct (tl_make si parse _ _ _ _ _ _ _ ex_tl (is_qty_self si _ _) (is_qty_self si _ _) (is_qty_self si _ _) (is_qty_self si _ _)
    (is_qty_self si _ _) (is_qty_self si _ _) (is_qty_self si _ _)) as (s & Hs & Hr & Hv).
  destruct (tl_make si parse _ _ _ _ _ _ _ ex_tl Hkm (is_qty_self si _ _) (is_qty_self si _ _) (is_qty_self si _ _)
    (is_qty_self si _ _) (is_qty_self si _ _) (is_qty_self si _ _)) as (s' & Hs' & Hr' & Hv').
  assert (D : forall g t, tl_new (xenv si) g = Ok t -> PQ (tl_du (xenv si) t) = ta_du (xenv si) g).
  { intros g t H. destruct (c06_two_layer_construction (xenv si) g) as (_ & K). symmetry. exact (K t H Pdu). }
  pose proof (D _ _ Hs) as D1. pose proof (D _ _ Hs') as D2. cbn [ta_du] in D1, D2. injection D1 as D1. injection D2 as D2.
  exists s, s', e. split; [split; auto|]. split; [split; auto|]. split; [exact Hn|]. rewrite D1, D2. cbn [units].
  split; [reflexivity|]. split; [reflexivity|]. discriminate.
Qed.

(** ** C29 *)
Theorem c29_temperatures : forall reg parse s s' p e e' F T1 T2 T N T1' T2' T' N',
  ir_setup reg parse s p e F -> ir_setup reg parse s' p e' F -> npoints e = npoints e' ->
  ir_reports reg s e T1 T2 T N -> ir_reports reg s' e' T1' T2' T' N' ->
  forall i, (i < npoints e)%nat -> T1 i = T1' i /\ T2 i = T2' i /\ T i = T' i.
Proof.
  intros reg parse s s' p e e' F T1 T2 T N T1' T2' T' N' HS HS' Hn HR HR' i Hi.
  destruct (ir_setup_inv _ _ _ _ _ _ _ _ _ _ HS HR) as (HI & _). destruct (HI i Hi) as (-> & -> & ->).
  destruct (ir_setup_inv _ _ _ _ _ _ _ _ _ _ HS' HR') as (HI' & _). rewrite Hn in Hi. destruct (HI' i Hi) as (-> & -> & ->). auto.
Qed.

(** The constants of the heat uptake in general: lambda0's magnitude is [x]. *)
Lemma heat_gen reg parse s p x : ir_reachable (xenv reg) parse s -> ir_values reg s p ->
  0 < p_q1 p -> 0 < p_q2 p -> 0 < p_d1 p -> 0 < p_d2 p -> p_d1 p <> p_d2 p -> 0 < p_ieps p ->
  (p_ieps p <> 1 -> exists hp, step_status (xenv reg) s = Ok hp) -> lam_mag reg s p x ->
  let Y := year_s reg in
  let l := hlam (p_q1 p) (p_q2 p) in
  let C := hC (p_q1 p) (p_q2 p) (Y * p_d1 p) (Y * p_d2 p) in
  let CD := hCD (p_q1 p) (p_q2 p) (Y * p_d1 p) (Y * p_d2 p) (p_ieps p) in
  let h := heta (p_q1 p) (p_q2 p) (Y * p_d1 p) (Y * p_d2 p) (p_ieps p) in
  heat_const reg s x ((p_ieps p - 1) * h * (1 - gphi1 C CD l (p_ieps p) h)) ((p_ieps p - 1) * h * (1 - gphi2 C CD l (p_ieps p) h)).
Proof.
  intros Hr Hv P1 P2 P3 P4 Pd P5 Hst Hx Y l C CD h.
  assert (Z1 : p_q1 p + p_q2 p <> 0) by lra.
  assert (Z2 : p_q1 p * p_d2 p + p_q2 p * p_d1 p <> 0).
  { pose proof (pos_mul _ _ P1 P4). pose proof (pos_mul _ _ P2 P3). lra. }
  assert (Z : p_ieps p <> 0) by lra. assert (D1 : p_d1 p <> 0) by lra. assert (D2 : p_d2 p <> 0) by lra.
  destruct (Req_dec (p_ieps p) 1) as [He|He].
  - pose proof (heat_const_1 reg parse s p Hr Hv D1 D2 Z1 Z2 Z x He Hx) as K.
    replace ((p_ieps p - 1) * h * (1 - gphi1 C CD l (p_ieps p) h)) with 0 by (rewrite He; ring).
    replace ((p_ieps p - 1) * h * (1 - gphi2 C CD l (p_ieps p) h)) with 0 by (rewrite He; ring). exact K.
  - exact (heat_const_eff reg parse s p Hr Hv D1 D2 Z1 Z2 Z P1 P2 P3 P4 P5 Pd He x (Hst He) Hx).
Qed.

(** With the same "delta_" symbols the unit of q1 decides. *)
Lemma lam_mag_q1 reg s p c : ir_values reg s p -> p_q1 p + p_q2 p <> 0 -> p_q1 p * p_d2 p + p_q2 p * p_d1 p <> 0 -> p_ieps p <> 0 ->
  same_delta (units (ir_q1 (xenv reg) s)) (units (ir_q2 (xenv reg) s)) ->
  usize reg (units (ir_q1 (xenv reg) s)) = c * usize reg u_CWm2 ->
  lam_mag reg s p (c * hlam (p_q1 p) (p_q2 p)).
Proof.
  intros Hv Z1 Z2 Z Hd Hc. destruct (two_layer_values reg s p Hv Z1 Z2 Z) as (r & _ & _ & _ & _ & _ & _ & qq & Hq & _).
  exists qq. split; [exact Hq|]. apply addsub_left in Hq; [|right; apply has_delta_ext; exact Hd]. rewrite Hq, Hc.
  transitivity (hlam (p_q1 p) (p_q2 p) * c * (usize reg u_Wm2C * usize reg u_CWm2)); [|ring].
  replace (usize reg u_Wm2C * usize reg u_CWm2) with 1; [ring|]. sizes reg.
Qed.

(** What the heat uptake is when q1's unit is [c] times delta_degC/(W/m^2): the
    equivalent two-layer model's with lambda0 multiplied by [c]. *)
Theorem c29_heat_uptake_factor : forall reg parse s p e F c T1 T2 T N,
  ir_setup reg parse s p e F -> convertible_ir p ->
  same_delta (units (ir_q1 (xenv reg) s)) (units (ir_q2 (xenv reg) s)) ->
  usize reg (units (ir_q1 (xenv reg) s)) = c * usize reg u_CWm2 ->
  ir_reports reg s e T1 T2 T N ->
  exists r g lambda0 eta phi1 phi2,
    ir_get_two_layer_parameters (xenv reg) s = Ok r /\
    geoffroy (xenv reg) (tlp_du _ r) (tlp_dl _ r) (tlp_lambda0 _ r) (tlp_efficacy _ r) (tlp_eta _ r) = Ok g /\
    is_qty reg (tlp_lambda0 _ r) lambda0 u_Wm2C /\ is_qty reg (tlp_eta _ r) eta u_Wm2C /\
    is_qty reg (g_phi1 g) phi1 u_none /\ is_qty reg (g_phi2 g) phi2 u_none /\
    lambda0 = 1 / (p_q1 p + p_q2 p) /\
    forall i, (S i < npoints e)%nat ->
      let TD := phi1 * T1 i + phi2 * T2 i in
      N (S i) = F i - c * lambda0 * T i - (p_ieps p - 1) * eta * (T i - TD).
Proof.
  intros reg parse s p e F c T1 T2 T N HS HP Hd Hc HR. pose proof HS as (Hr & Hv & HF).
  destruct (ir_setup_inv _ _ _ _ _ _ _ _ _ _ HS HR) as (HI & k & m1 & m2 & HC & HN).
  pose proof HP as (P1 & P2 & P3 & P4 & P5).
  pose proof (i2t_values reg s p Hv HP) as K. cbn zeta in K. destruct K as (r & Hi2t & A1 & A2 & A3 & A4 & A5).
  assert (Ve : is_qty reg (tlp_efficacy _ r) (p_ieps p) u_none) by (rewrite A5; apply Hv).
  pose proof (year_s_pos reg) as PY.
  assert (D1 : 0 < year_s reg * p_d1 p) by (apply pos_mul; lra). assert (D2 : 0 < year_s reg * p_d2 p) by (apply pos_mul; lra).
  assert (Dn : year_s reg * p_d1 p <> year_s reg * p_d2 p).
  { assert (year_s reg * p_d1 p < year_s reg * p_d2 p) by (apply Rmult_lt_compat_l; lra). lra. }
  pose proof (hlam_pos _ _ _ _ _ P1 P2 D1 D2 Dn P5) as Q1. pose proof (hC_pos _ _ _ _ _ P1 P2 D1 D2 Dn P5) as Q2.
  pose proof (hCD_pos _ _ _ _ _ P1 P2 D1 D2 Dn P5) as Q3. pose proof (heta_pos _ _ _ _ _ P1 P2 D1 D2 Dn P5) as Q4.
  destruct (geoffroy_ok reg _ _ _ _ _ _ _ _ _ _ A2 A3 A1 Ve A4) as (g & Hg & Vg); try assumption; try (apply pos_div; lra).
  destruct Vg as [_ _ _ _ _ _ _ G1 G2 _ _].
  set (C := hC _ _ _ _) in *. set (CD := hCD _ _ _ _ _) in *.
  replace (water_capacity (C / (1000 * 4181))) with C in * by (unfold water_capacity; field).
  replace (water_capacity (CD / (1000 * 4181))) with CD in * by (unfold water_capacity; field).
  exists r, g. do 4 eexists. split; [exact Hi2t|]. split; [exact Hg|]. do 4 (split; [eassumption|]). split; [reflexivity|].
  intros i Hi TD. subst TD. destruct (HC ltac:(lia)) as (HC0 & _).
  assert (Hst : exists hp, step_status (xenv reg) s = Ok hp).
  { unfold heat_const in HC0. destruct (step_status (xenv reg) s); [eauto|contradiction]. }
  assert (Z2 : p_q1 p * p_d2 p + p_q2 p * p_d1 p <> 0).
  { assert (0 < p_d2 p) by lra. pose proof (pos_mul _ _ P1 H). pose proof (pos_mul _ _ P2 P3). lra. }
  pose proof (lam_mag_q1 reg s p c Hv ltac:(lra) Z2 ltac:(lra) Hd Hc) as Hx.
  pose proof (heat_gen reg parse s p _ Hr Hv P1 P2 P3 ltac:(lra) ltac:(lra) P5 (fun _ => Hst) Hx) as HC1. cbn zeta in HC1. fold C CD in HC1.
  destruct (heat_const_unique _ _ _ _ _ _ _ _ HC0 HC1) as (-> & -> & ->).
  rewrite (HN (S i) Hi). cbn [hn]. destruct (HI i ltac:(lia)) as (-> & -> & ->). ring.
Qed.

(** Units of the right size: the heat uptake does not depend on them. *)
Theorem c29_heat_uptake : forall reg parse s s' p e e' F T1 T2 T N T1' T2' T' N',
  ir_setup reg parse s p e F -> ir_setup reg parse s' p e' F -> npoints e = npoints e' -> convertible_ir p ->
  (forall t, t = s \/ t = s' ->
     usize reg (units (ir_q1 (xenv reg) t)) = usize reg u_CWm2 /\
     (usize reg (units (ir_q2 (xenv reg) t)) = usize reg u_CWm2 \/
      same_delta (units (ir_q1 (xenv reg) t)) (units (ir_q2 (xenv reg) t)))) ->
  ir_reports reg s e T1 T2 T N -> ir_reports reg s' e' T1' T2' T' N' ->
  forall i, (i < npoints e)%nat -> N i = N' i.
Proof.
  intros reg parse s s' p e e' F T1 T2 T N T1' T2' T' N' HS HS' Hn HP HU HR HR' i Hi.
  pose proof HP as (P1 & P2 & P3 & P4 & P5).
  assert (P4' : 0 < p_d2 p) by lra.
  assert (Z1 : p_q1 p + p_q2 p <> 0) by lra.
  assert (Z2 : p_q1 p * p_d2 p + p_q2 p * p_d1 p <> 0).
  { pose proof (pos_mul _ _ P1 P4'). pose proof (pos_mul _ _ P2 P3). lra. }
  assert (Z : p_ieps p <> 0) by lra. assert (Pd : p_d1 p <> p_d2 p) by lra.
  destruct (ir_setup_inv _ _ _ _ _ _ _ _ _ _ HS HR) as (_ & k & m1 & m2 & HC & HN).
  destruct (ir_setup_inv _ _ _ _ _ _ _ _ _ _ HS' HR') as (_ & k' & m1' & m2' & HC' & HN').
  rewrite (HN i Hi), (HN' i) by lia. destruct i as [|i]; [reflexivity|].
  destruct (HC ltac:(lia)) as (HC0 & _). destruct (HC' ltac:(lia)) as (HC0' & _).
  assert (L : forall t, t = s \/ t = s' -> ir_values reg t p -> lam_mag reg t p (1 * hlam (p_q1 p) (p_q2 p))).
  { intros t Ht Hv. destruct (HU t Ht) as (U1 & [U2|U2]).
    - destruct (lam_mag_exists reg t p Hv Z1 Z2 Z) as (x & Hx).
      rewrite Rmult_1_l, <- (lam_mag_std reg t p Hv Z1 Z2 Z x U1 U2 Hx). exact Hx.
    - apply lam_mag_q1; auto. rewrite U1. ring. }
  assert (St : forall t k m1 m2, heat_const reg t k m1 m2 -> exists hp, step_status (xenv reg) t = Ok hp).
  { intros t k0 n1 n2 H. unfold heat_const in H. destruct (step_status (xenv reg) t); [eauto|contradiction]. }
  destruct HS as (Hr & Hv & _). destruct HS' as (Hr' & Hv' & _).
  pose proof (heat_gen reg parse s p _ Hr Hv P1 P2 P3 P4' Pd P5 (fun _ => St _ _ _ _ HC0) (L s (or_introl eq_refl) Hv)) as K.
  pose proof (heat_gen reg parse s' p _ Hr' Hv' P1 P2 P3 P4' Pd P5 (fun _ => St _ _ _ _ HC0') (L s' (or_intror eq_refl) Hv')) as K'.
  cbn zeta in K, K'.
  destruct (heat_const_unique _ _ _ _ _ _ _ _ HC0 K) as (-> & -> & ->).
  destruct (heat_const_unique _ _ _ _ _ _ _ _ HC0' K') as (-> & -> & ->). reflexivity.
Qed.

(** ** C29, continued: a unit of another size *)
Lemma is_qty_in reg (U V : Units) x : same_dim (xenv reg) U V ->
  is_qty reg (mkQ (env := xenv reg) (Fin (x * usize reg V / usize reg U)) U) x V.
Proof. intros H. split; [exact H|]. eexists. split; [reflexivity|]. cbn [units]. field. apply usize_neq. Qed.

Lemma one_step_pos q d dt : 0 < q -> 0 < d -> 0 < dt -> 0 < box_run q d dt (fun _ => 1) 1.
Proof.
  intros Hq Hd Ht. cbn [box_run]. unfold box_solution.
  assert (exp (- dt / d) < 1).
  { rewrite <- exp_0. apply exp_increasing. unfold Rdiv. rewrite <- Ropp_mult_distr_l. pose proof (pos_div _ _ Ht Hd). unfold Rdiv in *. lra. }
  pose proof (pos_mul q (1 - exp (- dt / d)) Hq ltac:(lra)). lra.
Qed.

(** Whatever unit [U] of another size than delta_degC/(W/m^2) is used for q1
    and q2, the reported heat uptake is wrong, although nothing is raised and
    the temperatures are right. *)
Theorem c29_other_unit_sizes_are_wrong : forall reg parse p U,
  convertible_ir p -> p_ieps p = 1 -> 0 < p_idt p ->
  same_dim (xenv reg) U u_CWm2 -> usize reg U <> usize reg u_CWm2 ->
  exists s s' e T1 T2 T N N',
    ir_setup reg parse s p e (fun _ => 1) /\ ir_setup reg parse s' p e (fun _ => 1) /\ npoints e = 3%nat /\
    units (ir_q1 (xenv reg) s) = u_CWm2 /\ units (ir_q2 (xenv reg) s) = u_CWm2 /\
    units (ir_q1 (xenv reg) s') = U /\ units (ir_q2 (xenv reg) s') = U /\
    ir_reports reg s e T1 T2 T N /\ ir_reports reg s' e T1 T2 T N' /\ N 2%nat <> N' 2%nat.
Proof.
  intros reg parse p U HP He Hdt HU Hs. pose proof HP as (P1 & P2 & P3 & P4 & P5). assert (P4' : 0 < p_d2 p) by lra.
  assert (Z1 : p_q1 p + p_q2 p <> 0) by lra.
  assert (Z2 : p_q1 p * p_d2 p + p_q2 p * p_d1 p <> 0).
  { pose proof (pos_mul _ _ P1 P4'). pose proof (pos_mul _ _ P2 P3). lra. }
  assert (Z : p_ieps p <> 0) by lra.
  destruct (ir_make reg parse _ _ _ _ _ _ p (is_qty_self reg _ _) (is_qty_self reg _ _) (is_qty_self reg _ _) (is_qty_self reg _ _)
    (is_qty_self reg _ _) (is_qty_self reg _ _) P4) as (s & _ & Hr & Hv & U1 & U2 & _).
  destruct (ir_make reg parse _ _ _ _ _ _ p (is_qty_in reg U _ _ HU) (is_qty_in reg U _ _ HU) (is_qty_self reg _ _) (is_qty_self reg _ _)
    (is_qty_self reg _ _) (is_qty_self reg _ _) P4) as (s' & _ & Hr' & Hv' & U1' & U2' & _).
  destruct (a_series reg (fun _ => 1) 3) as (e & Hn & HF).
  assert (HS : ir_setup reg parse s p e (fun _ => 1)) by (split; auto).
  assert (HS' : ir_setup reg parse s' p e (fun _ => 1)) by (split; auto).
  set (c := usize reg U / usize reg u_CWm2).
  assert (Hc : usize reg U = c * usize reg u_CWm2) by (unfold c; field; apply usize_neq).
  pose proof (lam_mag_q1 reg s p 1 Hv Z1 Z2 Z) as L. rewrite U1, U2 in L. cbn [units] in L.
  specialize (L ltac:(intros x _; reflexivity) ltac:(ring)).
  pose proof (lam_mag_q1 reg s' p c Hv' Z1 Z2 Z) as L'. rewrite U1', U2' in L'. cbn [units] in L'.
  specialize (L' ltac:(intros x _; reflexivity) Hc).
  pose proof (heat_const_1 reg parse s p Hr Hv ltac:(lra) ltac:(lra) Z1 Z2 Z _ He L) as K.
  pose proof (heat_const_1 reg parse s' p Hr' Hv' ltac:(lra) ltac:(lra) Z1 Z2 Z _ He L') as K'.
  exists s, s', e. do 5 eexists. split; [exact HS|]. split; [exact HS'|]. split; [exact Hn|].
  rewrite U1, U2, U1', U2'. do 4 (split; [reflexivity|]).
  split; [exact (ir_reports_of reg parse s p e _ _ _ _ HS (fun _ => K))|].
  split; [exact (ir_reports_of reg parse s' p e _ _ _ _ HS' (fun _ => K'))|].
  cbn [hn]. intros Q.
  assert (HT : 0 < bt1 p (fun _ => 1) 1 + bt2 p (fun _ => 1) 1).
  { pose proof (one_step_pos _ _ _ P1 P3 Hdt). pose proof (one_step_pos _ _ _ P2 P4' Hdt). unfold bt1, bt2. lra. }
  set (T := bt1 p (fun _ => 1) 1 + bt2 p (fun _ => 1) 1) in *.
  assert (Hl : 0 < hlam (p_q1 p) (p_q2 p)) by (unfold hlam; apply pos_div; lra).
  assert (Q' : (1 - c) * (hlam (p_q1 p) (p_q2 p) * T) = 0) by lra.
  apply Rmult_integral in Q' as [Q'|Q']; [|pose proof (pos_mul _ _ Hl HT); lra].
  apply Hs. rewrite Hc. replace c with 1 by lra. ring.
Qed.

(** Such a unit: mK/(W/m^2). *)
Example c29_case :
  convertible_ir ex_ir /\ p_ieps ex_ir = 1 /\ 0 < p_idt ex_ir /\
  same_dim (xenv si) [("millikelvin"%string, 1%Q); (sW, (-1)%Q); (sm, 2%Q)] u_CWm2 /\
  usize si [("millikelvin"%string, 1%Q); (sW, (-1)%Q); (sm, 2%Q)] <> usize si u_CWm2.
Proof.
  split; [unfold convertible_ir, ex_ir; cbn; lra|]. split; [reflexivity|]. split; [cbn; lra|].
  split; [intros k Hk; do 4 (destruct k; [reflexivity|]); cbn in Hk; lia|].
  change u_CWm2 with ((sdC, 1%Q) :: [(sW, (-1)%Q); (sm, 2%Q)]).
  pose proof (usize_pos si [(sW, (-1)%Q); (sm, 2%Q)]) as Hp. set (w := [(sW, (-1)%Q); (sm, 2%Q)]) in *.
  cbn [usize]. rewrite !Rpow_1 by apply rg_pos.
  assert (E1 : rg_size si "millikelvin" = 1/1000).
  { cbn [rg_size si]. unfold si_size. replace (si_sizeq "millikelvin") with (1 # 1000)%Q by reflexivity. unfold Q2R; cbn; lra. }
  assert (E2 : rg_size si sdC = 1).
  { cbn [rg_size si]. unfold si_size. replace (si_sizeq sdC) with 1%Q by reflexivity. unfold Q2R; cbn; lra. }
  rewrite E1, E2. intros Q. apply Rmult_eq_reg_r in Q; lra.
Qed.
