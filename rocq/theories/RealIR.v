(** An impulse-response run in exact arithmetic. *)
From Coq Require Import List String QArith Reals Qreals Bool Arith Lra Lia.
From Verif Require Import Arith Pint Base TwoLayer Impulse Scm Api Spec Exact SpecReal
  GenTL GenTLHist GenIR GenIRHist GenMeta RealUnits RealTL RealGeo RealConv FactsRun.
Import ListNotations.
Local Open Scope R_scope.

Section IRR.
Variable reg : Registry.
Notation E := (xenv reg).
Variable parse : string -> option (Qty E).

Record ir_numbers (s : IR E) (p : IRP) : Prop := {
  in_q1 : ir_q1_mag E s = Fin (p_q1 p);
  in_q2 : ir_q2_mag E s = Fin (p_q2 p);
  in_d1 : ir_d1_mag E s = Fin (p_d1 p);
  in_d2 : ir_d2_mag E s = Fin (p_d2 p);
  in_eps : ir_efficacy_mag E s = Fin (p_ieps p);
  in_dt : ir_delta_t_mag E s = Fin (p_idt p)
}.
Lemma ir_values_numbers s p : ir_reachable E parse s -> ir_values reg s p -> ir_numbers s p.
Proof.
  intros Hr (H1 & H2 & H3 & H4 & H5 & H6). apply ir_reachable_coherent in Hr.
  destruct Hr as [C1 C2 C3 C4 C5 C6 _].
  apply is_qty_to_mag in H1, H2, H3, H4, H5, H6.
  constructor; congruence.
Qed.

Lemma xeqb_true a b : xeqb (Fin a) (Fin b) = true <-> a = b.
Proof. apply xeqb_Fin. Qed.
Lemma xeqb_false a b : xeqb (Fin a) (Fin b) = false <-> a <> b.
Proof. pose proof (xeqb_Fin a b). destruct (xeqb (Fin a) (Fin b)); intuition congruence. Qed.
Lemma nQ0 : nQ E 0 = Fin 0.
Proof. cbn. rewrite Q2R_0. reflexivity. Qed.
Lemma nQ1 : nQ E 1 = Fin 1.
Proof. cbn. rewrite Q2R_1. reflexivity. Qed.

Lemma box_real dt q d t f : d <> 0 ->
  box E (Fin dt) (Fin q) (Fin d) (Fin t) (Fin f) = Fin (box_solution q d f t dt).
Proof.
  intros H. unfold box. rewrite nQ1. cbn. destruct (Req_EM_T d 0); [contradiction|]. cbn.
  f_equal. unfold box_solution. ring.
Qed.

(** The constants of the heat uptake: F - k (T1+T2) - (m1 T1 + m2 T2). *)
Definition heat_const (s : IR E) (k m1 m2 : R) : Prop :=
  match step_status E s, ir_efficacy_mag E s with
  | Ok (Fin l, None), _ => k = l /\ m1 = 0 /\ m2 = 0
  | Ok (Fin l, Some (Fin h, Fin o1, Fin o2)), Fin eps =>
      k = l /\ m1 = (eps - 1) * h * o1 /\ m2 = (eps - 1) * h * o2
  | _, _ => False
  end.

Lemma heat_const_unique s k m1 m2 k' m1' m2' : heat_const s k m1 m2 -> heat_const s k' m1' m2' ->
  k = k' /\ m1 = m1' /\ m2 = m2'.
Proof.
  unfold heat_const. destruct (step_status E s) as [[[l|] [[[[h|] [o1|]] [o2|]]|]]|]; try contradiction;
    destruct (ir_efficacy_mag E s); intuition congruence.
Qed.

Lemma heat_real s k m1 m2 hp t1 t2 f : heat_const s k m1 m2 -> step_status E s = Ok hp ->
  heat E hp (ir_efficacy_mag E s) (Fin t1) (Fin t2) (Fin f) = Fin (f - k * (t1 + t2) - (m1 * t1 + m2 * t2)).
Proof.
  unfold heat_const. intros H Hs. rewrite Hs in H. unfold heat.
  destruct hp as [[l|] [[[[h|] [o1|]] [o2|]]|]]; try contradiction; cbn [fst snd].
  - destruct (ir_efficacy_mag E s) as [eps|]; [|contradiction]. destruct H as (-> & -> & ->).
    rewrite nQ1. cbn. f_equal. ring.
  - destruct H as (-> & -> & ->). rewrite nQ1, nQ0. cbn. f_equal. ring.
Qed.
Lemma heat_fin s hp t1 t2 f x : step_status E s = Ok hp ->
  heat E hp (ir_efficacy_mag E s) (Fin t1) (Fin t2) (Fin f) = Fin x -> exists k m1 m2, heat_const s k m1 m2.
Proof.
  intros Hs. unfold heat_const. rewrite Hs. unfold heat.
  destruct hp as [[l|] [[[[h|] [o1|]] [o2|]]|]]; cbn [fst snd]; rewrite ?nQ1, ?nQ0; cbn;
    try discriminate; destruct (ir_efficacy_mag E s); cbn; try discriminate; intros _; eexists _, _, _; repeat split; reflexivity.
Qed.

Section Run.
Variables (s : IR E) (p : IRP) (e : QArr E) (F : nat -> R).
Hypothesis Hr : ir_reachable E parse s.
Hypothesis Hv : ir_values reg s p.
Hypothesis HF : is_series reg e F u_Wm2.
Let n := npoints e.

Definition bt1 := box_run (p_q1 p) (p_d1 p) (p_idt p) F.
Definition bt2 := box_run (p_q2 p) (p_d2 p) (p_idt p) F.

Lemma series_at i : (i < n)%nat -> iat E (first_values reg n F) i = Fin (F i).
Proof. intros Hi. apply iat_nth. apply first_nth, Hi. Qed.

Lemma irT_real dt q d i : d <> 0 -> (i < n)%nat ->
  irT E (Fin dt) (Fin q) (Fin d) (iat E (first_values reg n F)) i = Fin (box_run q d dt F i).
Proof.
  intros Hd. induction i as [|i IH]; intros Hi; cbn [irT box_run]; [apply nQ0|].
  rewrite IH, series_at, box_real by (assumption || lia). reflexivity.
Qed.

(** What [box] does with d = 0 cannot be finite. *)
Lemma status_d hp : step_status E s = Ok hp -> p_d1 p <> 0 /\ p_d2 p <> 0.
Proof.
  pose proof (ir_values_numbers s p Hr Hv) as [N1 N2 N3 N4 N5 N6].
  intros H. apply step_status_inv in H as (H1 & H2 & _).
  rewrite N3, nQ0 in H1. rewrite N4, nQ0 in H2. cbn [neqb ar xenv exact] in H1, H2.
  split; apply xeqb_false; assumption.
Qed.

Lemma ir_temps_status hp i : step_status E s = Ok hp -> (i < n)%nat ->
  iT1 E (iwith_erf E s (Some e) (Some (first_values reg n F))) (iat E (first_values reg n F)) i = Fin (bt1 i) /\
  iT2 E (iwith_erf E s (Some e) (Some (first_values reg n F))) (iat E (first_values reg n F)) i = Fin (bt2 i).
Proof.
  intros Hs Hi. destruct (status_d hp Hs) as (D1 & D2).
  pose proof (ir_values_numbers s p Hr Hv) as [N1 N2 N3 N4 N5 N6].
  unfold iT1, iT2, iwith_erf. cbn [ir_delta_t_mag ir_q1_mag ir_q2_mag ir_d1_mag ir_d2_mag].
  rewrite N1, N2, N3, N4, N6. split; apply irT_real; assumption.
Qed.

Definition hn (k m1 m2 : R) (i : nat) : R :=
  match i with
  | O => 0
  | S j => F j - k * (bt1 j + bt2 j) - (m1 * bt1 j + m2 * bt2 j)
  end.

Lemma ir_run_reports k m1 m2 : heat_const s k m1 m2 ->
  ir_reports reg s e bt1 bt2 (fun i => bt1 i + bt2 i) (hn k m1 m2).
Proof.
  intros HC.
  assert (Hs : exists hp, step_status E s = Ok hp).
  { unfold heat_const in HC. destruct (step_status E s); [eauto|contradiction]. }
  destruct Hs as (hp & Hs).
  pose proof (is_series_to_mags reg e F _ HF) as Hm. pose proof (is_series_nan_free reg e F _ HF) as Hn.
  apply nan_free_existsb in Hn.
  pose proof (idrive_ok E s e _ hp Hm Hn (or_intror Hs)) as Hd.
  change (map (fun i => Fin (F i)) (seq 0 (List.length (mags e)))) with (first_values reg n F) in Hd.
  change (@List.length (num (ar (xenv reg))) (first_values reg n F)) with (List.length (first_values reg n F)) in Hd.
  assert (Ln : List.length (first_values reg n F) = n) by apply first_length. rewrite Ln in Hd.
  eexists. split; [exact Hd|]. unfold ifilled, ir_outputs. cbn [ir_temp1 ir_temp2 ir_rndt iwith_run]. rewrite Ln, !fill_full.
  set (s1 := iwith_erf E s (Some e) (Some (first_values reg n F))).
  set (at1 := iat E (first_values reg n F)).
  assert (L1 : map (iT1 E s1 at1) (seq 0 n) = first_values reg n bt1).
  { apply map_ext_in. intros i Hi. apply in_seq in Hi. apply (ir_temps_status hp i Hs). lia. }
  assert (L2 : map (iT2 E s1 at1) (seq 0 n) = first_values reg n bt2).
  { apply map_ext_in. intros i Hi. apply in_seq in Hi. apply (ir_temps_status hp i Hs). lia. }
  fold n. rewrite L1, L2.
  assert (L3 : map (iR E s1 hp at1) (seq 0 n) = first_values reg n (hn k m1 m2)).
  { apply map_ext_in. intros [|i] Hi; [apply nQ0|]. apply in_seq in Hi. cbn [iR irR hn].
    destruct (ir_temps_status hp i Hs ltac:(lia)) as (T1 & T2). fold s1 at1 in T1, T2. unfold iR, irR. rewrite T1, T2.
    unfold at1. rewrite series_at by lia. exact (heat_real s k m1 m2 hp _ _ _ HC Hs). }
  rewrite L3. repeat f_equal. apply nth_error_ext'. intros i.
  destruct (Nat.lt_ge_cases i n) as [Hi|Hi].
  - rewrite (zip_add_nth E _ _ i (Fin (bt1 i)) (Fin (bt2 i))) by (apply first_nth; assumption).
    rewrite first_nth by assumption. reflexivity.
  - rewrite (first_none reg n (fun i => bt1 i + bt2 i) i Hi).
    assert (LZ : forall a b : list (num E), List.length a = n -> List.length b = n -> List.length (zip_add E a b) = n).
    { intros a b Ha Hb. rewrite <- Ha in Hb |- *. clear Ha. revert b Hb.
      induction a as [|x a IH]; intros [|y b] Hb; try reflexivity; try discriminate Hb.
      cbn [zip_add List.length] in *. f_equal. apply IH. congruence. }
    pose proof (LZ (first_values reg n bt1) (first_values reg n bt2) (first_length reg _ _) (first_length reg _ _)) as L.
    apply (proj2 (nth_error_None (A := num E) _ i)). rewrite L. exact Hi.
Qed.

Lemma ir_short_status : (2 <= n)%nat -> forall s', ir_drive E e s = (s', Ok tt) ->
  exists hp, step_status E s = Ok hp /\
    ir_outputs E s' = ir_outputs E (ifilled E (iwith_erf E s (Some e) (Some (first_values reg n F))) hp (first_values reg n F) n).
Proof.
  intros Hn2 s' H. pose proof (idrive_outcome E s e) as K. rewrite H in K. cbn [snd] in K.
  destruct K as (m & hp & Hm & Hn & Hs & Hd). injection Hd as ->.
  rewrite (is_series_to_mags reg e F _ HF) in Hm. injection Hm as <-.
  change (map (fun i => Fin (F i)) (seq 0 (List.length (mags e)))) with (first_values reg n F) in *.
  assert (Ln : List.length (first_values reg n F) = n) by apply first_length. rewrite Ln in *.
  destruct Hs as [Hs|Hs]; [lia|]. exists hp. split; [exact Hs|].
  exact (f_equal (fun k => ir_outputs E (ifilled E (iwith_erf E s (Some e) (Some (first_values reg n F))) hp (first_values reg n F) k)) Ln).
Qed.

Lemma ir_reports_inv T1 T2 T N : ir_reports reg s e T1 T2 T N ->
  (forall i, (i < n)%nat -> T1 i = bt1 i /\ T2 i = bt2 i /\ T i = bt1 i + bt2 i) /\
  ((0 < n)%nat -> N 0%nat = 0) /\
  ((2 <= n)%nat -> p_d1 p <> 0 /\ p_d2 p <> 0 /\
     exists k m1 m2, heat_const s k m1 m2 /\ forall i, (i < n)%nat -> N i = hn k m1 m2 i).
Proof.
  intros (s' & Hd & Ho).
  destruct (Nat.lt_ge_cases n 2) as [Hn|Hn].
  - destruct (c01_impulse_response_shape E s s' e Hd) as (FF & A1 & A2 & A & B & HFF & LF & Ho' & HS).
    rewrite Ho in Ho'. injection Ho' as <- <- <- <-. fold n in HS, LF.
    destruct HS as (_ & _ & _ & _ & H0 & HA & _).
    assert (Z : (0 < n)%nat -> nth_error (first_values reg n T1) 0 = Some (Fin 0) /\
                nth_error (first_values reg n T2) 0 = Some (Fin 0) /\ nth_error (first_values reg n N) 0 = Some (Fin 0)).
    { intros Hp. rewrite <- !nQ0. apply H0. intros ->. cbn in LF. change (List.length (mags e)) with n in LF. lia. }
    assert (Y : (0 < n)%nat -> T1 0%nat = 0 /\ T2 0%nat = 0 /\ N 0%nat = 0).
    { intros Hp. destruct (Z Hp) as (Z1 & Z2 & Z3). rewrite first_nth in Z1, Z2, Z3 by assumption.
      repeat split; congruence. }
    split; [|split; [intros Hp; apply Y, Hp|intros; lia]].
    intros i Hi. assert (i = 0%nat) by lia. subst i. destruct (Y Hi) as (-> & -> & _).
    destruct (Z Hi) as (Z1 & Z2 & Z3).
    split; [reflexivity|]. split; [reflexivity|].
    pose proof (HA 0%nat _ _ Z1 Z2) as K. rewrite first_nth in K by assumption. cbn in K. unfold bt1, bt2. cbn. congruence.
  - destruct (ir_short_status Hn s' Hd) as (hp & Hs & Hoo).
    destruct (status_d hp Hs) as (D1 & D2).
    assert (HC : exists k m1 m2, heat_const s k m1 m2).
    { rewrite Ho in Hoo. injection Hoo as _ _ _ Hoo. fold n in Hoo.
      assert (K : nth_error (first_values reg n N) 1 = Some (Fin (N 1%nat))) by (apply first_nth; lia).
      rewrite Hoo in K. cbn [ifilled ir_rndt iwith_run] in K.
      assert (Ln : @List.length xnum (first_values reg n F) = n) by (apply (first_length reg)).
      change (@List.length (num (ar (xenv reg))) (first_values reg n F)) with (@List.length xnum (first_values reg n F)) in K.
      rewrite Ln, fill_full in K.
      pose proof (map_seq_nth (iR E (iwith_erf E s (Some e) (Some (first_values reg n F))) hp (iat E (first_values reg n F))) n 1 ltac:(lia)) as K2.
      assert (K3 : iR E (iwith_erf E s (Some e) (Some (first_values reg n F))) hp (iat E (first_values reg n F)) 1 = Fin (N 1%nat)).
      { assert (Some (iR E (iwith_erf E s (Some e) (Some (first_values reg n F))) hp (iat E (first_values reg n F)) 1) = Some (Fin (N 1%nat))).
        { rewrite <- K2. exact K. } congruence. }
      unfold iR, irR in K3. destruct (ir_temps_status hp 0 Hs ltac:(lia)) as (Q1 & Q2). rewrite Q1, Q2, series_at in K3 by lia.
      exact (heat_fin s hp _ _ _ _ Hs K3). }
    destruct HC as (k & m1 & m2 & HC).
    destruct (ir_run_reports k m1 m2 HC) as (s2 & Hd2 & Ho2). rewrite Hd in Hd2. injection Hd2 as <-.
    rewrite Ho in Ho2. injection Ho2 as E1 E2 E3 E4. fold n in E1, E2, E3, E4.
    pose proof (first_inj reg n _ _ E1) as F1. pose proof (first_inj reg n _ _ E2) as F2.
    pose proof (first_inj reg n _ _ E3) as F3. pose proof (first_inj reg n _ _ E4) as F4.
    split; [intros i Hi; auto|]. split; [intros Hp; rewrite F4 by assumption; reflexivity|].
    intros _. split; [assumption|]. split; [assumption|]. exists k, m1, m2. auto.
Qed.
End Run.

(** ** The heat uptake constants in physical terms *)
Section Heat.
Variables (s : IR E) (p : IRP).
Hypothesis Hr : ir_reachable E parse s.
Hypothesis Hv : ir_values reg s p.
Notation Y := (year_s reg).
Let l := hlam (p_q1 p) (p_q2 p).
Let C := hC (p_q1 p) (p_q2 p) (Y * p_d1 p) (Y * p_d2 p).
Let CD := hCD (p_q1 p) (p_q2 p) (Y * p_d1 p) (Y * p_d2 p) (p_ieps p).
Let h := heta (p_q1 p) (p_q2 p) (Y * p_d1 p) (Y * p_d2 p) (p_ieps p).

Hypothesis D1 : p_d1 p <> 0.
Hypothesis D2 : p_d2 p <> 0.
Hypothesis Z1 : p_q1 p + p_q2 p <> 0.
Hypothesis Z2 : p_q1 p * p_d2 p + p_q2 p * p_d1 p <> 0.
Hypothesis Z3 : p_ieps p <> 0.

Lemma two_layer_values :
  exists r, ir_get_two_layer_parameters E s = Ok r /\
    is_qty reg (tlp_lambda0 E r) l u_Wm2C /\
    is_qty reg (tlp_du E r) (C / (1000 * 4181)) u_m /\ is_qty reg (tlp_dl E r) (CD / (1000 * 4181)) u_m /\
    is_qty reg (tlp_eta E r) h u_Wm2C /\ is_qty reg (tlp_efficacy E r) (p_ieps p) u_none /\
    exists qq, qadd E (ir_q1 E s) (ir_q2 E s) = Ok qq /\ units (tlp_lambda0 E r) = udiv [] (units qq) /\
      (units qq = units (ir_q1 E s) \/ units qq = units (ir_q2 E s)).
Proof.
  destruct Hv as (V1 & V2 & V3 & V4 & V5 & V6).
  destruct (i2t_ok reg s _ _ _ _ _ V1 V2 (yr_to_s reg _ _ V3) (yr_to_s reg _ _ V4) V5 Z1) as (r & Hrr & A1 & A2 & A3 & A4 & A5 & A6).
  - pose proof (year_s_pos reg).
    replace (p_q1 p * (Y * p_d2 p) + p_q2 p * (Y * p_d1 p)) with (Y * (p_q1 p * p_d2 p + p_q2 p * p_d1 p)) by ring.
    apply Rmult_integral_contrapositive. split; [lra|assumption].
  - exact Z3.
  - exists r. rewrite A5. auto 10.
Qed.

(** The factor by which the magnitude of lambda0 is off. *)
Definition lam_mag (x : R) : Prop :=
  exists qq, qadd E (ir_q1 E s) (ir_q2 E s) = Ok qq /\ x = l * usize reg u_Wm2C * usize reg (units qq).

Lemma lam_mag_ok r x : ir_get_two_layer_parameters E s = Ok r -> is_qty reg (tlp_lambda0 E r) l u_Wm2C ->
  (exists qq, qadd E (ir_q1 E s) (ir_q2 E s) = Ok qq /\ units (tlp_lambda0 E r) = udiv [] (units qq)) ->
  lam_mag x -> mag (tlp_lambda0 E r) = Fin x.
Proof.
  intros _ (_ & m & Hm & He) (qq & Hq & Hu) (qq' & Hq' & ->). rewrite Hq in Hq'. injection Hq' as <-.
  rewrite Hm, Hu, usize_udiv in *. f_equal. cbn [usize] in He. pose proof (usize_pos reg (units qq)).
  rewrite <- He. field. lra.
Qed.

Lemma lam_mag_exists : exists x, lam_mag x.
Proof. destruct two_layer_values as (r & _ & _ & _ & _ & _ & _ & qq & Hq & _). eexists. exists qq. eauto. Qed.

Lemma lam_mag_std x : usize reg (units (ir_q1 E s)) = usize reg u_CWm2 ->
  usize reg (units (ir_q2 E s)) = usize reg u_CWm2 -> lam_mag x -> x = l.
Proof.
  intros U1 U2 (qq & Hq & ->). destruct two_layer_values as (r & _ & _ & _ & _ & _ & _ & qq' & Hq' & _ & Hu).
  rewrite Hq in Hq'. injection Hq' as <-.
  replace (usize reg (units qq)) with (usize reg u_CWm2) by (destruct Hu as [-> | ->]; congruence).
  rewrite Rmult_assoc. replace (usize reg u_Wm2C * usize reg u_CWm2) with 1; [ring|].
  sizes reg.
Qed.

Lemma heat_const_1 x : p_ieps p = 1 -> lam_mag x -> heat_const s x 0 0.
Proof.
  intros He Hx. destruct (ir_values_numbers s p Hr Hv) as [N1 N2 N3 N4 N5 N6].
  destruct two_layer_values as (r & Hrr & A1 & _ & _ & _ & _ & qq & B1 & B2 & _).
  unfold heat_const, step_status, heat_pars. rewrite N3, N4, nQ0, N5, nQ1. cbn [neqb ar xenv exact].
  rewrite (proj2 (xeqb_false _ _) D1), (proj2 (xeqb_false _ _) D2), Hrr. cbn [bind].
  rewrite (proj2 (xeqb_true _ _) He), (lam_mag_ok r x Hrr A1); eauto.
Qed.

Section Eff.
Hypothesis P1 : 0 < p_q1 p.
Hypothesis P2 : 0 < p_q2 p.
Hypothesis P3 : 0 < p_d1 p.
Hypothesis P4 : 0 < p_d2 p.
Hypothesis P5 : 0 < p_ieps p.
Hypothesis Pd : p_d1 p <> p_d2 p.
Hypothesis Pe : p_ieps p <> 1.

Lemma Yd1 : 0 < Y * p_d1 p. Proof. apply pos_mul; [apply year_s_pos|assumption]. Qed.
Lemma Yd2 : 0 < Y * p_d2 p. Proof. apply pos_mul; [apply year_s_pos|assumption]. Qed.
Lemma Ydd : Y * p_d1 p <> Y * p_d2 p.
Proof. intros K. apply Rmult_eq_reg_l in K; [contradiction|]. pose proof (year_s_pos reg). lra. Qed.

Lemma C_pos : 0 < C. Proof. apply (hC_pos _ _ _ _ (p_ieps p)); first [assumption|apply Yd1|apply Yd2|apply Ydd]. Qed.
Lemma CD_pos : 0 < CD. Proof. apply hCD_pos; first [assumption|apply Yd1|apply Yd2|apply Ydd]. Qed.
Lemma h_pos : 0 < h. Proof. apply heta_pos; first [assumption|apply Yd1|apply Yd2|apply Ydd]. Qed.
Lemma l_pos : 0 < l. Proof. unfold l, hlam. apply pos_div; lra. Qed.

Lemma status_eff : exists r g,
  ir_get_two_layer_parameters E s = Ok r /\
  is_qty reg (tlp_lambda0 E r) l u_Wm2C /\ is_qty reg (tlp_eta E r) h u_Wm2C /\
  geoffroy E (tlp_du E r) (tlp_dl E r) (tlp_lambda0 E r) (tlp_efficacy E r) (tlp_eta E r) = Ok g /\
  step_status E s =
    if units_eqb (units (tlp_eta E r) ++ u_dC) u_Wm2
    then Ok (mag (tlp_lambda0 E r),
             Some (mag (tlp_eta E r), Fin (1 - gphi1 C CD l (p_ieps p) h), Fin (1 - gphi2 C CD l (p_ieps p) h)))
    else Err AssertionError.
Proof.
  destruct (ir_values_numbers s p Hr Hv) as [N1 N2 N3 N4 N5 N6].
  destruct two_layer_values as (r & Hrr & A1 & A2 & A3 & A4 & A5 & qq & B1 & B2 & _).
  pose proof C_pos. pose proof CD_pos. pose proof h_pos. pose proof l_pos.
  destruct (geoffroy_ok reg _ _ _ _ _ _ _ _ _ _ A2 A3 A1 A5 A4) as (g & Hg & Vg); try assumption.
  { apply pos_div; lra. }
  { apply pos_div; lra. }
  exists r, g. split; [exact Hrr|]. split; [exact A1|]. split; [exact A4|]. split; [exact Hg|].
  unfold step_status, heat_pars. rewrite N3, N4, nQ0, N5, nQ1. cbn [neqb ar xenv exact].
  rewrite (proj2 (xeqb_false _ _) D1), (proj2 (xeqb_false _ _) D2), Hrr. cbn [bind].
  rewrite (proj2 (xeqb_false _ _) Pe), Hg. cbn [bind].
  destruct Vg as [_ _ _ _ _ _ _ G1 G2 _ _].
  replace (water_capacity (C / (1000 * 4181))) with C in * by (unfold water_capacity; field).
  replace (water_capacity (CD / (1000 * 4181))) with CD in * by (unfold water_capacity; field).
  rewrite (rsub_ok reg 1 _ _ _ G1 (same_dim_refl reg _) eq_refl). cbn [bind].
  rewrite (rsub_ok reg 1 _ _ _ G2 (same_dim_refl reg _) eq_refl). cbn [bind mag]. reflexivity.
Qed.

Lemma heat_const_eff x : (exists hp, step_status E s = Ok hp) -> lam_mag x ->
  heat_const s x ((p_ieps p - 1) * h * (1 - gphi1 C CD l (p_ieps p) h))
                 ((p_ieps p - 1) * h * (1 - gphi2 C CD l (p_ieps p) h)).
Proof.
  intros (hp & Hs) Hx. destruct status_eff as (r & g & Hrr & A1 & A4 & _ & Hst).
  destruct (ir_values_numbers s p Hr Hv) as [N1 N2 N3 N4 N5 N6].
  unfold heat_const. rewrite Hst. rewrite Hst in Hs.
  destruct (units_eqb (units (tlp_eta E r) ++ u_dC) u_Wm2) eqn:Eu; [|discriminate].
  destruct two_layer_values as (r' & Hrr' & _ & _ & _ & _ & _ & qq & B1 & B2 & _).
  rewrite Hrr in Hrr'. injection Hrr' as <-.
  rewrite (lam_mag_ok r x Hrr A1); eauto.
  destruct A4 as (_ & m & Hm & Hem). rewrite Hm, N5.
  assert (m = h).
  { apply (usize_eqb reg) in Eu. rewrite usize_app in Eu.
    apply Rmult_eq_reg_r with (usize reg u_Wm2C); [|apply usize_neq].
    rewrite <- Hem. f_equal.
    apply Rmult_eq_reg_r with (usize reg u_dC); [|apply usize_neq].
    rewrite Eu. sizes reg. }
  subst m. auto.
Qed.
End Eff.
End Heat.
End IRR.
