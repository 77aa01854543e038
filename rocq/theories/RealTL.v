(** A two-layer run in exact arithmetic is the Euler recurrence of [SpecReal]. *)
From Coq Require Import List String QArith Reals Qreals Bool Arith Lra Lia.
From Verif Require Import Arith Pint Base TwoLayer Impulse Scm Api Spec Exact SpecReal
  GenTL GenTLHist GenMeta RealUnits FactsRun.
Import ListNotations.
Local Open Scope R_scope.

Lemma Q2R_1000 : Q2R 1000 = 1000.
Proof. unfold Q2R; cbn; lra. Qed.
Lemma Q2R_4181 : Q2R 4181 = 4181.
Proof. unfold Q2R; cbn; lra. Qed.

Lemma Rpow_m3 x : 0 < x -> Rpower x (Q2R (-3)) = / (x * x * x).
Proof.
  intros H. replace (Q2R (-3)) with (- INR 3) by (unfold Q2R; cbn; lra).
  rewrite Rpower_Ropp, Rpower_pow by assumption. f_equal. cbn. lra.
Qed.
Lemma Rpow_m2 x : 0 < x -> Rpower x (Q2R (-2)) = / (x * x).
Proof.
  intros H. replace (Q2R (-2)) with (- INR 2) by (unfold Q2R; cbn; lra).
  rewrite Rpower_Ropp, Rpower_pow by assumption. f_equal. cbn. lra.
Qed.
Lemma Rpow_m1 x : 0 < x -> Rpower x (Q2R (-1)) = / x.
Proof.
  intros H. replace (Q2R (-1)) with (- (1)) by (unfold Q2R; cbn; lra).
  rewrite Rpower_Ropp, Rpower_1 by assumption. reflexivity.
Qed.
Lemma Rpow_1 x : 0 < x -> Rpower x (Q2R 1) = x.
Proof. intros H. rewrite Q2R_1. apply Rpower_1, H. Qed.
Lemma Rpow_2 x : 0 < x -> Rpower x (Q2R 2) = x * x.
Proof.
  intros H. replace (Q2R 2) with (INR 2) by (unfold Q2R; cbn; lra).
  rewrite Rpower_pow by assumption. cbn. lra.
Qed.

(** Sizes of the units named in /repo. *)
Ltac rpow := rewrite ?Rpow_m3, ?Rpow_m2, ?Rpow_m1, ?Rpow_1, ?Rpow_2 by apply rg_pos.
Ltac usz := cbn [usize u_m u_s u_yr u_month u_none u_dC u_Wm2 u_Wm2C u_Wm2C2 u_JCm2 u_CWm2 u_kgm3 u_JCkg]; rpow.
Ltac rgpos reg :=
  pose proof (rg_pos reg sW); pose proof (rg_pos reg sm); pose proof (rg_pos reg ss);
  pose proof (rg_pos reg sJ); pose proof (rg_pos reg skg); pose proof (rg_pos reg syr);
  pose proof (rg_pos reg smonth); pose proof (rg_pos reg sK); pose proof (rg_pos reg sdC).

Section TLR.
Variable reg : Registry.
Notation E := (xenv reg).
Variable parse : string -> option (Qty E).

Lemma capacity_qty q x : is_qty reg q x u_m ->
  is_qty reg (qmul E (qmul E q (DENSITY_WATER E)) (HEAT_CAPACITY_WATER E)) (water_capacity x) u_JCm2.
Proof.
  intros H.
  pose proof (is_qty_mul reg _ _ _ _ _ _ (is_qty_mul reg _ _ _ _ _ _ H (is_qty_lit reg 1000 u_kgm3))
                (is_qty_lit reg 4181 u_JCkg)) as K.
  rewrite Q2R_1000, Q2R_4181 in K.
  apply (is_qty_conv reg _ _ _ u_JCm2 (water_capacity x)) in K; [exact K| |].
  - intros k Hk. rewrite !dimx_umul. cbn [dimx u_m u_kgm3 u_JCkg u_JCm2]. ring.
  - rewrite !usize_umul. usz. rgpos reg. unfold water_capacity. field. repeat split; lra.
Qed.

Record tl_numbers (s : TL E) (p : TLP) : Prop := {
  tn_du : tl_du_mag E s = Fin (p_du p);
  tn_dl : tl_dl_mag E s = Fin (p_dl p);
  tn_lambda0 : tl_lambda0_mag E s = Fin (p_lambda0 p);
  tn_a : tl_a_mag E s = Fin (p_a p);
  tn_eps : tl_efficacy_mag E s = Fin (p_eps p);
  tn_eta : tl_eta_mag E s = Fin (p_eta p);
  tn_dt : tl_delta_t_mag E s = Fin (p_dt p);
  tn_C : tl_hcu_mag E s = Fin (p_C p);
  tn_CD : tl_hcl_mag E s = Fin (p_CD p)
}.

Lemma values_numbers s p : tl_reachable E parse s -> tl_values reg s p -> tl_numbers s p.
Proof.
  intros Hr (H1 & H2 & H3 & H4 & H5 & H6 & H7). apply tl_reachable_coherent in Hr.
  destruct Hr as [C1 C2 C3 C4 C5 C6 C7 C8 C9 _].
  pose proof (is_qty_to_mag reg _ _ _ (capacity_qty _ _ H1)) as HC.
  pose proof (is_qty_to_mag reg _ _ _ (capacity_qty _ _ H2)) as HCD.
  apply is_qty_to_mag in H1, H2, H3, H4, H5, H6, H7.
  unfold tl_heat_capacity_upper in C8. unfold tl_heat_capacity_lower in C9.
  constructor; unfold p_C, p_CD; congruence.
Qed.

(** Heat uptake of the recurrence. *)
Definition eu (p : TLP) F n := fst (euler p F n).
Definition el (p : TLP) F n := snd (euler p F n).
Definition en (p : TLP) F n : R :=
  match n with
  | O => 0
  | S k => p_C p * (eu p F (S k) - eu p F k) / p_dt p + p_CD p * (el p F (S k) - el p F k) / p_dt p
  end.

Lemma eu_S p F n : eu p F (S n) = eu p F n + p_dt p * dT_dt p (F n) (eu p F n) (el p F n).
Proof. unfold eu, el. cbn [euler]. destruct (euler p F n). reflexivity. Qed.
Lemma el_S p F n : el p F (S n) = el p F n + p_dt p * dTD_dt p (eu p F n) (el p F n).
Proof. unfold eu, el. cbn [euler]. destruct (euler p F n). reflexivity. Qed.

Lemma euler_ext p F G n : (forall i, (i < n)%nat -> F i = G i) -> euler p F n = euler p G n.
Proof.
  induction n as [|n IH]; intros H; [reflexivity|]. cbn [euler].
  rewrite IH, (H n) by auto with arith. reflexivity.
Qed.

Lemma first_nth n f i : (i < n)%nat -> nth_error (first_values reg n f) i = Some (Fin (f i)).
Proof. intros H. unfold first_values. exact (map_seq_nth (fun i => Fin (f i)) n i H). Qed.
Lemma first_length n f : List.length (first_values reg n f) = n.
Proof. unfold first_values. rewrite map_length, seq_length. reflexivity. Qed.
Lemma first_none n f i : (n <= i)%nat -> nth_error (first_values reg n f) i = None.
Proof. intros H. apply (proj2 (nth_error_None (A := num E) _ i)). rewrite first_length. exact H. Qed.
Lemma first_inj n f g : first_values reg n f = first_values reg n g -> forall i, (i < n)%nat -> f i = g i.
Proof.
  intros H i Hi. pose proof (first_nth n f i Hi) as K. rewrite H, (first_nth n g i Hi) in K. congruence.
Qed.
Lemma first_ext n f g : (forall i, (i < n)%nat -> f i = g i) -> first_values reg n f = first_values reg n g.
Proof.
  intros H. unfold first_values. apply map_ext_in. intros i Hi. apply in_seq in Hi. rewrite (H i); [reflexivity|lia].
Qed.
Lemma is_first n f (l : list (num E)) : List.length l = n ->
  (forall i, (i < n)%nat -> nth_error l i = Some (Fin (f i))) -> l = first_values reg n f.
Proof.
  intros Hl H. apply nth_error_ext'. intros i. destruct (Nat.lt_ge_cases i n) as [Hi|Hi].
  - rewrite H, first_nth by assumption. reflexivity.
  - transitivity (@None xnum); [apply (proj2 (nth_error_None (A := xnum) l i)); rewrite <- Hl in Hi; exact Hi|].
    symmetry. apply nth_error_None. rewrite first_length. exact Hi.
Qed.

Lemma upper_real dt tu tl f lam a eps eta C : C <> 0 ->
  calculate_next_temp_upper E (Fin dt) (Fin tu) (Fin tl) (Fin f) (Fin lam) (Fin a) (Fin eps) (Fin eta) (Fin C) =
  Fin (tu + dt * ((f - (lam - a * tu) * tu - eps * eta * (tu - tl)) / C)).
Proof.
  intros H. unfold calculate_next_temp_upper. cbn. destruct (Req_EM_T C 0); [contradiction|]. reflexivity.
Qed.
Lemma lower_real dt tl tu eta C : C <> 0 ->
  calculate_next_temp_lower E (Fin dt) (Fin tl) (Fin tu) (Fin eta) (Fin C) = Fin (tl + dt * (eta * (tu - tl) / C)).
Proof.
  intros H. unfold calculate_next_temp_lower. cbn. destruct (Req_EM_T C 0); [contradiction|]. reflexivity.
Qed.
Lemma rndt_real dt tl' tl CD tu' tu C : dt <> 0 ->
  calculate_next_rndt E (Fin dt) (Fin tl') (Fin tl) (Fin CD) (Fin tu') (Fin tu) (Fin C) =
  Fin (C * (tu' - tu) / dt + CD * (tl' - tl) / dt).
Proof.
  intros H. unfold calculate_next_rndt. cbn. destruct (Req_EM_T dt 0); [contradiction|]. reflexivity.
Qed.

Lemma series_temps p F n U L R : p_C p <> 0 -> p_CD p <> 0 ->
  tl_series E (Fin (p_dt p)) (Fin (p_lambda0 p)) (Fin (p_a p)) (Fin (p_eps p)) (Fin (p_eta p)) (Fin (p_C p))
    (Fin (p_CD p)) (first_values reg n F) U L R ->
  forall i, (i < n)%nat -> nth_error U i = Some (Fin (eu p F i)) /\ nth_error L i = Some (Fin (el p F i)).
Proof.
  intros HC HCD (LU & LL & LR & H0 & HS). rewrite first_length in *.
  induction i as [|i IH]; intros Hi.
  - destruct H0 as (HU & HL & _); [intros K; apply (f_equal (@List.length _)) in K; rewrite first_length in K; cbn in K; lia|].
    rewrite HU, HL. cbn [nQ ar xenv exact]. rewrite Q2R_0. split; reflexivity.
  - destruct IH as (HU & HL); [lia|].
    destruct (HS i (Fin (F i)) _ _ Hi (first_nth n F i ltac:(lia)) HU HL) as (KU & KL & _).
    rewrite KU, KL, upper_real, lower_real by assumption. rewrite eu_S, el_S. split; reflexivity.
Qed.

Lemma series_uptake p F n U L R : p_C p <> 0 -> p_CD p <> 0 -> p_dt p <> 0 ->
  tl_series E (Fin (p_dt p)) (Fin (p_lambda0 p)) (Fin (p_a p)) (Fin (p_eps p)) (Fin (p_eta p)) (Fin (p_C p))
    (Fin (p_CD p)) (first_values reg n F) U L R ->
  forall i, (i < n)%nat -> nth_error R i = Some (Fin (en p F i)).
Proof.
  intros HC HCD Hdt HH i Hi. pose proof (series_temps p F n U L R HC HCD HH) as HT.
  destruct HH as (LU & LL & LR & H0 & HS). rewrite first_length in *.
  destruct i as [|i].
  - destruct H0 as (_ & _ & HR); [intros K; apply (f_equal (@List.length _)) in K; rewrite first_length in K; cbn in K; lia|].
    rewrite HR. cbn [nQ ar xenv exact]. rewrite Q2R_0. reflexivity.
  - destruct (HT i ltac:(lia)) as (HU & HL).
    destruct (HT (S i) Hi) as (HU' & HL').
    destruct (HS i (Fin (F i)) _ _ Hi (first_nth n F i ltac:(lia)) HU HL) as (KU & KL & KR).
    rewrite HU' in KU. rewrite HL' in KL. injection KU as KU. injection KL as KL. rewrite <- KU, <- KL in KR.
    rewrite KR, rndt_real by assumption. reflexivity.
Qed.

Lemma cap_neq d : d <> 0 -> water_capacity d <> 0.
Proof. intros H K. apply H. unfold water_capacity in K. lra. Qed.
Lemma cap_zero d : water_capacity d = 0 -> d = 0.
Proof. unfold water_capacity. lra. Qed.
Lemma cap_pos d : 0 < d -> 0 < water_capacity d.
Proof. unfold water_capacity. lra. Qed.

Section Run.
Variables (s : TL E) (p : TLP) (e : QArr E) (F : nat -> R).
Hypothesis Hr : tl_reachable E parse s.
Hypothesis Hv : tl_values reg s p.
Hypothesis HF : is_series reg e F u_Wm2.
Let n := npoints e.

Lemma run_series : exists s' U L R,
    tl_drive E e s = (s', Ok tt) /\
    tl_outputs E s' =
      [("Surface Temperature|Upper", "delta_degC", U);
       ("Surface Temperature|Lower", "delta_degC", L);
       ("Heat Uptake", "W/m^2", R)]%string /\
    tl_series E (Fin (p_dt p)) (Fin (p_lambda0 p)) (Fin (p_a p)) (Fin (p_eps p)) (Fin (p_eta p)) (Fin (p_C p))
      (Fin (p_CD p)) (first_values reg n F) U L R.
Proof.
  pose proof (values_numbers s p Hr Hv) as N. destruct N as [N1 N2 N3 N4 N5 N6 N7 N8 N9].
  pose proof (c01_two_layer_shape E s e (first_values reg n F) (is_series_to_mags reg e F _ HF)
                (is_series_nan_free reg e F _ HF)) as (s' & U & L & R & H1 & H2 & _ & H3).
  rewrite N3, N4, N5, N6, N7, N8, N9 in H3. eauto 10.
Qed.

Lemma run_temps : p_du p <> 0 -> p_dl p <> 0 -> tl_reports_temps reg s e (eu p F) (el p F).
Proof.
  intros H1 H2. destruct run_series as (s' & U & L & R & Hd & Ho & HS).
  pose proof (series_temps p F n U L R (cap_neq _ H1) (cap_neq _ H2) HS) as HT.
  destruct HS as (LU & LL & LR & _). rewrite first_length in *.
  exists s', R. split; [exact Hd|]. rewrite Ho. fold n.
  rewrite (is_first n (eu p F) U), (is_first n (el p F) L); auto; intros i Hi; apply HT, Hi.
Qed.

Lemma run_reports : p_du p <> 0 -> p_dl p <> 0 -> p_dt p <> 0 -> tl_reports reg s e (eu p F) (el p F) (en p F).
Proof.
  intros H1 H2 H3. destruct run_series as (s' & U & L & R & Hd & Ho & HS).
  pose proof (series_temps p F n U L R (cap_neq _ H1) (cap_neq _ H2) HS) as HT.
  pose proof (series_uptake p F n U L R (cap_neq _ H1) (cap_neq _ H2) H3 HS) as HN.
  destruct HS as (LU & LL & LR & _). rewrite first_length in *.
  exists s'. split; [exact Hd|]. rewrite Ho. fold n.
  rewrite (is_first n (eu p F) U), (is_first n (el p F) L), (is_first n (en p F) R); auto; intros i Hi; apply HT, Hi.
Qed.

(** Everything a report says. *)
Lemma temps_inv T TD : tl_reports_temps reg s e T TD ->
  ((2 <= n)%nat -> p_du p <> 0 /\ p_dl p <> 0) /\
  forall i, (i < n)%nat -> T i = eu p F i /\ TD i = el p F i.
Proof.
  intros (s1 & N & Hd & Ho).
  destruct run_series as (s' & U & L & R & Hd' & Ho' & HS).
  rewrite Hd in Hd'. injection Hd' as <-. rewrite Ho in Ho'. injection Ho' as <- <- <-. fold n in HS.
  assert (K : (2 <= n)%nat -> p_du p <> 0 /\ p_dl p <> 0).
  { intros Hn. pose proof HS as (_ & _ & _ & _ & HSS). rewrite first_length in HSS.
    destruct (HSS 0%nat _ _ _ ltac:(lia) (first_nth n F 0 ltac:(lia)) (first_nth n T 0 ltac:(lia)) (first_nth n TD 0 ltac:(lia)))
      as (KU & KL & _).
    rewrite first_nth in KU, KL by lia. unfold calculate_next_temp_upper, calculate_next_temp_lower in *.
    cbn in KU, KL. split; intros Hz.
    - destruct (Req_EM_T (p_C p) 0) as [|Hne]; [discriminate KU|]. apply Hne. unfold p_C. rewrite Hz. unfold water_capacity. lra.
    - destruct (Req_EM_T (p_CD p) 0) as [|Hne]; [discriminate KL|]. apply Hne. unfold p_CD. rewrite Hz. unfold water_capacity. lra. }
  split; [exact K|]. intros i Hi.
  destruct (Nat.lt_ge_cases n 2) as [Hn|Hn].
  - assert (i = 0%nat) by lia. subst i.
    destruct HS as (_ & _ & _ & H0 & _).
    destruct H0 as (H01 & H02 & _); [intros Z; apply (f_equal (@List.length _)) in Z; rewrite first_length in Z; cbn in Z; lia|].
    rewrite first_nth in H01, H02 by assumption. cbn [nQ ar xenv exact] in H01, H02. rewrite Q2R_0 in H01, H02.
    split; [unfold eu|unfold el]; cbn; congruence.
  - destruct (K Hn) as (K1 & K2).
    pose proof (series_temps p F n _ _ _ (cap_neq _ K1) (cap_neq _ K2) HS i Hi) as (J1 & J2).
    rewrite first_nth in J1, J2 by assumption. split; congruence.
Qed.

Lemma reports_temps T TD N : tl_reports reg s e T TD N -> tl_reports_temps reg s e T TD.
Proof. intros (s1 & Hd & Ho). exists s1. eexists. split; [exact Hd|exact Ho]. Qed.

Lemma reports_inv T TD N : tl_reports reg s e T TD N ->
  ((2 <= n)%nat -> p_du p <> 0 /\ p_dl p <> 0 /\ p_dt p <> 0) /\
  forall i, (i < n)%nat -> T i = eu p F i /\ TD i = el p F i /\ N i = en p F i.
Proof.
  intros HR. pose proof (reports_temps _ _ _ HR) as HT. apply temps_inv in HT as (HT1 & HT2).
  destruct HR as (s1 & Hd & Ho).
  destruct run_series as (s' & U & L & R & Hd' & Ho' & HS).
  rewrite Hd in Hd'. injection Hd' as <-. rewrite Ho in Ho'. injection Ho' as <- <- <-. fold n in HS.
  assert (K : (2 <= n)%nat -> p_dt p <> 0).
  { intros Hn. pose proof HS as (_ & _ & _ & _ & HSS). rewrite first_length in HSS.
    destruct (HSS 0%nat _ _ _ ltac:(lia) (first_nth n F 0 ltac:(lia)) (first_nth n T 0 ltac:(lia)) (first_nth n TD 0 ltac:(lia)))
      as (KU & KL & KR).
    rewrite first_nth in KU, KL, KR by lia. injection KU as KU. injection KL as KL. rewrite <- KU, <- KL in KR.
    unfold calculate_next_rndt in KR. cbn in KR. destruct (Req_EM_T (p_dt p) 0); [discriminate KR|assumption]. }
  split; [intros Hn; destruct (HT1 Hn); auto|]. intros i Hi. destruct (HT2 i Hi) as (J1 & J2). split; [exact J1|]. split; [exact J2|].
  destruct (Nat.lt_ge_cases n 2) as [Hn|Hn].
  - assert (i = 0%nat) by lia. subst i.
    destruct HS as (_ & _ & _ & H0 & _).
    destruct H0 as (_ & _ & H03); [intros Z; apply (f_equal (@List.length _)) in Z; rewrite first_length in Z; cbn in Z; lia|].
    rewrite first_nth in H03 by assumption. cbn [nQ ar xenv exact] in H03. rewrite Q2R_0 in H03.
    cbn [en]. congruence.
  - destruct (HT1 Hn) as (K1 & K2).
    pose proof (series_uptake p F n _ _ _ (cap_neq _ K1) (cap_neq _ K2) (K Hn) HS i Hi) as J3.
    rewrite first_nth in J3 by assumption. congruence.
Qed.
End Run.
End TLR.
