(** Property C60: the doubles a model reports against the exact solution of the
    equations with the user's physical parameters. *)
From Coq Require Import List String QArith Qreals Reals Bool Arith Lra Lia Psatz.
From Flocq Require Import Core IEEE754.BinarySingleNaN.
From Verif Require FactsRun.
From Verif Require Import Arith Pint Base TwoLayer Impulse Scm Api Spec Demo Exact SpecReal RealUnits RealConv RealGeo RealEuler RealBox RealEquiv
  GenTL GenTLHist GenIR GenIRHist Float SpecRound FloatTL FloatRun FloatBox SpecRefine FactsFloat FactsRefine SpecPhysical FloatPhys FloatPert.
Import ListNotations.
Local Open Scope R_scope.

Section Glue.
Variable reg : Registry.
Variable bexp : b64 -> b64.
Variable rf : Units -> b64.
Notation E := (fenv bexp (rg_ndim reg) (rg_dim reg) rf).
Hypothesis acc : accurate_registry reg rf.
Notation tl_numbers := (tl_numbers bexp (rg_ndim reg) (rg_dim reg) rf).
Notation reads := (reads bexp (rg_ndim reg) (rg_dim reg) rf).
Notation reads_series := (reads_series bexp (rg_ndim reg) (rg_dim reg) rf).

Lemma reads_near q x u : stands_for reg bexp rf q x u -> x = 0 \/ ordinary x -> exists y, reads q u y /\ rel (half 48) x y.
Proof. intros H Hx. destruct (read_near reg bexp rf acc q x u H Hx) as (z & Z1 & Z2 & Z3). exists (B2R z). split; [exists z; auto|exact Z3]. Qed.
Lemma rel_0 a x : rel a 0 x -> x = 0.
Proof.
  unfold rel. rewrite Rabs_R0, Rminus_0_r, Rmult_0_r. intros H. pose proof (Rabs_pos x).
  destruct (Req_dec x 0) as [e|e]; [exact e|]. pose proof (Rabs_pos_lt _ e). lra.
Qed.
Lemma moderate_rel x y : 0 < x <= two 140 -> rel (half 48) x y -> moderate y.
Proof.
  intros Hx H. pose proof (h_small) as [H0 H1]. pose proof (rel_bounds _ _ _ (proj1 Hx) H) as B. unfold moderate.
  assert (T : 2 * two 140 <= two 150) by (unfold two; rewrite <- mult_IZR; apply IZR_le; vm_compute; discriminate).
  rewrite Rabs_right; nra.
Qed.
Lemma divisor_rel x y : half 140 <= x -> rel (half 48) x y -> moderate_divisor y.
Proof.
  intros Hx H. pose proof (half_pos 140) as Hh. pose proof (h_small) as [H0 H1].
  assert (Px : 0 < x) by lra. pose proof (rel_bounds _ _ _ Px H) as B. unfold moderate_divisor.
  assert (T : half 150 <= / 2 * half 140) by (rewrite <- half_1, half_mul; apply half_le_half; vm_compute; discriminate).
  rewrite Rabs_right; nra.
Qed.
Lemma ordinary_140 x : ordinary x -> 0 < x <= two 140 /\ half 140 <= x.
Proof.
  intros [H1 H2]. pose proof (half_pos 100). pose proof (two_le 100 140 ltac:(lia)). pose proof (half_le_half 100 140 ltac:(lia)). lra.
Qed.
Lemma capacity_140 d : ordinary d -> 0 < water_capacity d <= two 140 /\ half 140 <= water_capacity d.
Proof.
  intros [H1 H2]. pose proof (half_pos 100). unfold water_capacity. pose proof (half_le_half 100 140 ltac:(lia)).
  assert (1000 * 4181 * two 100 <= two 140) by (unfold two; rewrite <- !mult_IZR; apply IZR_le; vm_compute; discriminate). lra.
Qed.

Lemma tl_read (s : TL E) p : tl_stands_for reg bexp rf s p -> ordinary_tl p ->
  exists c', tl_numbers s c' /\ moderate_tl c' /\ n_a c' = 0 /\
    rel (half 48) (p_dt p) (n_dt c') /\ rel (half 48) (p_lambda0 p) (n_lambda0 c') /\ rel (half 48) (p_eps p) (n_eps c') /\
    rel (half 48) (p_eta p) (n_eta c') /\ rel (half 48) (p_C p) (n_C c') /\ rel (half 48) (p_CD p) (n_CD c').
Proof.
  intros (S1 & S2 & S3 & S4 & S5 & S6 & S7) (O1 & O2 & O3 & O4 & O5 & O6 & O7).
  destruct (reads_near _ _ _ S3 (or_intror O3)) as (l & L1 & L2). destruct (reads_near _ _ _ S4 (or_introl O4)) as (a & A1 & A2).
  destruct (reads_near _ _ _ S5 (or_intror O5)) as (e & E1 & E2). destruct (reads_near _ _ _ S6 (or_intror O6)) as (h & H1 & H2).
  destruct (reads_near _ _ _ S7 (or_intror O7)) as (d & D1 & D2).
  destruct (capacity_near reg bexp rf acc _ _ S1 O1) as (zc & C1 & C2 & C3).
  destruct (capacity_near reg bexp rf acc _ _ S2 O2) as (zd & G1 & G2 & G3).
  rewrite O4 in A2. apply rel_0 in A2. subst a.
  exists (mkTLN d l 0 e h (B2R zc) (B2R zd)). cbn [n_dt n_lambda0 n_a n_eps n_eta n_C n_CD].
  destruct (ordinary_140 _ O3) as [Q3 _]. destruct (ordinary_140 _ O5) as [Q5 _]. destruct (ordinary_140 _ O6) as [Q6 _].
  destruct (ordinary_140 _ O7) as [Q7 _]. destruct (capacity_140 _ O1) as [Q1 Q1']. destruct (capacity_140 _ O2) as [Q2 Q2'].
  split; [|split; [|split; [reflexivity|repeat (split; [assumption|]); assumption]]].
  - unfold SpecRound.tl_numbers. cbn [n_dt n_lambda0 n_a n_eps n_eta n_C n_CD]. repeat (split; [assumption|]).
    split; [exists zc; auto|exists zd; auto].
  - unfold moderate_tl. cbn [n_dt n_lambda0 n_a n_eps n_eta n_C n_CD].
    repeat split; try (eapply moderate_rel; [|eassumption]; assumption); try (eapply divisor_rel; [|eassumption]; assumption).
    unfold moderate. rewrite Rabs_R0. left. apply two_pos.
Qed.

Lemma series_read (e : QArr E) F u : u = u_Wm2 -> series_stands_for reg bexp rf e F u ->
  (forall i, (i < List.length (mags e))%nat -> Rabs (F i) <= two 500) ->
  exists F', reads_series e F' /\ forall i, (i < List.length (mags e))%nat -> Rabs (F' i - F i) <= half 49 * Rabs (F i) + half 1000.
Proof.
  intros Eu (Hc & Hv) HF.
  assert (K : forall i (z : b64), nth_error (mags e) i = Some (z : num E) -> exists z' : b64,
    conv E (z : num E) (aunits e) u = Ok (z' : num E) /\ is_finite z' = true /\ Rabs (B2R z' - F i) <= half 49 * Rabs (F i) + half 1000).
  { intros i z Hz. destruct (Hv i z Hz) as (Fz & Vz).
    assert (Vi : B2R z * (usize reg (aunits e) / usize reg u) = F i).
    { unfold Rdiv. rewrite <- Rmult_assoc, Vz. field. apply usize_neq. }
    destruct (conv_near reg bexp rf acc z (B2R z) 0 (aunits e) u Hc Fz) as (z' & Z1 & Z2 & _ & Z4).
    - pose proof (half_pos 51). lra.
    - rewrite Rminus_diag_eq, Rabs_R0 by reflexivity. lra.
    - rewrite Vi. apply HF. apply nth_error_Some. rewrite Hz. discriminate.
    - rewrite Vi in Z4. exists z'. auto. }
  destruct Hc as (Hd & Ho).
  assert (Hdb : dim_eqb E (aunits e) u = true).
  { unfold dim_eqb. apply forallb_forall. intros k Hk. apply in_seq in Hk. apply Qeq_bool_iff. apply Hd. lia. }
  set (cv := fun z : b64 => if units_eqb (aunits e) u then z else Bmult mode_NE z (rf (udiv (aunits e) u))).
  set (l := map cv (mags e : list b64)).
  assert (Hl : to_mags E e u = Ok (l : list (num E))).
  { unfold to_mags. rewrite Hdb. unfold l, cv. destruct (units_eqb (aunits e) u); [rewrite map_id|]; reflexivity. }
  exists (fun i => match nth_error l i with Some z => B2R z | None => 0 end).
  assert (K' : forall i (z : b64), nth_error (mags e) i = Some (z : num E) -> nth_error l i = Some (cv z) /\ is_finite (cv z) = true /\
    Rabs (B2R (cv z) - F i) <= half 49 * Rabs (F i) + half 1000).
  { intros i z Hz. destruct (K i z Hz) as (z' & Z1 & Z2 & Z3). unfold conv in Z1. rewrite Hdb in Z1.
    assert (Ez : cv z = z') by (unfold cv; destruct (units_eqb (aunits e) u); injection Z1; auto).
    rewrite Ez. split; [|auto]. rewrite <- Ez. unfold l. apply (map_nth_error cv). exact Hz. }
  split.
  - split.
    + intros x Hx. apply In_nth_error in Hx. destruct Hx as (i & Hi). destruct (Hv i x Hi) as (Fx & _).
      destruct (x : b64); cbn in *; try discriminate; reflexivity.
    + exists l. rewrite <- Eu. split; [exact Hl|]. intros i z Hz. rewrite Hz.
      assert (Li : (i < List.length (mags e))%nat).
      { replace (List.length (mags e)) with (List.length l) by apply map_length. apply nth_error_Some. rewrite Hz. discriminate. }
      apply nth_error_Some in Li. destruct (nth_error (mags e) i) as [z0|] eqn:E0; [|contradiction].
      destruct (K' i z0 E0) as (A & B & _). rewrite Hz in A. injection A as ->. auto.
  - intros i Hi. apply nth_error_Some in Hi. destruct (nth_error (mags e) i) as [z0|] eqn:E0; [|contradiction].
    destruct (K' i z0 E0) as (A & _ & B). rewrite A. exact B.
Qed.
End Glue.

(** The simple step condition bounds the step by the fast timescale. *)
Lemma step_le_tau1 C CD l e h dt : 0 < C -> 0 < CD -> 0 < l -> 0 < e -> 0 < h ->
  dt * ((l + e * h) / C + h / CD) <= 1 -> dt <= gtau1 C CD l e h.
Proof.
  intros HC HCD Hl He Hh H.
  pose proof (gtau1_pos C CD l e h HC HCD Hl He Hh) as T1. pose proof (gtau_lt C CD l e h HC HCD Hl He Hh) as T2.
  pose proof (tau_prod C CD l e h HC HCD Hl He Hh) as Pr. pose proof (tau_sum C CD l e h HC HCD Hl He Hh) as Sm.
  set (t1 := gtau1 C CD l e h) in *. set (t2 := gtau2 C CD l e h) in *.
  assert (Hb : gb C CD l e h = (l + e * h) / C + h / CD) by reflexivity. rewrite <- Hb in H. rewrite <- Pr in Sm.
  assert (t1 * gb C CD l e h = 1 + t1 / t2).
  { apply Rmult_eq_reg_r with t2; [|lra]. replace ((1 + t1 / t2) * t2) with (t2 + t1) by (field; lra). lra. }
  assert (0 < t1 / t2) by (apply Rdiv_lt_0_compat; lra).
  assert (Pb : 0 < gb C CD l e h).
  { rewrite Hb. assert (0 < (l + e * h) / C) by (apply Rdiv_lt_0_compat; nra). assert (0 < h / CD) by (apply Rdiv_lt_0_compat; lra). lra. }
  apply Rmult_le_reg_r with (gb C CD l e h); [exact Pb|]. lra.
Qed.
Lemma exact_run_euler p F i : exact_run (coefficients p) F i = euler p F i.
Proof.
  induction i as [|i IH]; [reflexivity|]. cbn [exact_run euler]. rewrite IH. destruct (euler p F i) as [T TD]. reflexivity.
Qed.

(** ** C60 *)
(** The doubles of a run against the recurrence with the user's parameters. *)
Lemma tl_run_near : forall reg bexp rf parse s p e F M U L N,
  let E := fenv bexp (rg_ndim reg) (rg_dim reg) rf in
  accurate_registry reg rf -> tl_reachable E parse s ->
  tl_stands_for reg bexp rf s p -> ordinary_tl p -> series_stands_for reg bexp rf e F u_Wm2 ->
  p_dt p * ((p_lambda0 p + p_eps p * p_eta p) / p_C p + p_eta p / p_CD p) <= 1 ->
  half 42 * (1 + theta (coefficients p)) <= damping (coefficients p) ->
  ordinary M -> ordinary (p_lambda0 p * M) ->
  (forall i, (i < List.length (mags e))%nat -> Rabs (F i) <= p_lambda0 p * M) ->
  tl_gives bexp (rg_ndim reg) (rg_dim reg) rf s e U L N ->
  close_series bexp (rg_ndim reg) (rg_dim reg) rf U (fun i => fst (exact_run (coefficients p) F i))
      (half 42 * M / damping (coefficients p)) /\
  close_series bexp (rg_ndim reg) (rg_dim reg) rf L (fun i => snd (exact_run (coefficients p) F i))
      ((1 + theta (coefficients p)) * (half 42 * M / damping (coefficients p))).
Proof.
  intros reg bexp rf parse s p e F M U L N E acc Hr HS HO He Hdt Hk OM OF HF Hg.
  destruct (tl_read reg bexp rf acc s p HS HO) as (c' & Hn & Hm & Ha & N1 & N2 & N3 & N4 & N5 & N6).
  pose proof HO as (O1 & O2 & O3 & O4 & O5 & O6 & O7).
  pose proof (ordinary_pos _ O1) as P1. pose proof (ordinary_pos _ O2) as P2. pose proof (ordinary_pos _ O3) as P3.
  pose proof (ordinary_pos _ O5) as P5. pose proof (ordinary_pos _ O6) as P6. pose proof (ordinary_pos _ O7) as P7.
  pose proof (ordinary_pos _ OM) as PM. pose proof (ordinary_pos _ OF) as PF.
  assert (QC : 0 < p_C p) by (unfold p_C, water_capacity; lra). assert (QD : 0 < p_CD p) by (unfold p_CD, water_capacity; lra).
  destruct (series_read reg bexp rf acc e F u_Wm2 eq_refl He) as (F' & HF1 & HF2).
  { intros i Hi. eapply Rle_trans; [apply HF, Hi|]. destruct OF as [_ OF]. eapply Rle_trans; [exact OF|]. apply two_le. lia. }
  set (c := coefficients p) in *.
  assert (pos : 0 < n_dt c /\ 0 < n_lambda0 c /\ 0 < n_eps c /\ 0 < n_eta c /\ 0 < n_C c /\ 0 < n_CD c) by (cbn; repeat split; assumption).
  assert (za : n_a c = 0 /\ n_a c' = 0) by (split; assumption).
  assert (nr : rel (half 48) (n_dt c) (n_dt c') /\ rel (half 48) (n_lambda0 c) (n_lambda0 c') /\ rel (half 48) (n_eps c) (n_eps c') /\
    rel (half 48) (n_eta c) (n_eta c') /\ rel (half 48) (n_C c) (n_C c') /\ rel (half 48) (n_CD c) (n_CD c')) by (cbn; repeat split; assumption).
  assert (Qx : 0 < p_dt p * ((p_lambda0 p + p_eps p * p_eta p) / p_C p) /\ 0 < p_dt p * (p_eta p / p_CD p)).
  { assert (0 < p_eps p * p_eta p) by (apply Rmult_lt_0_compat; assumption).
    split; (apply Rmult_lt_0_compat; [assumption|]); apply Rdiv_lt_0_compat; lra. }
  assert (st : stable_tl c).
  { unfold stable_tl. cbn [c coefficients n_dt n_lambda0 n_a n_eps n_eta n_C n_CD]. repeat (split; [assumption|]).
    split.
    - apply Rmult_le_reg_r with (/ p_C p); [now apply Rinv_0_lt_compat|]. rewrite Rinv_r by lra.
      replace (p_dt p * (p_lambda0 p + p_eps p * p_eta p) * / p_C p) with (p_dt p * ((p_lambda0 p + p_eps p * p_eta p) / p_C p)) by (field; lra). lra.
    - apply Rmult_le_reg_r with (/ p_CD p); [now apply Rinv_0_lt_compat|]. rewrite Rinv_r by lra.
      replace (p_dt p * p_eta p * / p_CD p) with (p_dt p * (p_eta p / p_CD p)) by (field; lra). lra. }
  destruct u_tiny as [U1 U0]. pose proof halves as (E49 & E50 & E46 & E52 & E51 & E47 & E48 & E45 & E44 & E43 & E42).
  pose proof (half_pos 400) as h400. pose proof (half_pos 1000) as h1000.
  (* tiny numbers *)
  assert (Tg : n_dt c / n_C c * half 1000 <= half 400).
  { cbn [c coefficients n_dt n_C]. destruct O7 as [_ D1].
    assert (half 100 <= p_C p) by (unfold p_C, water_capacity; destruct O1 as [O1 _]; lra).
    assert (/ p_C p <= two 100).
    { apply Rmult_le_reg_l with (p_C p); [assumption|]. rewrite Rinv_r by lra. pose proof (two_half 100). pose proof (two_pos 100). nra. }
    apply Rle_trans with (two 100 * two 100 * half 1000).
    - apply Rmult_le_compat_r; [lra|]. unfold Rdiv. apply mulle; try lra. left. now apply Rinv_0_lt_compat.
    - rewrite two_mul. apply Rle_trans with (two 200 * (half 200 * half 800)); [right; rewrite half_mul; reflexivity|].
      rewrite <- Rmult_assoc, two_half, Rmult_1_l. apply half_le_half. lia. }
  assert (Tm : half 400 <= half 53 * M).
  { apply Rle_trans with (half 53 * half 100); [rewrite half_mul; apply half_le_half; vm_compute; discriminate|].
    apply Rmult_le_compat_l; [lra|]. apply OM. }
  assert (Mods : moderate (2 * M) /\ two 100 * 2 <= two 150).
  { assert (two 100 * 2 <= two 150) by (unfold two; rewrite <- mult_IZR; apply IZR_le; vm_compute; discriminate).
    split; [|assumption]. unfold moderate. rewrite Rabs_right by lra. destruct OM. lra. }
  destruct Mods as [M2 M3].
  set (n := List.length (mags e)) in *.
  assert (LU : List.length U = n) by (destruct Hg as (_ & _ & _ & LU & _); exact LU).
  assert (LL : List.length L = n) by (destruct Hg as (_ & _ & _ & _ & LL & _); exact LL).
  set (x := fun i => match nth_error U i with Some z => B2R (z : b64) | None => 0 end).
  set (y := fun i => match nth_error L i with Some z => B2R (z : b64) | None => 0 end).
  (* entries are finite, by induction along the run; x and y follow the equations up to half 42 * M *)
  assert (Zero : forall i (z : b64), i = 0%nat -> (nth_error U i = Some (z : num E) -> is_finite z = true /\ B2R z = 0) /\
                                          (nth_error L i = Some (z : num E) -> is_finite z = true /\ B2R z = 0)).
  { intros i z ->. destruct (tl_gives_series bexp _ _ rf s e F' U L N Hg HF1) as (fs & Ser & Len & _).
    destruct Ser as (S1 & S2 & S3 & Z & _).
    split; intros Hz.
    - destruct Z as (Z1 & _). { intros ->. cbn in S1. destruct U; [discriminate Hz|discriminate S1]. }
      pose proof (some_inj _ _ (eq_trans (eq_sym Hz) (Z1 : nth_error (U : list b64) 0 = Some (b64_of_Q 0)))) as Q1.
      rewrite b64_zero in Q1. rewrite Q1. auto.
    - destruct Z as (_ & Z2 & _). { intros ->. cbn in S2. destruct L; [discriminate Hz|discriminate S2]. }
      pose proof (some_inj _ _ (eq_trans (eq_sym Hz) (Z2 : nth_error (L : list b64) 0 = Some (b64_of_Q 0)))) as Q1.
      rewrite b64_zero in Q1. rewrite Q1. auto. }
  set (ok := fun i => (forall z : b64, nth_error U i = Some (z : num E) -> is_finite z = true) /\
                     (forall z : b64, nth_error L i = Some (z : num E) -> is_finite z = true)).
  assert (RA : forall i, (i < n)%nat -> ok i /\
    Rabs (x i - fst (exact_run c F i)) <= half 42 * M / damping c /\
    Rabs (y i - snd (exact_run c F i)) <= (1 + theta c) * (half 42 * M / damping c)).
  { apply run_abstract; try assumption; try lra.
    - unfold x. destruct (nth_error U 0) as [z|] eqn:Ez; [|reflexivity]. exact (proj2 (proj1 (Zero 0%nat z eq_refl) Ez)).
    - unfold y. destruct (nth_error L 0) as [z|] eqn:Ez; [|reflexivity]. exact (proj2 (proj2 (Zero 0%nat z eq_refl) Ez)).
    - intros _. split; intros z Hz; [exact (proj1 (proj1 (Zero 0%nat z eq_refl) Hz))|exact (proj1 (proj2 (Zero 0%nat z eq_refl) Hz))].
    - intros i Hi (OU & OL) X2 Y2. unfold x, y in X2, Y2.
      destruct (nth_error U i) as [t|] eqn:EU; [|apply nth_error_None in EU; lia].
      destruct (nth_error L i) as [d|] eqn:EL; [|apply nth_error_None in EL; lia].
      assert (Fi : Rabs (F i) <= p_lambda0 p * M) by (apply HF; lia).
      pose proof (HF2 i ltac:(lia)) as HFi.
      assert (MF : moderate (F' i)).
      { unfold moderate. replace (F' i) with (F i + (F' i - F i)) by ring. eapply Rle_trans; [apply Rabs_triang|].
        destruct OF as [OF1 OF2]. pose proof (tiny_ordinary _ (conj OF1 OF2)).
        assert (half 49 * Rabs (F i) <= / 4 * Rabs (F i)) by (apply Rmult_le_compat_r; [apply Rabs_pos|]; rewrite E49; lra).
        assert (half 53 * (p_lambda0 p * M) <= / 4 * (p_lambda0 p * M)) by (apply Rmult_le_compat_r; lra). lra. }
      assert (MT : moderate (B2R (t : b64))) by (unfold moderate in *; rewrite Rabs_right in M2 by lra; lra).
      assert (MD : moderate (B2R (d : b64))) by (unfold moderate in *; rewrite Rabs_right in M2 by lra; lra).
      destruct (c44_two_layer_step bexp _ _ rf parse s c' e F' U L N Hr Hn Hm HF1 Hg i t d EU EL Hi (OU t eq_refl) (OL d eq_refl) MT MD MF)
        as (t' & d' & EU' & EL' & Ft & Fd & B1 & B2).
      split; [split; intros z Hz; [rewrite EU' in Hz|rewrite EL' in Hz]; injection Hz as <-; assumption|].
      unfold x, y. rewrite EU, EL, EU', EL'.
      assert (HFi' : Rabs (F' i - F i) <= half 48 * Rabs (F i) + half 1000).
      { eapply Rle_trans; [exact HFi|]. apply Rplus_le_compat_r, Rmult_le_compat_r; [apply Rabs_pos|]. rewrite E48, E49. lra. }
      destruct (sizes c st (F i) (B2R (t : b64)) (B2R (d : b64)) M Fi X2 Y2) as [Z1 Z2].
      pose proof (pos' c c' pos nr) as (Q1 & Q2 & Q3 & Q4 & Q5 & Q6). destruct pos as (Q1' & Q2' & Q3' & Q4' & Q5' & Q6').
      pose proof (upper_pert c c' (conj Q1' (conj Q2' (conj Q3' (conj Q4' (conj Q5' Q6'))))) za nr (F i) (F' i) (B2R (t : b64)) (B2R (d : b64)) (half 1000) ltac:(lra) HFi') as A1.
      pose proof (lower_pert c c' (conj Q1' (conj Q2' (conj Q3' (conj Q4' (conj Q5' Q6'))))) nr (B2R (t : b64)) (B2R (d : b64))) as A2.
      pose proof (usum_pert c c' (conj Q1' (conj Q2' (conj Q3' (conj Q4' (conj Q5' Q6'))))) nr (F i) (F' i) (B2R (t : b64)) (B2R (d : b64)) (half 1000) ltac:(lra) HFi') as A3.
      pose proof (lsum_pert c c' (conj Q1' (conj Q2' (conj Q3' (conj Q4' (conj Q5' Q6'))))) nr (B2R (t : b64)) (B2R (d : b64))) as A4.
      rewrite usize_of in B1 by (try assumption; apply za). rewrite usize_of in Z1 by (try assumption; apply za).
      rewrite lsize_of in B2 by assumption. rewrite lsize_of in Z2 by assumption.
      pose proof (Rabs_pos (B2R (t : b64))) as PT. pose proof (Rabs_pos (B2R (d : b64))) as PD. pose proof (Rabs_pos (F i)) as PFi.
      assert (UM : 0 < half 53 * M) by (apply Rmult_lt_0_compat; assumption).
      assert (Tmm : half 53 * half 400 <= half 53 * M).
      { apply Rmult_le_compat_l; [lra|]. eapply Rle_trans; [exact Tm|]. assert (half 53 * M <= 1 * M) by (apply Rmult_le_compat_r; lra). lra. }
      split.
      + replace (B2R (t' : b64) - exact_upper c (F i) (B2R (t : b64)) (B2R (d : b64))) with
          ((B2R (t' : b64) - exact_upper c' (F' i) (B2R (t : b64)) (B2R (d : b64))) +
           (exact_upper c' (F' i) (B2R (t : b64)) (B2R (d : b64)) - exact_upper c (F i) (B2R (t : b64)) (B2R (d : b64)))) by ring.
        eapply Rle_trans; [apply Rabs_triang|]. eapply Rle_trans; [apply Rplus_le_compat; [exact B1|exact A1]|].
        set (Su := usum c (Rabs (F i)) (Rabs (B2R (t : b64))) (Rabs (B2R (d : b64)))) in *.
        set (Su' := usum c' (Rabs (F' i)) (Rabs (B2R (t : b64))) (Rabs (B2R (d : b64)))) in *.
        set (gt := n_dt c / n_C c * half 1000) in *. replace (2 * (n_dt c / n_C c) * half 1000) with (2 * gt) in * by (unfold gt; ring).
        rewrite E49, E48, E42. set (u := half 53) in *.
        assert (u * (Rabs (B2R (t : b64)) + Su' + half 400) <= u * (2 * (6 * M) + 2 * gt + half 400)) by (apply Rmult_le_compat_l; lra).
        assert (u * Su <= u * (6 * M)) by (apply Rmult_le_compat_l; lra).
        assert (u * gt <= u * half 400) by (apply Rmult_le_compat_l; lra). lra.
      + replace (B2R (d' : b64) - exact_lower c (B2R (t : b64)) (B2R (d : b64))) with
          ((B2R (d' : b64) - exact_lower c' (B2R (t : b64)) (B2R (d : b64))) +
           (exact_lower c' (B2R (t : b64)) (B2R (d : b64)) - exact_lower c (B2R (t : b64)) (B2R (d : b64)))) by ring.
        eapply Rle_trans; [apply Rabs_triang|]. eapply Rle_trans; [apply Rplus_le_compat; [exact B2|exact A2]|].
        set (Su := lsum c (Rabs (B2R (t : b64))) (Rabs (B2R (d : b64)))) in *.
        set (Su' := lsum c' (Rabs (B2R (t : b64))) (Rabs (B2R (d : b64)))) in *.
        rewrite E49, E48, E42. set (u := half 53) in *.
        assert (u * (Rabs (B2R (d : b64)) + Su' + half 400) <= u * (2 * (6 * M) + half 400)) by (apply Rmult_le_compat_l; lra).
        assert (u * Su <= u * (6 * M)) by (apply Rmult_le_compat_l; lra). lra. }
  split; intros i z Hz.
  - assert (Hi : (i < n)%nat) by (rewrite <- LU; apply nth_error_Some; rewrite Hz; discriminate).
    destruct (RA i Hi) as ((OU & _) & B & _). split; [exact (OU z Hz)|]. unfold x in B. rewrite Hz in B. exact B.
  - assert (Hi : (i < n)%nat) by (rewrite <- LL; apply nth_error_Some; rewrite Hz; discriminate).
    destruct (RA i Hi) as ((_ & OL) & _ & B). split; [exact (OL z Hz)|]. unfold y in B. rewrite Hz in B. exact B.
Qed.

Theorem c60_two_layer : forall reg bexp rf parse s p e F M T TD,
  let E := fenv bexp (rg_ndim reg) (rg_dim reg) rf in
  accurate_registry reg rf -> tl_reachable E parse s ->
  tl_stands_for reg bexp rf s p -> ordinary_tl p -> series_stands_for reg bexp rf e F u_Wm2 ->
  p_dt p * ((p_lambda0 p + p_eps p * p_eta p) / p_C p + p_eta p / p_CD p) <= 1 ->
  half 42 * (1 + theta (coefficients p)) <= damping (coefficients p) ->
  ordinary M -> ordinary (p_lambda0 p * M) ->
  (forall i, (i < List.length (mags e))%nat -> Rabs (F i) <= p_lambda0 p * M) ->
  exact_two_layer p F T TD ->
  exists U L N, tl_gives bexp (rg_ndim reg) (rg_dim reg) rf s e U L N /\
    close_series bexp (rg_ndim reg) (rg_dim reg) rf U T
      (half 42 * M / damping (coefficients p) + p_dt p * (p_lambda0 p * M) / p_C p) /\
    close_series bexp (rg_ndim reg) (rg_dim reg) rf L TD
      ((1 + theta (coefficients p)) * (half 42 * M / damping (coefficients p)) +
       2 * p_eta p / (p_CD p * sqrt (discriminant p)) * (p_dt p * (p_lambda0 p * M) / p_C p)).
Proof.
  intros reg bexp rf parse s p e F M T TD E acc Hr HS HO He Hdt Hk OM OF HF HE.
  destruct (tl_read reg bexp rf acc s p HS HO) as (c' & Hn & Hm & Ha & N1 & N2 & N3 & N4 & N5 & N6).
  pose proof HO as (O1 & O2 & O3 & O4 & O5 & O6 & O7).
  pose proof (ordinary_pos _ O1) as P1. pose proof (ordinary_pos _ O2) as P2. pose proof (ordinary_pos _ O3) as P3.
  pose proof (ordinary_pos _ O5) as P5. pose proof (ordinary_pos _ O6) as P6. pose proof (ordinary_pos _ O7) as P7.
  pose proof (ordinary_pos _ OM) as PM. pose proof (ordinary_pos _ OF) as PF.
  assert (QC : 0 < p_C p) by (unfold p_C, water_capacity; lra). assert (QD : 0 < p_CD p) by (unfold p_CD, water_capacity; lra).
  destruct (series_read reg bexp rf acc e F u_Wm2 eq_refl He) as (F' & HF1 & HF2).
  { intros i Hi. eapply Rle_trans; [apply HF, Hi|]. destruct OF as [_ OF]. eapply Rle_trans; [exact OF|]. apply two_le. lia. }
  destruct (tl_gives_ex bexp _ _ rf s e F' HF1) as (U & L & N & Hg). exists U, L, N. split; [exact Hg|].
  destruct (tl_run_near reg bexp rf parse s p e F M U L N acc Hr HS HO He Hdt Hk OM OF HF Hg) as (NU & NL).
  assert (LU : List.length U = List.length (mags e)) by (destruct Hg as (_ & _ & _ & LU & _); exact LU).
  assert (LL : List.length L = List.length (mags e)) by (destruct Hg as (_ & _ & _ & _ & LL & _); exact LL).
  set (c := coefficients p) in *. set (n := List.length (mags e)) in *.
  (* truncation *)
  assert (HP : convertible_tl p) by (repeat split; assumption).
  pose proof (step_le_tau1 _ _ _ _ _ _ QC QD P3 P5 P6 Hdt) as Hs.
  assert (TR : forall i, (i < n)%nat -> Rabs (fst (exact_run c F i) - T i) <= p_dt p * (p_lambda0 p * M) / p_C p /\
    Rabs (snd (exact_run c F i) - TD i) <= 2 * p_eta p / (p_CD p * sqrt (discriminant p)) * (p_dt p * (p_lambda0 p * M) / p_C p)).
  { intros i Hi. unfold c. rewrite exact_run_euler. destruct (exact_modes p HP P7 F T TD HE i) as (-> & ->).
    split.
    - apply (surface_error p HP P7 Hs F (p_lambda0 p * M) i); [intros j Hj; apply HF; lia|lra].
    - apply (deep_error p HP P7 Hs F (p_lambda0 p * M) i); [intros j Hj; apply HF; lia|lra]. }
  split; intros i z Hz.
  - assert (Hi : (i < n)%nat) by (rewrite <- LU; apply nth_error_Some; rewrite Hz; discriminate).
    destruct (NU i z Hz) as (K & B). destruct (TR i Hi) as (B' & _). split; [exact K|].
    replace (B2R z - T i) with ((B2R z - fst (exact_run c F i)) + (fst (exact_run c F i) - T i)) by ring.
    eapply Rle_trans; [apply Rabs_triang|]. lra.
  - assert (Hi : (i < n)%nat) by (rewrite <- LL; apply nth_error_Some; rewrite Hz; discriminate).
    destruct (NL i z Hz) as (K & B). destruct (TR i Hi) as (_ & B'). split; [exact K|].
    replace (B2R z - TD i) with ((B2R z - snd (exact_run c F i)) + (snd (exact_run c F i) - TD i)) by ring.
    eapply Rle_trans; [apply Rabs_triang|]. lra.
Qed.

(** ** Impulse-response boxes *)
Lemma box_rest q d dt F T : d <> 0 -> exact_box_run q d dt F T -> forall i, T i = box_run q d dt F i.
Proof.
  intros Hd (T0 & St). induction i as [|i IH]; [exact T0|]. destruct (St i) as (y & Hy & Ey).
  cbn [box_run]. rewrite <- Ey, <- IH. exact (box_ode_unique _ _ _ _ _ _ Hd Hy).
Qed.
Lemma exp_neg_le_1 x : 0 <= x -> 0 < exp (- x) <= 1.
Proof.
  intros H. split; [apply exp_pos|]. rewrite <- exp_0. destruct H as [H|<-]; [left; apply exp_increasing; lra|right; f_equal; lra].
Qed.
Lemma exp_diff_le x y : 0 <= x <= y -> 0 <= exp (- x) - exp (- y) <= (y - x) * exp (- x).
Proof.
  intros H. replace (- y) with (- x + - (y - x)) by ring. rewrite exp_plus. pose proof (exp_pos (- x)) as P.
  pose proof (exp_ineq1_le (- (y - x))) as Q. destruct (exp_neg_le_1 (y - x) ltac:(lra)) as [_ R]. nra.
Qed.
Lemma exp_pert a x y : 0 < x -> 0 <= a <= / 2 -> rel a x y -> 0 < y /\ Rabs (exp (- y) - exp (- x)) <= 2 * a.
Proof.
  intros Hx Ha H. pose proof (rel_bounds a x y Hx H) as B. assert (Hy : / 2 * x <= y) by nra. split; [lra|].
  assert (K : forall z, / 2 * x <= z -> x * exp (- z) <= 2).
  { intros z Hz. pose proof (exp_ineq1_le z) as E1. rewrite exp_Ropp. assert (0 < exp z) by apply exp_pos.
    apply Rmult_le_reg_r with (exp z); [assumption|]. rewrite Rmult_assoc, Rinv_l by lra. lra. }
  unfold rel in H. rewrite (Rabs_right x) in H by lra. apply Rabs_elim in H.
  destruct (Rle_dec x y) as [L|L].
  - pose proof (exp_diff_le x y ltac:(lra)) as D. rewrite Rabs_left1 by lra. pose proof (K x ltac:(lra)) as Kx.
    assert ((y - x) * exp (- x) <= a * x * exp (- x)) by (apply Rmult_le_compat_r; [left; apply exp_pos|lra]).
    assert (a * (x * exp (- x)) <= a * 2) by (apply Rmult_le_compat_l; lra). lra.
  - pose proof (exp_diff_le y x ltac:(lra)) as D. rewrite Rabs_right by lra. pose proof (K y ltac:(lra)) as Ky.
    assert ((x - y) * exp (- y) <= a * x * exp (- y)) by (apply Rmult_le_compat_r; [left; apply exp_pos|lra]).
    assert (a * (x * exp (- y)) <= a * 2) by (apply Rmult_le_compat_l; lra). lra.
Qed.
Lemma box_abstract (q d dt : R) (F : nat -> R) (M k : R) (n : nat) (x : nat -> R) (ok : nat -> Prop) :
  0 < dt -> 0 < d -> 0 <= M -> 0 <= k -> k <= 1 - exp (- dt / d) ->
  (forall i, (i < n)%nat -> Rabs (q * F i) <= M) ->
  x 0%nat = 0 -> ((0 < n)%nat -> ok 0%nat) ->
  (forall i, (S i < n)%nat -> ok i -> Rabs (x i) <= 2 * M ->
     ok (S i) /\ Rabs (x (S i) - box_solution q d (F i) (x i) dt) <= k * M) ->
  forall i, (i < n)%nat -> ok i /\ Rabs (x i - box_run q d dt F i) <= k * M / (1 - exp (- dt / d)) /\ Rabs (x i) <= 2 * M.
Proof.
  intros Hdt Hd HM Hk Hkd HF X0 K0 St. set (e := exp (- dt / d)) in *.
  assert (He : 0 < e < 1).
  { unfold e. split; [apply exp_pos|]. rewrite <- exp_0. apply exp_increasing.
    replace (- dt / d) with (- (dt / d)) by (field; lra). assert (0 < dt / d) by (apply Rdiv_lt_0_compat; assumption). lra. }
  set (r := k * M / (1 - e)).
  assert (kM : 0 <= k * M) by (apply Rmult_le_pos; lra).
  assert (R0 : 0 <= r) by (unfold r; apply Rmult_le_pos; [exact kM|left; apply Rinv_0_lt_compat; lra]).
  assert (R1 : (1 - e) * r = k * M) by (unfold r; field; lra).
  assert (R2 : r <= M).
  { apply Rmult_le_reg_l with (1 - e); [lra|]. rewrite R1. apply Rmult_le_compat_r; lra. }
  assert (BX : forall i, (i <= n)%nat -> Rabs (box_run q d dt F i) <= M).
  { induction i as [|i IH]; intros Hi; cbn [box_run]; [rewrite Rabs_R0; lra|]. specialize (IH ltac:(lia)).
    pose proof (HF i ltac:(lia)) as K. unfold box_solution. fold e. apply Rabs_elim in IH. apply Rabs_elim in K.
    apply Rabs_le3. split; nra. }
  assert (X2 : forall i, (i < n)%nat -> Rabs (x i - box_run q d dt F i) <= r -> Rabs (x i) <= 2 * M).
  { intros i Hi H. replace (x i) with (box_run q d dt F i + (x i - box_run q d dt F i)) by ring.
    eapply Rle_trans; [apply Rabs_triang|]. pose proof (BX i ltac:(lia)). lra. }
  induction i as [|i IH]; intros Hi.
  - cbn [box_run]. rewrite X0, Rminus_0_r, Rabs_R0. split; [exact (K0 Hi)|]. lra.
  - destruct (IH ltac:(lia)) as (OK & B & B'). destruct (St i Hi OK B') as (OK' & S1). split; [exact OK'|].
    assert (Rabs (x (S i) - box_run q d dt F (S i)) <= r); [|split; [assumption|apply X2; assumption]].
    cbn [box_run].
    replace (x (S i) - box_solution q d (F i) (box_run q d dt F i) dt) with
      ((x (S i) - box_solution q d (F i) (x i) dt) + (x i - box_run q d dt F i) * e) by (unfold box_solution; fold e; ring).
    eapply Rle_trans; [apply Rabs_triang|]. rewrite Rabs_mult, (Rabs_right e) by lra.
    assert (Rabs (x i - box_run q d dt F i) * e <= r * e) by (apply Rmult_le_compat_r; lra). lra.
Qed.
(** One box step with the coefficients read with errors. *)
Lemma box_pert q d dt q' d' dt' F F' T M t : 0 < q -> 0 < d -> 0 < dt -> 0 <= M ->
  rel (half 48) q q' -> rel (half 48) d d' -> rel (half 48) dt dt' ->
  0 <= t -> Rabs (F' - F) <= half 49 * Rabs F + t -> q * t <= half 53 * M -> Rabs (q * F) <= M -> Rabs T <= 2 * M ->
  Rabs (q' * F') <= 2 * M /\ Rabs (exact_box q' d' dt' F' T - box_solution q d F T dt) <= 900 * half 53 * M.
Proof.
  intros Pq Pd Pt HM Rq Rd Rt Ht HF Hqt HqF HT.
  destruct h_small as [H0 H1]. pose proof halves as (E49 & _ & _ & _ & _ & _ & E48 & _). destruct u_tiny as [U1 U0].
  assert (Rx : rel (4 * half 48) (dt / d) (dt' / d')).
  { apply rel_weak with (half 48 + 2 * half 48 + half 48 * (2 * half 48)); [|nra]. unfold Rdiv. apply rel_mul; try assumption; try lra.
    apply rel_inv; try assumption; lra. }
  destruct (exp_pert (4 * half 48) (dt / d) (dt' / d') ltac:(apply Rdiv_lt_0_compat; assumption) ltac:(lra) Rx) as (Px & Ex).
  pose proof (rel_bounds _ _ _ Pd Rd) as Bd. assert (Pd' : 0 < d') by nra.
  assert (Ee : forall a b, b <> 0 -> - a / b = - (a / b)) by (intros; field; assumption).
  unfold exact_box, box_solution. rewrite !Ee by lra.
  set (e := exp (- (dt / d))) in *. set (e' := exp (- (dt' / d'))) in *.
  assert (He' : 0 < e' <= 1) by (apply exp_neg_le_1; lra).
  assert (HQ : Rabs (q' * F' - q * F) <= 60 * half 53 * M).
  { replace (q' * F' - q * F) with ((q' - q) * F + q * (F' - F) + (q' - q) * (F' - F)) by ring.
    eapply Rle_trans; [apply Rabs_triang|]. eapply Rle_trans; [apply Rplus_le_compat_r, Rabs_triang|].
    unfold rel in Rq. rewrite (Rabs_right q) in Rq by lra. rewrite Rabs_mult, (Rabs_right q) in HqF by lra.
    rewrite !Rabs_mult, (Rabs_right q) by lra. pose proof (Rabs_pos F) as PF. pose proof (Rabs_pos (F' - F)) as PF'. pose proof (Rabs_pos (q' - q)) as Pq'.
    rewrite E48 in Rq. rewrite E49 in HF. set (u := half 53) in *.
    assert (A1 : Rabs (q' - q) * Rabs F <= 32 * u * q * Rabs F) by (apply Rmult_le_compat_r; lra).
    assert (A2 : q * Rabs (F' - F) <= q * (16 * u * Rabs F + t)) by (apply Rmult_le_compat_l; lra).
    assert (A3 : Rabs (q' - q) * Rabs (F' - F) <= 32 * u * q * (16 * u * Rabs F + t)) by (apply mulle; lra).
    assert (A4 : u * (q * Rabs F) <= u * M) by (apply Rmult_le_compat_l; lra).
    assert (UM : 0 <= u * M) by (apply Rmult_le_pos; lra).
    assert (A5 : u * (u * (q * Rabs F)) <= / 1048576 * (u * M)) by (apply mulle; try lra; apply Rmult_le_pos; [lra|apply Rmult_le_pos; lra]).
    assert (A6 : u * (q * t) <= / 1048576 * (u * M)) by (apply mulle; try lra; apply Rmult_le_pos; lra).
    lra. }
  assert (UM : 0 <= half 53 * M) by (apply Rmult_le_pos; lra).
  assert (UM2 : half 53 * M <= / 1048576 * M) by (apply Rmult_le_compat_r; lra).
  assert (HQ' : Rabs (q' * F') <= 2 * M).
  { replace (q' * F') with (q * F + (q' * F' - q * F)) by ring. eapply Rle_trans; [apply Rabs_triang|]. lra. }
  split; [exact HQ'|].
  replace (T * e' + F' * q' * (1 - e') - (T * e + q * F * (1 - e))) with
    (T * (e' - e) + (q' * F' - q * F) * (1 - e') + - (q * F * (e' - e))) by ring.
  eapply Rle_trans; [apply Rabs_triang|]. eapply Rle_trans; [apply Rplus_le_compat_r, Rabs_triang|].
  rewrite Rabs_Ropp, (Rabs_mult T), (Rabs_mult (q' * F' - q * F)), (Rabs_mult (q * F)), (Rabs_right (1 - e')) by lra.
  rewrite E48 in Ex.
  assert (A1 : Rabs T * Rabs (e' - e) <= 2 * M * (2 * (4 * (32 * half 53)))) by (apply mulle; try apply Rabs_pos; assumption).
  assert (A2 : Rabs (q' * F' - q * F) * (1 - e') <= 60 * half 53 * M * 1) by (apply mulle; try apply Rabs_pos; lra).
  assert (A3 : Rabs (q * F) * Rabs (e' - e) <= M * (2 * (4 * (32 * half 53)))) by (apply mulle; try apply Rabs_pos; assumption).
  lra.
Qed.

Theorem c60_impulse_response : forall reg bexp rf parse s p e F M T1 T2 T N X1 X2,
  let E := fenv bexp (rg_ndim reg) (rg_dim reg) rf in
  good_exp bexp -> accurate_registry reg rf -> ir_reachable E parse s ->
  ir_stands_for reg bexp rf s p -> ordinary_ir p -> series_stands_for reg bexp rf e F u_Wm2 ->
  ir_gives bexp (rg_ndim reg) (rg_dim reg) rf s e T1 T2 T N ->
  half 43 <= 1 - exp (- p_idt p / p_d1 p) -> half 43 <= 1 - exp (- p_idt p / p_d2 p) -> ordinary M ->
  (forall i, (i < List.length (mags e))%nat -> Rabs (F i) <= two 100 /\ Rabs (p_q1 p * F i) <= M /\ Rabs (p_q2 p * F i) <= M) ->
  exact_box_run (p_q1 p) (p_d1 p) (p_idt p) F X1 -> exact_box_run (p_q2 p) (p_d2 p) (p_idt p) F X2 ->
  close_series bexp (rg_ndim reg) (rg_dim reg) rf T1 X1 (half 43 * M / (1 - exp (- p_idt p / p_d1 p))) /\
  close_series bexp (rg_ndim reg) (rg_dim reg) rf T2 X2 (half 43 * M / (1 - exp (- p_idt p / p_d2 p))) /\
  close_series bexp (rg_ndim reg) (rg_dim reg) rf T (fun i => X1 i + X2 i)
    (half 43 * M / (1 - exp (- p_idt p / p_d1 p)) + half 43 * M / (1 - exp (- p_idt p / p_d2 p)) + half 51 * M).
Proof.
  intros reg bexp rf parse s p e F M T1 T2 T N X1 X2 E Hx acc Hr (S1 & S2 & S3 & S4 & _ & S6) (O1 & O2 & O3 & O4 & O5) He Hg G1 G2 OM HF HX1 HX2.
  pose proof (ordinary_pos _ O1) as P1. pose proof (ordinary_pos _ O2) as P2. pose proof (ordinary_pos _ O3) as P3.
  pose proof (ordinary_pos _ O4) as P4. pose proof (ordinary_pos _ O5) as P5. pose proof (ordinary_pos _ OM) as PM.
  destruct (reads_near reg bexp rf acc _ _ _ S1 (or_intror O1)) as (q1 & A1 & B1).
  destruct (reads_near reg bexp rf acc _ _ _ S2 (or_intror O2)) as (q2 & A2 & B2).
  destruct (reads_near reg bexp rf acc _ _ _ S3 (or_intror O3)) as (d1 & A3 & B3).
  destruct (reads_near reg bexp rf acc _ _ _ S4 (or_intror O4)) as (d2 & A4 & B4).
  destruct (reads_near reg bexp rf acc _ _ _ S6 (or_intror O5)) as (dt & A5 & B5).
  assert (Hn : ir_numbers bexp (rg_ndim reg) (rg_dim reg) rf s q1 d1 q2 d2 dt) by (repeat split; assumption).
  destruct h_small as [H0 H1].
  pose proof (rel_bounds _ _ _ P3 B3) as C3. pose proof (rel_bounds _ _ _ P4 B4) as C4. pose proof (rel_bounds _ _ _ P5 B5) as C5.
  assert (Q3 : 0 < d1) by nra. assert (Q4 : 0 < d2) by nra. assert (Q5 : 0 < dt) by nra.
  assert (HF100 : forall i, (i < List.length (mags e))%nat -> Rabs (F i) <= two 500).
  { intros i Hi. eapply Rle_trans; [apply HF, Hi|]. apply two_le. lia. }
  destruct (series_read reg bexp rf acc e F u_Wm2 eq_refl He HF100) as (F' & HF1 & HF2).
  pose proof (moderate_rel _ _ (proj1 (ordinary_140 _ O1)) B1) as M1. pose proof (moderate_rel _ _ (proj1 (ordinary_140 _ O2)) B2) as M2.
  pose proof (moderate_rel _ _ (proj1 (ordinary_140 _ O5)) B5) as M5.
  pose proof (divisor_rel _ _ (proj2 (ordinary_140 _ O3)) B3) as M3. pose proof (divisor_rel _ _ (proj2 (ordinary_140 _ O4)) B4) as M4.
  destruct (c44_impulse_response_step bexp _ _ rf parse s q1 d1 q2 d2 dt e F' T1 T2 T N Hx Hr Hn HF1 Hg ltac:(lra) Q3 Q4 M5 M1 M2 M3 M4) as (St1 & St2).
  destruct (ir_gives_series bexp _ _ rf s e F' T1 T2 T N Hg HF1) as (fs & Ser & Len & ffs).
  destruct Ser as (L1 & L2 & L3 & L4 & Z & Sum & _).
  change (@List.length b64 T1 = @List.length b64 fs) in L1. change (@List.length b64 T2 = @List.length b64 fs) in L2.
  change (@List.length b64 T = @List.length b64 fs) in L3.
  set (n := List.length (mags e)) in *.
  destruct u_tiny as [U1 U0]. pose proof halves as (E49 & E50 & E46 & E52 & E51 & E47 & E48 & E45 & E44 & E43 & E42).
  pose proof (half_pos 1000) as h1000. pose proof (half_pos 400) as h400.
  assert (Tm : half 400 <= half 53 * M).
  { apply Rle_trans with (half 53 * half 100); [rewrite half_mul; apply half_le_half; vm_compute; discriminate|].
    apply Rmult_le_compat_l; [lra|]. apply OM. }
  assert (UM : 0 < half 53 * M) by (apply Rmult_lt_0_compat; assumption).
  assert (UM2 : half 53 * M <= / 1048576 * M) by (apply Rmult_le_compat_r; lra).
  assert (Tq : forall q, ordinary q -> q * half 1000 <= half 53 * M).
  { intros q [_ Hq]. apply Rle_trans with (two 100 * half 1000); [apply Rmult_le_compat_r; lra|]. eapply Rle_trans; [|exact Tm].
    apply Rle_trans with (two 100 * (half 100 * half 900)); [right; rewrite half_mul; reflexivity|].
    rewrite <- Rmult_assoc, two_half, Rmult_1_l. apply half_le_half. lia. }
  assert (M2b : 2 * M <= two 150).
  { assert (two 100 * 2 <= two 150) by (unfold two; rewrite <- mult_IZR; apply IZR_le; vm_compute; discriminate). destruct OM. lra. }
  assert (MF : forall i, (i < n)%nat -> moderate (F' i)).
  { intros i Hi. unfold moderate. replace (F' i) with (F i + (F' i - F i)) by ring. eapply Rle_trans; [apply Rabs_triang|].
    pose proof (HF2 i Hi) as K. destruct (HF i Hi) as (K' & _).
    assert (half 49 * Rabs (F i) <= / 4 * Rabs (F i)) by (apply Rmult_le_compat_r; [apply Rabs_pos|]; rewrite E49; lra).
    assert (two 100 * 2 <= two 150) by (unfold two; rewrite <- mult_IZR; apply IZR_le; vm_compute; discriminate).
    assert (half 1000 <= two 100).
    { apply Rle_trans with (half 1); [apply half_le_half; lia|]. rewrite half_1. apply Rle_trans with (two 1); [unfold two; cbn; lra|apply two_le; lia]. }
    assert (half 1000 <= / 2) by (rewrite <- half_1; apply half_le_half; lia).
    assert (two 1 <= two 100) by (apply two_le; lia). assert (two 1 = 2) by reflexivity. lra. }
  (* one box *)
  assert (BOX : forall (q d q' d' : R) (X : list (num E)), ordinary q -> 0 < d -> rel (half 48) q q' -> rel (half 48) d d' ->
    half 43 <= 1 - exp (- p_idt p / d) -> (forall i, (i < n)%nat -> Rabs (q * F i) <= M) ->
    @List.length b64 X = n -> (forall z : b64, nth_error X 0 = Some (z : num E) -> is_finite z = true /\ B2R z = 0) ->
    (forall i (t : b64), nth_error X i = Some (t : num E) -> (S i < n)%nat ->
      is_finite t = true -> moderate (B2R t) -> moderate (F' i) ->
      exists t' : b64, nth_error X (S i) = Some (t' : num E) /\ is_finite t' = true /\
        Rabs (B2R t' - exact_box q' d' dt (F' i) (B2R t)) <= half 49 * (Rabs (B2R t) + Rabs (F' i) * Rabs q' + half 400)) ->
    forall i (z : b64), nth_error X i = Some (z : num E) -> is_finite z = true /\
      Rabs (B2R z - box_run q d (p_idt p) F i) <= half 43 * M / (1 - exp (- p_idt p / d)) /\ Rabs (B2R z) <= 2 * M).
  { intros q d q' d' X Oq Pd Rq Rd Gd HqF LX ZX StX.
    pose proof (ordinary_pos _ Oq) as Pq.
    set (x := fun i => match nth_error X i with Some z => B2R (z : b64) | None => 0 end).
    set (ok := fun i => forall z : b64, nth_error X i = Some (z : num E) -> is_finite z = true).
    assert (RA : forall i, (i < n)%nat -> ok i /\ Rabs (x i - box_run q d (p_idt p) F i) <= half 43 * M / (1 - exp (- p_idt p / d)) /\ Rabs (x i) <= 2 * M).
    { apply box_abstract; try assumption; try lra.
      - unfold x. destruct (nth_error X 0) as [z|] eqn:Ez; [|reflexivity]. exact (proj2 (ZX z eq_refl)).
      - intros _ z Hz. exact (proj1 (ZX z Hz)).
      - intros i Hi OK XB. unfold x in XB.
        destruct (nth_error X i) as [t|] eqn:Et; [|apply nth_error_None in Et; change (@List.length b64 X <= i)%nat in Et; lia].
        assert (Mt : moderate (B2R (t : b64))) by (unfold moderate; lra).
        destruct (StX i t Et Hi (OK t Et) Mt (MF i ltac:(lia))) as (t' & Et' & Ft' & Bt').
        split; [intros z Hz; rewrite Et' in Hz; injection Hz as <-; exact Ft'|].
        unfold x. rewrite Et, Et'.
        destruct (box_pert q d (p_idt p) q' d' dt (F i) (F' i) (B2R (t : b64)) M (half 1000) Pq Pd P5 ltac:(lra) Rq Rd B5 ltac:(lra)
          (HF2 i ltac:(lia)) (Tq q Oq) (HqF i ltac:(lia)) XB) as (K1 & K2).
        rewrite Rmult_comm, Rabs_mult in K1.
        replace (B2R (t' : b64) - box_solution q d (F i) (B2R (t : b64)) (p_idt p)) with
          ((B2R (t' : b64) - exact_box q' d' dt (F' i) (B2R (t : b64))) +
           (exact_box q' d' dt (F' i) (B2R (t : b64)) - box_solution q d (F i) (B2R (t : b64)) (p_idt p))) by ring.
        eapply Rle_trans; [apply Rabs_triang|]. eapply Rle_trans; [apply Rplus_le_compat; [exact Bt'|exact K2]|].
        rewrite E49, E43. set (u := half 53) in *.
        assert (u * (Rabs (B2R (t : b64)) + Rabs (F' i) * Rabs q' + half 400) <= u * (5 * M)) by (apply Rmult_le_compat_l; lra). lra. }
    intros i z Hz. assert (Hi : (i < n)%nat).
    { rewrite <- LX. apply nth_error_Some. intros K. pose proof (eq_trans (eq_sym Hz) K). discriminate. }
    destruct (RA i Hi) as (K1 & K2 & K3). unfold x in K2, K3. rewrite Hz in K2, K3. split; [exact (K1 z Hz)|auto]. }
  assert (ZX : forall X : list (num E), (fs <> [] -> nth_error X 0 = Some (nQ E 0)) -> @List.length b64 X = @List.length b64 fs ->
    forall z : b64, nth_error X 0 = Some (z : num E) -> is_finite z = true /\ B2R z = 0).
  { intros X HX LX z Hz. assert (Nf : fs <> []). { intros ->. destruct X; [discriminate Hz|discriminate LX]. }
    pose proof (some_inj _ _ (eq_trans (eq_sym Hz) (HX Nf : nth_error (X : list b64) 0 = Some (b64_of_Q 0)))) as Q1.
    rewrite b64_zero in Q1. rewrite Q1. auto. }
  pose proof (BOX (p_q1 p) (p_d1 p) q1 d1 T1 O1 P3 B1 B3 G1 ltac:(intros i Hi; apply HF, Hi) ltac:(rewrite L1; exact Len)
    (ZX T1 (fun K => proj1 (Z K)) L1) St1) as R1.
  pose proof (BOX (p_q2 p) (p_d2 p) q2 d2 T2 O2 P4 B2 B4 G2 ltac:(intros i Hi; apply HF, Hi) ltac:(rewrite L2; exact Len)
    (ZX T2 (fun K => proj1 (proj2 (Z K))) L2) St2) as R2.
  split; [|split].
  - intros i z Hz. rewrite (box_rest _ _ _ _ _ (Rgt_not_eq _ _ P3) HX1 i). destruct (R1 i z Hz) as (K1 & K2 & _). auto.
  - intros i z Hz. rewrite (box_rest _ _ _ _ _ (Rgt_not_eq _ _ P4) HX2 i). destruct (R2 i z Hz) as (K1 & K2 & _). auto.
  - intros i z Hz. rewrite (box_rest _ _ _ _ _ (Rgt_not_eq _ _ P3) HX1 i), (box_rest _ _ _ _ _ (Rgt_not_eq _ _ P4) HX2 i).
    assert (Hi : (i < List.length fs)%nat) by (rewrite <- L3; apply nth_error_Some; intros K; pose proof (eq_trans (eq_sym Hz) K); discriminate).
    destruct (nth_error T1 i) as [t1|] eqn:E1; [|apply nth_error_None in E1; change (@List.length b64 T1 <= i)%nat in E1; lia].
    destruct (nth_error T2 i) as [t2|] eqn:E2; [|apply nth_error_None in E2; change (@List.length b64 T2 <= i)%nat in E2; lia].
    pose proof (Sum i t1 t2 E1 E2) as Es. pose proof (some_inj _ _ (eq_trans (eq_sym Hz) Es)) as Ez.
    destruct (R1 i t1 E1) as (F1 & C1 & D1). destruct (R2 i t2 E2) as (F2 & C2 & D2).
    assert (Bg : Rabs (B2R (t1 : b64)) + Rabs (B2R (t2 : b64)) <= big).
    { fold P in M2b. destruct P_chain as (Q1' & Q2' & Q3' & Q4' & Q5' & Q6' & Q7'). lra. }
    pose proof (ap_sum 0 0 (t1 : b64) (t2 : b64) _ _ _ _ (ap_in _ F1) (ap_in _ F2) ltac:(lia) ltac:(lia) Bg) as A.
    cbn [Nat.max] in A. assert (Ez' : z = (Bplus mode_NE (t1 : b64) (t2 : b64))) by exact Ez. rewrite <- Ez' in A.
    split; [exact (ap_fin _ _ _ _ A)|]. pose proof (ap_err _ _ _ _ A) as Er. rewrite grow_1, <- half_u in Er.
    set (Y1 := box_run (p_q1 p) (p_d1 p) (p_idt p) F i) in *. set (Y2 := box_run (p_q2 p) (p_d2 p) (p_idt p) F i) in *.
    replace (B2R z - (Y1 + Y2)) with ((B2R z - (B2R (t1 : b64) + B2R (t2 : b64))) + ((B2R (t1 : b64) - Y1) + (B2R (t2 : b64) - Y2))) by ring.
    eapply Rle_trans; [apply Rabs_triang|].
    assert (half 53 * (Rabs (B2R (t1 : b64)) + Rabs (B2R (t2 : b64))) <= half 53 * (4 * M)) by (apply Rmult_le_compat_l; lra).
    pose proof (Rabs_triang (B2R (t1 : b64) - Y1) (B2R (t2 : b64) - Y2)) as Tr. rewrite E51. lra.
Qed.

(** Concrete cases: the SI registry with correctly rounded factors, depths in
    kilometres and metres, a timestep of a year, a forcing series. *)
Definition nearest_double (x : R) : b64 :=
  binary_normalize 53 1024 b64_prec b64_emax mode_NE
    (ZnearestE (scaled_mantissa radix2 (SpecFloat.fexp 53 1024) x)) (cexp radix2 (SpecFloat.fexp 53 1024) x) false.
Lemma nearest_double_ok x : Rabs x <= two 500 -> is_finite (nearest_double x) = true /\ B2R (nearest_double x) = rnd x.
Proof.
  intros Hx. unfold nearest_double.
  pose proof (binary_normalize_correct 53 1024 b64_prec b64_emax mode_NE
    (ZnearestE (scaled_mantissa radix2 (SpecFloat.fexp 53 1024) x)) (cexp radix2 (SpecFloat.fexp 53 1024) x) false) as C.
  cbn [round_mode] in C. change (F2R _) with (rnd x) in C.
  assert (G : rnd (rnd x) = rnd x).
  { apply round_generic; [typeclasses eauto|]. apply generic_format_round; typeclasses eauto. }
  rewrite G in C. rewrite (rnd_no_overflow x) in C by (pose proof (two_big1 500 ltac:(lia)); pose proof big_pos; lra).
  destruct C as (C1 & C2 & _). auto.
Qed.
Definition rounded_factors (reg : Registry) (u : Units) : b64 := nearest_double (usize reg u).
Lemma rounded_accurate reg : accurate_registry reg (rounded_factors reg).
Proof.
  intros u [H1 H2]. pose proof (usize_pos reg u) as Hp. unfold rounded_factors.
  destruct (nearest_double_ok (usize reg u)) as (A & B).
  { rewrite Rabs_right by lra. eapply Rle_trans; [exact H2|]. apply two_le. lia. }
  split; [exact A|]. rewrite B. eapply Rle_trans; [apply rnd_err|]. rewrite <- half_u. change omega with (half 1022).
  rewrite (Rabs_right (usize reg u)) by lra. destruct halves as (_ & -> & _). destruct u_tiny as [U1 U0].
  assert (half 53 * half 1022 <= half 53 * usize reg u).
  { apply Rmult_le_compat_l; [lra|]. eapply Rle_trans; [apply (half_le_half 100 1022); lia|exact H1]. }
  assert (0 < half 53 * usize reg u) by (apply Rmult_lt_0_compat; assumption). lra.
Qed.

Definition phys_env (bexp : b64 -> b64) : Env := fenv bexp 4 si_dim (rounded_factors si).
Definition u_km : Units := [("kilometer"%string, 1%Q)].
Definition phys_tl (bexp : b64 -> b64) : TLArgs (phys_env bexp) :=
  let E := phys_env bexp in
  mkTLArgs E (PQ (mkQty E 50 u_m)) (PQ (mkQty E (5#4) u_km)) (PQ (mkQty E (5#4) u_Wm2C)) (PQ (mkQty E 0 u_Wm2C2))
    (PQ (mkQty E 1 u_none)) (PQ (mkQty E (3#4) u_Wm2C)) (PQ (mkQty E 1 u_yr)).
Definition phys_p : TLP := mkTLPhys 50 1250 (5/4) 0 1 (3/4) 31557600.
Definition phys_erf (bexp : b64 -> b64) : QArr (phys_env bexp) :=
  mkQA [b64_of_Q 4 : num (phys_env bexp); b64_of_Q 5; b64_of_Q (-5)] u_Wm2.

Lemma ordinary_of x : / 1000000 <= x <= 1000000000000 -> ordinary x.
Proof.
  intros [H1 H2]. split.
  - apply Rle_trans with (/ 1000000); [|exact H1]. unfold half. apply Rinv_le_contravar; [lra|]. apply IZR_le. vm_compute. discriminate.
  - eapply Rle_trans; [exact H2|]. unfold two. apply IZR_le. vm_compute. discriminate.
Qed.
Lemma si_1 s : si_sizeq s = 1%Q -> rg_size si s = 1.
Proof. intros H. cbn. unfold si_size. rewrite H. unfold Q2R. cbn. lra. Qed.
Lemma si_km : usize si u_km = 1000.
Proof.
  unfold u_km. cbn [usize]. replace (rg_size si "kilometer") with 1000 by (cbn; unfold si_size; vm_compute (si_sizeq "kilometer"); unfold Q2R; cbn; lra).
  replace (Q2R 1) with 1 by (unfold Q2R; cbn; lra). rewrite Rpower_1 by lra. ring.
Qed.
Lemma si_yr : usize si u_yr = 31557600.
Proof.
  unfold u_yr. cbn [usize]. replace (rg_size si syr) with 31557600 by (cbn; unfold si_size; vm_compute (si_sizeq syr); unfold Q2R; cbn; lra).
  replace (Q2R 1) with 1 by (unfold Q2R; cbn; lra). rewrite Rpower_1 by lra. ring.
Qed.
Lemma si_m : usize si u_m = 1.
Proof. unfold u_m. cbn [usize]. rewrite si_1 by reflexivity. replace (Q2R 1) with 1 by (unfold Q2R; cbn; lra). rewrite Rpower_1 by lra. ring. Qed.
Lemma si_s : usize si u_s = 1.
Proof. unfold u_s. cbn [usize]. rewrite si_1 by reflexivity. replace (Q2R 1) with 1 by (unfold Q2R; cbn; lra). rewrite Rpower_1 by lra. ring. Qed.

Lemma stands_at bexp (q : Qty (phys_env bexp)) u (m x : R) k : is_finite (mag q : b64) = true -> B2R (mag q : b64) = m ->
  same_dim (phys_env bexp) (units q) u -> usize si (units q) = k * usize si u -> / 1000000 <= k <= 1000000000000 -> m * k = x ->
  stands_for si bexp (rounded_factors si) q x u.
Proof.
  intros Fm Vm Hd Hk Ok Hx. pose proof (usize_pos si u). split; [split; [exact Hd|]|split; [exact Fm|]];
    change (fenv bexp (rg_ndim si) (rg_dim si) (rounded_factors si)) with (phys_env bexp).
  - rewrite Hk. replace (k * usize si u / usize si u) with k by (field; lra). apply ordinary_of. exact Ok.
  - rewrite Hk. transitivity (m * k * usize si u); [rewrite <- Vm; ring|now rewrite Hx].
Qed.
Ltac at1 v := apply (stands_at _ _ _ v _ 1); [vm_compute; reflexivity|fval|intros k Hk; reflexivity|symmetry; apply Rmult_1_l|lra|lra].

Example c60_two_layer_case : forall bexp parse, exists s T TD,
  accurate_registry si (rounded_factors si) /\
  tl_reachable (phys_env bexp) parse s /\ tl_stands_for si bexp (rounded_factors si) s phys_p /\ ordinary_tl phys_p /\
  units (tl_dl _ s) = u_km /\ units (tl_delta_t _ s) = u_yr /\
  series_stands_for si bexp (rounded_factors si) (phys_erf bexp) fcase_F u_Wm2 /\
  p_dt phys_p * ((p_lambda0 phys_p + p_eps phys_p * p_eta phys_p) / p_C phys_p + p_eta phys_p / p_CD phys_p) <= 1 /\
  half 42 * (1 + theta (coefficients phys_p)) <= damping (coefficients phys_p) /\
  ordinary 4 /\ ordinary (p_lambda0 phys_p * 4) /\ (forall i, Rabs (fcase_F i) <= p_lambda0 phys_p * 4) /\
  exact_two_layer phys_p fcase_F T TD /\
  (* the bound on the error of the surface temperature is below 0.8 degrees *)
  half 42 * 4 / damping (coefficients phys_p) + p_dt phys_p * (p_lambda0 phys_p * 4) / p_C phys_p < 8/10.
Proof.
  intros bexp parse. set (E := phys_env bexp).
  destruct (tl_new_ok E (phys_tl bexp)) as (s & Hs & Hc & Hp & _).
  { intros p. destruct p; eexists; (split; [reflexivity|]); intros k Hk; do 4 (destruct k; [reflexivity|]); cbn in Hk; lia. }
  assert (HP : convertible_tl phys_p) by (unfold convertible_tl, phys_p; cbn; lra).
  destruct (c55_exact_solution phys_p fcase_F HP ltac:(cbn; lra)) as (T & TD & HE & _).
  exists s, T, TD. split; [apply rounded_accurate|].
  split; [exists (phys_tl bexp), s, []; split; [exact Hs|reflexivity]|].
  assert (Q : forall p q, tl_arg E (phys_tl bexp) p = PQ q -> tl_param_get E p s = q).
  { intros p q H. rewrite Hp in H. injection H. auto. }
  pose proof (Q Pdu _ eq_refl) as Q1. pose proof (Q Pdl _ eq_refl) as Q2. pose proof (Q Plambda0 _ eq_refl) as Q3.
  pose proof (Q Pa _ eq_refl) as Q4. pose proof (Q Pefficacy _ eq_refl) as Q5. pose proof (Q Peta _ eq_refl) as Q6.
  pose proof (Q Pdelta_t _ eq_refl) as Q7. cbn [tl_param_get] in *.
  split.
  { unfold tl_stands_for. change (fenv bexp (rg_ndim si) (rg_dim si) (rounded_factors si)) with E.
    rewrite Q1, Q2, Q3, Q4, Q5, Q6, Q7.
    cbn [phys_p p_du p_dl p_lambda0 p_a p_eps p_eta p_dt].
    split; [at1 50|]. split.
    { apply (stands_at bexp _ _ (5/4) _ 1000); [vm_compute; reflexivity|fval| |cbn [units mkQty]; rewrite si_km, si_m; ring|lra|lra].
      intros k Hk. do 4 (destruct k; [reflexivity|]). cbn in Hk; lia. }
    split; [at1 (5/4)|]. split; [at1 0|]. split; [at1 1|]. split; [at1 (3/4)|].
    apply (stands_at bexp _ _ 1 _ 31557600); [vm_compute; reflexivity|fval| |cbn [units mkQty]; rewrite si_yr, si_s; ring|lra|lra].
    intros k Hk. do 4 (destruct k; [reflexivity|]). cbn in Hk; lia. }
  split; [unfold ordinary_tl; cbn [phys_p p_du p_dl p_lambda0 p_a p_eps p_eta p_dt]; repeat split; try reflexivity; apply ordinary_of; lra|].
  split; [rewrite Q2; reflexivity|]. split; [rewrite Q7; reflexivity|].
  split.
  { split; [split; [intros k Hk; reflexivity|]|].
    - cbn [aunits phys_erf]. replace (usize si u_Wm2 / usize si u_Wm2) with 1 by (field; apply usize_neq). apply ordinary_of. lra.
    - cbn [aunits phys_erf mags]. intros [|[|[|i]]] z Hz; cbn [nth_error] in Hz; try (destruct i; discriminate Hz);
        apply some_inj in Hz; subst z; (split; [vm_compute; reflexivity|cbn [fcase_F]; f_equal; fval]). }
  assert (Th : theta (coefficients phys_p) = 5/6) by (unfold theta; cbn [coefficients phys_p n_lambda0 n_eps n_eta p_lambda0 p_eps p_eta]; field).
  assert (Dm : / 500 <= damping (coefficients phys_p)).
  { unfold damping. rewrite Th. cbn [coefficients phys_p n_dt n_lambda0 n_C n_eta n_CD p_dt p_lambda0 p_eta]. unfold p_C, p_CD, water_capacity.
    cbn [phys_p p_du p_dl]. apply Rmin_glb; lra. }
  assert (h42 : half 42 <= / 10000000000).
  { unfold half. apply Rinv_le_contravar; [lra|]. apply IZR_le. vm_compute. discriminate. }
  split; [unfold p_C, p_CD, water_capacity; cbn [phys_p p_du p_dl p_lambda0 p_a p_eps p_eta p_dt]; lra|].
  split; [rewrite Th; lra|]. split; [apply ordinary_of; lra|]. split; [apply ordinary_of; cbn; lra|].
  split; [intros i; cbn [phys_p p_lambda0]; apply Rabs_le3; destruct i as [|[|i]]; cbn [fcase_F]; lra|].
  split; [exact HE|].
  apply Rle_lt_trans with (/ 10000000000 * 4 / (/ 500) + p_dt phys_p * (p_lambda0 phys_p * 4) / p_C phys_p).
  - apply Rplus_le_compat_r. unfold Rdiv. apply mulle; [pose proof (half_pos 42); lra|lra|left; apply Rinv_0_lt_compat; lra|].
    apply Rinv_le_contravar; lra.
  - unfold p_C, water_capacity. cbn [phys_p p_du p_dt p_lambda0]. lra.
Qed.

(** A registry whose month-to-year factor is the double nearest 1/12, every other
    factor being rounded as above. *)
Definition month_factors (u : Units) : b64 :=
  match u with
  | [(a, p); (b, q)] => if (String.eqb a smonth && String.eqb b syr && Qeq_bool p 1 && Qeq_bool q (-1))%bool then b64_of_Q (1#12)
                        else rounded_factors si u
  | _ => rounded_factors si u
  end.
Lemma si_month : usize si u_month = 2629800.
Proof.
  unfold u_month. cbn [usize]. replace (rg_size si smonth) with 2629800 by (cbn; unfold si_size; vm_compute (si_sizeq smonth); unfold Q2R; cbn; lra).
  replace (Q2R 1) with 1 by (unfold Q2R; cbn; lra). rewrite Rpower_1 by lra. ring.
Qed.
Lemma month_accurate : accurate_registry si month_factors.
Proof.
  intros u Hu. pose proof (rounded_accurate si u Hu) as D. unfold month_factors.
  destruct u as [|[a p] [|[b q] [|x u]]]; try exact D.
  destruct (String.eqb a smonth && String.eqb b syr && Qeq_bool p 1 && Qeq_bool q (-1))%bool eqn:H; [|exact D].
  apply andb_prop in H. destruct H as [H H4]. apply andb_prop in H. destruct H as [H H3]. apply andb_prop in H. destruct H as [H1 H2].
  apply String.eqb_eq in H1, H2. apply Qeq_bool_iff in H3, H4. apply Qeq_eqR in H3, H4. subst a b.
  assert (Sz : usize si [(smonth, p); (syr, q)] = / 12).
  { pose proof si_month as Sm. pose proof si_yr as Sy. unfold u_month in Sm. unfold u_yr in Sy. cbn [usize] in *. rewrite H3, H4.
    rewrite Rmult_1_r in Sm, Sy. rewrite Rmult_1_r.
    replace (Q2R (-1)) with (- Q2R 1) by (unfold Q2R; cbn; lra). rewrite Rpower_Ropp, Sm, Sy. lra. }
  rewrite Sz. split; [vm_compute; reflexivity|].
  replace (B2R (b64_of_Q (1#12))) with (IZR 6004799503160661 / IZR 72057594037927936) by (symmetry; fval).
  unfold half. apply Rabs_le3. change (Z.pow_pos 2 50) with 1125899906842624%Z. lra.
Qed.

Definition month_env : Env := fenv floor_exp 4 si_dim month_factors.
Definition phys_ir : IRArgs month_env :=
  let E := month_env in
  mkIRArgs E (PQ (mkQty E (1#4) u_CWm2)) (PQ (mkQty E (1#2) u_CWm2)) (PQ (mkQty E 8 u_yr)) (PQ (mkQty E 256 u_yr))
    (PQ (mkQty E 1 u_none)) (PQ (mkQty E 12 u_month)).
Definition phys_ip : IRP := mkIRPhys (1/4) (1/2) 8 256 1 1.
Definition month_erf : QArr month_env := mkQA [b64_of_Q 4 : num month_env; b64_of_Q 5; b64_of_Q (-5)] u_Wm2.
Lemma stands_month (q : Qty month_env) u (m x : R) k : is_finite (mag q : b64) = true -> B2R (mag q : b64) = m ->
  same_dim month_env (units q) u -> usize si (units q) = k * usize si u -> / 1000000 <= k <= 1000000000000 -> m * k = x ->
  stands_for si floor_exp month_factors q x u.
Proof.
  intros Fm Vm Hd Hk Ok Hx. pose proof (usize_pos si u). split; [split; [exact Hd|]|split; [exact Fm|]];
    change (fenv floor_exp (rg_ndim si) (rg_dim si) month_factors) with month_env.
  - rewrite Hk. replace (k * usize si u / usize si u) with k by (field; lra). apply ordinary_of. exact Ok.
  - rewrite Hk. transitivity (m * k * usize si u); [rewrite <- Vm; ring|now rewrite Hx].
Qed.
Ltac atm v := apply (stands_month _ _ v _ 1); [vm_compute; reflexivity|fval|intros k Hk; reflexivity|symmetry; apply Rmult_1_l|lra|lra].
Example c60_impulse_response_case : forall parse, exists s T1 T2 T N X1 X2,
  good_exp floor_exp /\ accurate_registry si month_factors /\ ir_reachable month_env parse s /\
  ir_stands_for si floor_exp month_factors s phys_ip /\ ordinary_ir phys_ip /\
  units (ir_delta_t _ s) = u_month /\
  series_stands_for si floor_exp month_factors month_erf fcase_F u_Wm2 /\
  ir_gives floor_exp 4 si_dim month_factors s month_erf T1 T2 T N /\
  half 43 <= 1 - exp (- p_idt phys_ip / p_d1 phys_ip) /\ half 43 <= 1 - exp (- p_idt phys_ip / p_d2 phys_ip) /\ ordinary 4 /\
  (forall i, Rabs (fcase_F i) <= two 100 /\ Rabs (p_q1 phys_ip * fcase_F i) <= 4 /\ Rabs (p_q2 phys_ip * fcase_F i) <= 4) /\
  exact_box_run (p_q1 phys_ip) (p_d1 phys_ip) (p_idt phys_ip) fcase_F X1 /\
  exact_box_run (p_q2 phys_ip) (p_d2 phys_ip) (p_idt phys_ip) fcase_F X2 /\
  (* the bound on the error of the surface temperature is below a billionth of a degree *)
  half 43 * 4 / (1 - exp (- p_idt phys_ip / p_d1 phys_ip)) + half 43 * 4 / (1 - exp (- p_idt phys_ip / p_d2 phys_ip)) + half 51 * 4 < / 1000000000.
Proof.
  intros parse. set (E := month_env).
  assert (OK : match ir_new E phys_ir with
               | Ok s => match ir_get_two_layer_parameters E s with
                         | Ok _ => (negb (neqb E (ir_d1_mag E s) (nQ E 0)) && negb (neqb E (ir_d2_mag E s) (nQ E 0)) &&
                                    neqb E (ir_efficacy_mag E s) (nQ E 1))%bool
                         | Err _ => false end
               | Err _ => false end = true) by (vm_compute; reflexivity).
  destruct (ir_new E phys_ir) as [s|] eqn:Hs; [|discriminate].
  destruct (ir_get_two_layer_parameters E s) as [p|] eqn:Hp; [|discriminate].
  apply andb_prop in OK. destruct OK as [OK O3]. apply andb_prop in OK. destruct OK as [O1 O2].
  apply negb_true_iff in O1. apply negb_true_iff in O2.
  assert (SF : series_stands_for si floor_exp month_factors month_erf fcase_F u_Wm2).
  { split; [split; [intros k Hk; reflexivity|]|].
    - cbn [aunits month_erf]. replace (usize si u_Wm2 / usize si u_Wm2) with 1 by (field; apply usize_neq). apply ordinary_of. lra.
    - cbn [aunits month_erf mags]. intros [|[|[|i]]] z Hz; cbn [nth_error] in Hz; try (destruct i; discriminate Hz);
        apply some_inj in Hz; subst z; (split; [vm_compute; reflexivity|cbn [fcase_F]; f_equal; fval]). }
  assert (B : forall i, -5 <= fcase_F i <= 5) by (intros [|[|i]]; cbn [fcase_F]; lra).
  assert (B500 : forall i, Rabs (fcase_F i) <= two 100).
  { intros i. pose proof (B i). apply Rle_trans with 5; [apply Rabs_le3; lra|]. apply ordinary_of. lra. }
  destruct (series_read si floor_exp month_factors month_accurate month_erf fcase_F u_Wm2 eq_refl SF) as (F' & (Hn & fs & Hf & Hv) & _).
  { intros i _. eapply Rle_trans; [apply B500|]. apply two_le. lia. }
  destruct (FactsRun.c01_impulse_response_success E s month_erf fs p Hf Hn O1 O2 Hp O3) as (s' & D).
  destruct (FactsRun.c01_impulse_response_shape E s s' _ D) as (fs' & T1 & T2 & T & N & _ & _ & O & _).
  destruct (ir_new_ok E phys_ir (mkQty E 8 u_yr) (mkQty E 256 u_yr)) as (s1 & Hs1 & _ & Hq & _).
  { intros q. destruct q; eexists; (split; [reflexivity|]); intros k Hk; do 4 (destruct k; [reflexivity|]); cbn in Hk; lia. }
  { reflexivity. } { reflexivity. } { vm_compute. reflexivity. }
  rewrite Hs in Hs1. injection Hs1 as <-.
  assert (Q : forall q x, ir_arg E phys_ir q = PQ x -> ir_param_get E q s = x).
  { intros q x H. rewrite Hq in H. injection H. auto. }
  pose proof (Q Pq1 _ eq_refl) as Q1. pose proof (Q Pq2 _ eq_refl) as Q2. pose proof (Q Pd1 _ eq_refl) as Q3.
  pose proof (Q Pd2 _ eq_refl) as Q4. pose proof (Q Pdt _ eq_refl) as Q5. pose proof (Q Peff _ eq_refl) as Q6. cbn [ir_param_get] in *.
  exists s, T1, T2, T, N, (box_run (1/4) 8 1 fcase_F), (box_run (1/2) 256 1 fcase_F). split; [exact floor_exp_good|].
  split; [exact month_accurate|].
  split; [exists phys_ir, s, []; split; [exact Hs|reflexivity]|].
  split.
  { unfold ir_stands_for. change (fenv floor_exp (rg_ndim si) (rg_dim si) month_factors) with E.
    rewrite Q1, Q2, Q3, Q4, Q5, Q6. cbn [phys_ip p_q1 p_q2 p_d1 p_d2 p_ieps p_idt].
    split; [atm (1/4)|]. split; [atm (1/2)|]. split; [atm 8|]. split; [atm 256|]. split; [atm 1|].
    apply (stands_month _ _ 12 _ (1/12)); [vm_compute; reflexivity|fval| |cbn [units mkQty]; rewrite si_yr, si_month; lra|lra|lra].
    intros k Hk. do 4 (destruct k; [reflexivity|]). cbn in Hk; lia. }
  cbn [phys_ip p_q1 p_q2 p_d1 p_d2 p_ieps p_idt].
  split; [unfold ordinary_ir; cbn [phys_ip p_q1 p_q2 p_d1 p_d2 p_idt]; repeat split; apply ordinary_of; lra|].
  split; [rewrite Q5; reflexivity|]. split; [exact SF|]. split; [exists s'; split; [exact D|exact O]|].
  assert (h43 : half 43 <= / 8000000000000) by (unfold half; apply Rinv_le_contravar; [lra|]; apply IZR_le; vm_compute; discriminate).
  assert (h51 : half 51 <= / 8000000000000) by (eapply Rle_trans; [apply (half_le_half 43 51); lia|exact h43]).
  pose proof (half_pos 43) as p43. pose proof (half_pos 51) as p51.
  assert (G1 : 1 / 9 <= 1 - exp (- (1) / 8)).
  { pose proof (exp_gap (1/8) ltac:(lra)) as G; replace (- (1) / 8) with (- (1 / 8)) by field; lra. }
  assert (G2 : 1 / 257 <= 1 - exp (- (1) / 256)).
  { pose proof (exp_gap (1/256) ltac:(lra)) as G; replace (- (1) / 256) with (- (1 / 256)) by field; lra. }
  split; [lra|]. split; [lra|]. split; [apply ordinary_of; lra|].
  split; [intros i; pose proof (B i); split; [apply B500|split; apply Rabs_le3; lra]|].
  assert (X : forall q d, 0 < d -> exact_box_run q d 1 fcase_F (box_run q d 1 fcase_F)).
  { intros q d Hd. split; [reflexivity|]. intros i. eexists. split; [apply box_ode_exists; lra|reflexivity]. }
  split; [apply X; lra|]. split; [apply X; lra|].
  assert (D1 : half 43 * 4 / (1 - exp (- (1) / 8)) <= half 43 * 4 / (1 / 9)).
  { unfold Rdiv. apply Rmult_le_compat_l; [lra|]. apply Rinv_le_contravar; lra. }
  assert (D2 : half 43 * 4 / (1 - exp (- (1) / 256)) <= half 43 * 4 / (1 / 257)).
  { unfold Rdiv. apply Rmult_le_compat_l; [lra|]. apply Rinv_le_contravar; lra. }
  lra.
Qed.
