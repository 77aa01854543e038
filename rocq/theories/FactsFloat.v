(** Property C44: rounding in IEEE binary64. *)
From Coq Require Import List String QArith Reals Bool Arith Lra Lia Psatz.
From Flocq Require Import Core IEEE754.BinarySingleNaN.
From Verif Require Import Arith Pint Base TwoLayer Impulse Scm Api Spec Demo Float SpecRound FloatTL FloatRun FloatBox
  GenTL GenTLHist GenIR GenIRHist FactsRun.
Import ListNotations.
Local Open Scope R_scope.

Section Glue.
Variable bexp : b64 -> b64.
Variable nd : nat.
Variable sd : string -> nat -> Q.
Variable rf : Units -> b64.
Notation E := (fenv bexp nd sd rf).
Variable parse : string -> option (Qty E).

Lemma reads_to : forall (q : Qty E) u x (z : num E), reads bexp nd sd rf q u x -> to_mag E q u = Ok z ->
  is_finite (z : b64) = true /\ B2R (z : b64) = x.
Proof. intros q u x z (y & H1 & H2 & H3) H. rewrite H1 in H. injection H as <-. auto. Qed.

(** Outputs of a two-layer run as a series of doubles. *)
Lemma tl_gives_series : forall s e F U L N, tl_gives bexp nd sd rf s e U L N -> reads_series bexp nd sd rf e F ->
  exists fs : list b64, tl_series E (tl_delta_t_mag E s) (tl_lambda0_mag E s) (tl_a_mag E s)
      (tl_efficacy_mag E s) (tl_eta_mag E s) (tl_hcu_mag E s) (tl_hcl_mag E s) (fs : list (num E)) U L N /\
    List.length fs = List.length (mags e) /\
    forall i z, nth_error fs i = Some z -> is_finite z = true /\ B2R z = F i.
Proof.
  intros s e F U L N (s' & D & O & _) (Hn & fs & Hf & Hv).
  destruct (c01_two_layer_shape E s e fs Hf Hn) as (s'' & U' & L' & N' & D' & O' & Len & Ser).
  rewrite D in D'. injection D' as <-. rewrite O in O'. injection O' as -> -> ->.
  exists fs. auto.
Qed.
Lemma tl_gives_ex : forall s e F, reads_series bexp nd sd rf e F -> exists U L N, tl_gives bexp nd sd rf s e U L N.
Proof.
  intros s e F (Hn & fs & Hf & Hv).
  destruct (c01_two_layer_shape E s e fs Hf Hn) as (s'' & U & L & N & D & O & Len & Ser).
  exists U, L, N, s''. split; [exact D|]. split; [exact O|]. destruct Ser as (L1 & L2 & L3 & _).
  rewrite L1, L2, L3, Len. auto.
Qed.
Lemma tl_nums : forall s c, tl_reachable E parse s -> tl_numbers bexp nd sd rf s c ->
  c = mkTLN (B2R (tl_delta_t_mag E s : b64)) (B2R (tl_lambda0_mag E s : b64)) (B2R (tl_a_mag E s : b64))
        (B2R (tl_efficacy_mag E s : b64)) (B2R (tl_eta_mag E s : b64)) (B2R (tl_hcu_mag E s : b64)) (B2R (tl_hcl_mag E s : b64)) /\
  is_finite (tl_delta_t_mag E s : b64) = true /\ is_finite (tl_lambda0_mag E s : b64) = true /\
  is_finite (tl_a_mag E s : b64) = true /\ is_finite (tl_efficacy_mag E s : b64) = true /\
  is_finite (tl_eta_mag E s : b64) = true /\ is_finite (tl_hcu_mag E s : b64) = true /\ is_finite (tl_hcl_mag E s : b64) = true.
Proof.
  intros s c Hr (N1 & N2 & N3 & N4 & N5 & N6 & N7). destruct (tl_reachable_coherent E parse s Hr).
  destruct (reads_to _ _ _ _ N1 tc_delta_t) as [A1 B1]. destruct (reads_to _ _ _ _ N2 tc_lambda0) as [A2 B2].
  destruct (reads_to _ _ _ _ N3 tc_a) as [A3 B3]. destruct (reads_to _ _ _ _ N4 tc_efficacy) as [A4 B4].
  destruct (reads_to _ _ _ _ N5 tc_eta) as [A5 B5]. destruct (reads_to _ _ _ _ N6 tc_hcu) as [A6 B6].
  destruct (reads_to _ _ _ _ N7 tc_hcl) as [A7 B7].
  split; [|repeat split; assumption]. rewrite B1, B2, B3, B4, B5, B6, B7. destruct c. reflexivity.
Qed.
Lemma ir_gives_series : forall s e F T1 T2 T N, ir_gives bexp nd sd rf s e T1 T2 T N -> reads_series bexp nd sd rf e F ->
  exists fs : list b64, ir_series E s (fs : list (num E)) T1 T2 T N /\
    List.length fs = List.length (mags e) /\
    forall i z, nth_error fs i = Some z -> is_finite z = true /\ B2R z = F i.
Proof.
  intros s e F T1 T2 T N (s' & D & O) (Hn & fs & Hf & Hv).
  destruct (c01_impulse_response_shape E s s' e D) as (fs' & T1' & T2' & T' & N' & Hf' & Len & O' & Ser).
  rewrite Hf in Hf'. injection Hf' as <-. rewrite O in O'. injection O' as -> -> -> ->.
  exists fs. auto.
Qed.
End Glue.

(** ** C44 *)

(** One step of a two-layer run, from any finite moderate entries. *)
Theorem c44_two_layer_step : forall bexp nd sd rf parse s c e F U L N,
  let E := fenv bexp nd sd rf in
  tl_reachable E parse s -> tl_numbers bexp nd sd rf s c -> moderate_tl c -> reads_series bexp nd sd rf e F ->
  tl_gives bexp nd sd rf s e U L N ->
  forall i (T TD : b64), nth_error U i = Some T -> nth_error L i = Some TD -> (S i < List.length (mags e))%nat ->
    is_finite T = true -> is_finite TD = true -> moderate (B2R T) -> moderate (B2R TD) -> moderate (F i) ->
    exists T' TD' : b64, nth_error U (S i) = Some T' /\ nth_error L (S i) = Some TD' /\
      is_finite T' = true /\ is_finite TD' = true /\
      Rabs (B2R T' - exact_upper c (F i) (B2R T) (B2R TD)) <= half 49 * (upper_size c (F i) (B2R T) (B2R TD) + half 400) /\
      Rabs (B2R TD' - exact_lower c (B2R T) (B2R TD)) <= half 49 * (lower_size c (B2R T) (B2R TD) + half 400).
Proof.
  intros bexp nd sd rf parse s c e F U L N E Hr Hc Hm He Hg i T TD HU HL Hi FT FD MT MD MF.
  destruct (tl_nums bexp nd sd rf parse s c Hr Hc) as (Ec & fin).
  destruct (tl_gives_series bexp nd sd rf s e F U L N Hg He) as (fs & Ser & Len & ffs).
  rewrite Ec in Hm |- *.
  destruct Hg as (_ & _ & _ & LU & LL & _).
  destruct (nth_error U (S i)) as [T'|] eqn:EU; [|apply nth_error_None in EU; lia].
  destruct (nth_error L (S i)) as [TD'|] eqn:EL; [|apply nth_error_None in EL; lia].
  exists T', TD'. split; [reflexivity|]. split; [reflexivity|].
  exact (run_step bexp nd sd rf _ _ _ _ _ _ _ fin Hm fs U L N F Ser ffs i T TD T' TD' MF HU HL EU EL FT FD MT MD).
Qed.

(** A whole stable run: the errors stay below bounds in which the length of the
    run does not appear; [M] bounds the equilibrium temperatures. *)
Theorem c44_two_layer_run : forall bexp nd sd rf parse s c e F M,
  let E := fenv bexp nd sd rf in
  tl_reachable E parse s -> tl_numbers bexp nd sd rf s c -> moderate_tl c -> reads_series bexp nd sd rf e F ->
  stable_tl c -> half 46 * (1 + theta c) <= damping c ->
  half 400 <= M -> moderate (2 * M) -> moderate (n_lambda0 c * M) ->
  (forall i, (i < List.length (mags e))%nat -> Rabs (F i) <= n_lambda0 c * M) ->
  exists U L N, tl_gives bexp nd sd rf s e U L N /\
    close_series bexp nd sd rf U (fun i => fst (exact_run c F i)) (half 46 * M / damping c) /\
    close_series bexp nd sd rf L (fun i => snd (exact_run c F i)) ((1 + theta c) * (half 46 * M / damping c)) /\
    (moderate_divisor (n_dt c) ->
     close_series bexp nd sd rf N (exact_uptakes c F)
       (half 44 * ((n_C c + n_CD c) / n_dt c) * ((1 + theta c) * M / damping c))).
Proof.
  intros bexp nd sd rf parse s c e F M E Hr Hc Hm He Hs Hk M1 M2 M3 HF.
  destruct (tl_gives_ex bexp nd sd rf s e F He) as (U & L & N & Hg). exists U, L, N. split; [exact Hg|].
  destruct (tl_nums bexp nd sd rf parse s c Hr Hc) as (Ec & fin).
  destruct (tl_gives_series bexp nd sd rf s e F U L N Hg He) as (fs & Ser & Len & ffs).
  destruct Hg as (_ & _ & _ & LU & LL & LN). rewrite <- Len in HF.
  rewrite Ec in *. pose proof (conj M1 (conj M2 M3)) as HM.
  pose proof (run_bound bexp nd sd rf _ _ _ _ _ _ _ fin Hm fs U L N F Ser ffs M Hs HM HF Hk) as RB.
  split; [|split].
  - intros i z Hz. destruct (nth_error L i) as [d|] eqn:EL.
    + destruct (RB i z d Hz EL) as (A & _ & B & _). split; [exact A|exact B].
    + apply nth_error_None in EL. assert (i < List.length U)%nat by (apply nth_error_Some; rewrite Hz; discriminate). lia.
  - intros i z Hz. destruct (nth_error U i) as [u|] eqn:EU.
    + destruct (RB i u z EU Hz) as (_ & A & _ & B). split; [exact A|exact B].
    + apply nth_error_None in EU. assert (i < List.length L)%nat by (apply nth_error_Some; rewrite Hz; discriminate). lia.
  - intros Hd i z Hz.
    exact (uptake_bound bexp nd sd rf _ _ _ _ _ _ _ fin Hm fs U L N F Ser ffs M Hs HM HF Hk Hd i z Hz).
Qed.

(** One step of an impulse-response run; box 2 likewise. *)
Theorem c44_impulse_response_step : forall bexp nd sd rf parse s q1 d1 q2 d2 dt e F T1 T2 T N,
  let E := fenv bexp nd sd rf in
  good_exp bexp -> ir_reachable E parse s -> ir_numbers bexp nd sd rf s q1 d1 q2 d2 dt -> reads_series bexp nd sd rf e F ->
  ir_gives bexp nd sd rf s e T1 T2 T N ->
  0 <= dt -> 0 < d1 -> 0 < d2 -> moderate dt -> moderate q1 -> moderate q2 -> moderate_divisor d1 -> moderate_divisor d2 ->
  let step_ok q d (X : list (num E)) :=
    forall i (t : b64), nth_error X i = Some (t : num E) -> (S i < List.length (mags e))%nat ->
      is_finite t = true -> moderate (B2R t) -> moderate (F i) ->
      exists t' : b64, nth_error X (S i) = Some (t' : num E) /\ is_finite t' = true /\
        Rabs (B2R t' - exact_box q d dt (F i) (B2R t)) <= half 49 * (Rabs (B2R t) + Rabs (F i) * Rabs q + half 400) in
  step_ok q1 d1 T1 /\ step_ok q2 d2 T2.
Proof.
  intros bexp nd sd rf parse s q1 d1 q2 d2 dt e F T1 T2 T N E Hx Hr (N1 & N2 & N3 & N4 & N5) He Hg P0 P1 P2 Mt Mq1 Mq2 Md1 Md2 step_ok.
  destruct (ir_gives_series bexp nd sd rf s e F T1 T2 T N Hg He) as (fs & Ser & Len & ffs).
  destruct (ir_reachable_coherent E parse s Hr).
  destruct (reads_to _ _ _ _ _ _ _ _ N1 ic_q1) as [A1 B1]. destruct (reads_to _ _ _ _ _ _ _ _ N2 ic_d1) as [A2 B2].
  destruct (reads_to _ _ _ _ _ _ _ _ N3 ic_q2) as [A3 B3]. destruct (reads_to _ _ _ _ _ _ _ _ N4 ic_d2) as [A4 B4].
  destruct (reads_to _ _ _ _ _ _ _ _ N5 ic_delta_t) as [A5 B5].
  destruct Ser as (L1 & L2 & L3 & L4 & Z & _ & St).
  split; intros i t Ht Hi Ft Mo MF; rewrite <- Len in Hi;
    (destruct (nth_error fs i) as [f|] eqn:Ef; [|apply nth_error_None in Ef; lia]);
    destruct (ffs _ _ Ef) as [Ff EF]; rewrite <- EF in *.
  - destruct (nth_error T2 i) as [t2|] eqn:E2; [|apply nth_error_None in E2; rewrite L2 in E2; unfold E in *; cbn in *; lia].
    destruct (St i f t t2 Hi Ef Ht E2) as ((t' & C1 & C2) & _ & _). exists t'. split; [exact C2|].
    destruct (box_step bexp nd sd rf Hx _ _ _ (conj A5 (conj A2 A1)) ltac:(rewrite B5; exact P0) ltac:(rewrite B2; exact P1)
      ltac:(rewrite B5; exact Mt) ltac:(rewrite B2; exact Md1) t f Ft Ff Mo MF ltac:(rewrite B1; exact Mq1)) as (t'' & C3 & C4 & C5 & _).
    rewrite B1, B2, B5 in C5. pose proof (eq_trans (eq_sym C1) C3) as Q. injection Q as Q. rewrite Q. split; assumption.
  - destruct (nth_error T1 i) as [t1|] eqn:E1; [|apply nth_error_None in E1; rewrite L1 in E1; unfold E in *; cbn in *; lia].
    destruct (St i f t1 t Hi Ef E1 Ht) as (_ & (t' & C1 & C2) & _). exists t'. split; [exact C2|].
    destruct (box_step bexp nd sd rf Hx _ _ _ (conj A5 (conj A4 A3)) ltac:(rewrite B5; exact P0) ltac:(rewrite B4; exact P2)
      ltac:(rewrite B5; exact Mt) ltac:(rewrite B4; exact Md2) t f Ft Ff Mo MF ltac:(rewrite B3; exact Mq2)) as (t'' & C3 & C4 & C5 & _).
    rewrite B3, B4, B5 in C5. pose proof (eq_trans (eq_sym C1) C3) as Q. injection Q as Q. rewrite Q. split; assumption.
Qed.

(** A whole impulse-response run. *)
Theorem c44_impulse_response_run : forall bexp nd sd rf parse s q1 d1 q2 d2 dt e F T1 T2 T N M,
  let E := fenv bexp nd sd rf in
  good_exp bexp -> ir_reachable E parse s -> ir_numbers bexp nd sd rf s q1 d1 q2 d2 dt -> reads_series bexp nd sd rf e F ->
  ir_gives bexp nd sd rf s e T1 T2 T N ->
  0 <= dt -> 0 < d1 -> 0 < d2 -> moderate dt -> moderate q1 -> moderate q2 -> moderate_divisor d1 -> moderate_divisor d2 ->
  half 46 <= 1 - exp (- dt / d1) -> half 46 <= 1 - exp (- dt / d2) ->
  half 400 <= M -> moderate (2 * M) ->
  (forall i, (i < List.length (mags e))%nat -> moderate (F i) /\ Rabs (F i) * Rabs q1 <= M /\ Rabs (F i) * Rabs q2 <= M) ->
  close_series bexp nd sd rf T1 (exact_boxes q1 d1 dt F) (half 46 * M / (1 - exp (- dt / d1))) /\
  close_series bexp nd sd rf T2 (exact_boxes q2 d2 dt F) (half 46 * M / (1 - exp (- dt / d2))) /\
  close_series bexp nd sd rf T (fun i => exact_boxes q1 d1 dt F i + exact_boxes q2 d2 dt F i)
    (half 45 * M / (1 - exp (- dt / d1)) + half 45 * M / (1 - exp (- dt / d2))).
Proof.
  intros bexp nd sd rf parse s q1 d1 q2 d2 dt e F T1 T2 T N M E Hx Hr (N1 & N2 & N3 & N4 & N5) He Hg P0 P1 P2 Mt Mq1 Mq2 Md1 Md2 G1 G2 M1 M2 HF.
  destruct (ir_gives_series bexp nd sd rf s e F T1 T2 T N Hg He) as (fs & Ser & Len & ffs).
  destruct (ir_reachable_coherent E parse s Hr).
  destruct (reads_to _ _ _ _ _ _ _ _ N1 ic_q1) as [A1 B1]. destruct (reads_to _ _ _ _ _ _ _ _ N2 ic_d1) as [A2 B2].
  destruct (reads_to _ _ _ _ _ _ _ _ N3 ic_q2) as [A3 B3]. destruct (reads_to _ _ _ _ _ _ _ _ N4 ic_d2) as [A4 B4].
  destruct (reads_to _ _ _ _ _ _ _ _ N5 ic_delta_t) as [A5 B5].
  destruct Ser as (L1 & L2 & L3 & L4 & Z & Sum & St).
  change (@List.length b64 T1 = @List.length b64 fs) in L1. change (@List.length b64 T2 = @List.length b64 fs) in L2.
  change (@List.length b64 T = @List.length b64 fs) in L3.
  assert (R1 : forall i t, nth_error T1 i = Some t -> is_finite (t : b64) = true /\
    Rabs (B2R (t : b64) - exact_boxes q1 d1 dt F i) <= half 46 * M / (1 - exp (- dt / d1))).
  { rewrite <- B1, <- B2, <- B5.
    apply (box_run_bound bexp nd sd rf Hx _ _ _ (conj A5 (conj A2 A1)) ltac:(rewrite B5; exact P0) ltac:(rewrite B2; exact P1)
      ltac:(rewrite B5; exact Mt) ltac:(rewrite B2; exact Md1) fs T1 F M L1).
    - intros K. exact (proj1 (Z K)).
    - intros i f t Hi Ef Ht.
      destruct (nth_error T2 i) as [t2|] eqn:E2; [|apply nth_error_None in E2; change (@List.length b64 T2 <= i)%nat in E2; lia].
      exact (proj1 (St i f t t2 Hi Ef Ht E2)).
    - exact ffs.
    - rewrite B1. auto.
    - rewrite B1. intros i Hi. rewrite Len in Hi. destruct (HF i Hi) as (H1 & H2 & _). auto.
    - rewrite B2, B5. exact G1. }
  assert (R2 : forall i t, nth_error T2 i = Some t -> is_finite (t : b64) = true /\
    Rabs (B2R (t : b64) - exact_boxes q2 d2 dt F i) <= half 46 * M / (1 - exp (- dt / d2))).
  { rewrite <- B3, <- B4, <- B5.
    apply (box_run_bound bexp nd sd rf Hx _ _ _ (conj A5 (conj A4 A3)) ltac:(rewrite B5; exact P0) ltac:(rewrite B4; exact P2)
      ltac:(rewrite B5; exact Mt) ltac:(rewrite B4; exact Md2) fs T2 F M L2).
    - intros K. exact (proj1 (proj2 (Z K))).
    - intros i f t Hi Ef Ht.
      destruct (nth_error T1 i) as [t1|] eqn:E1; [|apply nth_error_None in E1; change (@List.length b64 T1 <= i)%nat in E1; lia].
      exact (proj1 (proj2 (St i f t1 t Hi Ef E1 Ht))).
    - exact ffs.
    - rewrite B3. auto.
    - rewrite B3. intros i Hi. rewrite Len in Hi. destruct (HF i Hi) as (H1 & _ & H2). auto.
    - rewrite B4, B5. exact G2. }
  split; [exact R1|]. split; [exact R2|].
  intros i z Hz.
  assert (Hi : (i < List.length fs)%nat) by (rewrite <- L3; apply nth_error_Some; intros K; pose proof (eq_trans (eq_sym Hz) K); discriminate).
  destruct (nth_error T1 i) as [t1|] eqn:E1; [|apply nth_error_None in E1; change (@List.length b64 T1 <= i)%nat in E1; lia].
  destruct (nth_error T2 i) as [t2|] eqn:E2; [|apply nth_error_None in E2; change (@List.length b64 T2 <= i)%nat in E2; lia].
  pose proof (Sum i t1 t2 E1 E2) as Es. pose proof (some_inj _ _ (eq_trans (eq_sym Hz) Es)) as Ez.
  destruct (R1 i t1 E1) as [F1 C1]. destruct (R2 i t2 E2) as [F2 C2].
  assert (bx : forall q d, 0 < d -> (forall i, (i < List.length (mags e))%nat -> Rabs (F i) * Rabs q <= M) ->
     forall k, (k <= List.length (mags e))%nat -> Rabs (exact_boxes q d dt F k) <= M).
  { intros q d Pd HB. pose proof (half_pos 400). induction k as [|k IH]; intros Hk; cbn [exact_boxes]; [rewrite Rabs_R0; lra|].
    specialize (IH ltac:(lia)). pose proof (HB k ltac:(lia)) as K. unfold exact_box.
    assert (0 < exp (- dt / d) <= 1).
    { split; [apply exp_pos|]. rewrite <- exp_0. assert (Hle : - dt / d <= 0).
      { replace (- dt / d) with (- (dt / d)) by (field; lra).
        assert (0 <= dt / d) by (unfold Rdiv; apply Rmult_le_pos; [lra|left; apply Rinv_0_lt_compat; lra]). lra. }
      destruct Hle as [Hl|Hl]; [left; now apply exp_increasing|rewrite Hl; right; reflexivity]. }
    rewrite <- Rabs_mult in K. apply Rabs_elim in IH. apply Rabs_elim in K. apply Rabs_le3. split; nra. }
  rewrite Len in Hi.
  pose proof (bx q1 d1 P1 ltac:(intros; apply HF; assumption) i ltac:(lia)) as X1.
  pose proof (bx q2 d2 P2 ltac:(intros; apply HF; assumption) i ltac:(lia)) as X2.
  pose proof (half_pos 46) as h46. pose proof (half_pos 400) as h400. pose proof (half_pos 53) as h53.
  set (g1 := 1 - exp (- dt / d1)) in *. set (g2 := 1 - exp (- dt / d2)) in *.
  assert (rle : forall g, half 46 <= g -> half 46 * M / g <= M).
  { intros g Hg'. apply Rmult_le_reg_r with g; [lra|]. unfold Rdiv. rewrite Rmult_assoc, Rinv_l, Rmult_1_r by lra. nra. }
  pose proof (rle g1 G1) as r1. pose proof (rle g2 G2) as r2.
  set (X1' := exact_boxes q1 d1 dt F i) in *. set (X2' := exact_boxes q2 d2 dt F i) in *.
  assert (Y1 : Rabs (B2R (t1 : b64)) <= 2 * M).
  { replace (B2R (t1 : b64)) with (X1' + (B2R (t1 : b64) - X1')) by ring. eapply Rle_trans; [apply Rabs_triang|]. lra. }
  assert (Y2 : Rabs (B2R (t2 : b64)) <= 2 * M).
  { replace (B2R (t2 : b64)) with (X2' + (B2R (t2 : b64) - X2')) by ring. eapply Rle_trans; [apply Rabs_triang|]. lra. }
  unfold moderate in M2. fold P in M2. rewrite Rabs_right in M2 by lra.
  destruct P_chain as (Q1 & Q2 & Q3 & Q4 & Q5 & Q6 & Q7).
  pose proof (ap_sum 0 0 (t1 : b64) (t2 : b64) _ _ _ _ (ap_in _ F1) (ap_in _ F2) ltac:(lia) ltac:(lia) ltac:(lra)) as A.
  cbn [Nat.max] in A. assert (Ez' : z = (Bplus mode_NE (t1 : b64) (t2 : b64))) by exact Ez. rewrite <- Ez' in A.
  split; [exact (ap_fin _ _ _ _ A)|]. pose proof (ap_err _ _ _ _ A) as Er. rewrite grow_1, <- half_u in Er.
  replace (B2R z - (X1' + X2')) with ((B2R z - (B2R (t1 : b64) + B2R (t2 : b64))) + ((B2R (t1 : b64) - X1') + (B2R (t2 : b64) - X2'))) by ring.
  eapply Rle_trans; [apply Rabs_triang|].
  assert (Er' : Rabs (B2R z - (B2R (t1 : b64) + B2R (t2 : b64))) <= half 53 * (4 * M)).
  { eapply Rle_trans; [exact Er|]. apply Rmult_le_compat_l; lra. }
  pose proof (Rabs_triang (B2R (t1 : b64) - X1') (B2R (t2 : b64) - X2')) as Tr.
  assert (g1le : g1 <= 1) by (unfold g1; pose proof (exp_pos (- dt / d1)); lra).
  assert (K : half 46 * M <= half 46 * M / g1).
  { apply Rmult_le_reg_r with g1; [lra|]. replace (half 46 * M / g1 * g1) with (half 46 * M) by (field; lra).
    assert (0 <= half 46 * M) by (apply Rmult_le_pos; lra). nra. }
  assert (K2 : 0 <= half 46 * M / g2) by (apply Rlt_le, Rdiv_lt_0_compat; [apply Rmult_lt_0_compat|]; lra).
  assert (E45 : half 45 = 2 * half 46) by (symmetry; apply (half_dbl 45)).
  assert (E46 : half 46 = 128 * half 53) by apply halves.
  rewrite E45. replace (2 * half 46 * M / g1) with (2 * (half 46 * M / g1)) by (unfold Rdiv; ring).
  replace (2 * half 46 * M / g2) with (2 * (half 46 * M / g2)) by (unfold Rdiv; ring).
  assert (half 53 * (4 * M) <= half 46 * M) by (rewrite E46; nra). lra.
Qed.

(** Concrete cases: an implementation of exp, a small registry, models. *)
Definition floor_exp (z : b64) : b64 :=
  binary_normalize 53 1024 b64_prec b64_emax mode_NE (Zfloor (exp (B2R z) * two 52)) (-52) false.
Lemma half_two : forall n, half n * two n = 1.
Proof. intros. unfold half, two. apply Rinv_l. apply not_0_IZR. lia. Qed.
Lemma floor_exp_good : good_exp floor_exp.
Proof.
  intros z Fz Hz. unfold floor_exp.
  set (k := Zfloor (exp (B2R z) * two 52)).
  assert (H1 : exp (B2R z) <= 1).
  { rewrite <- exp_0. destruct Hz as [Hz|Hz]; [left; now apply exp_increasing|rewrite Hz; right; reflexivity]. }
  pose proof (exp_pos (B2R z)) as H0.
  pose proof (Zfloor_lb (exp (B2R z) * two 52)) as L. pose proof (Zfloor_ub (exp (B2R z) * two 52)) as Ub. fold k in L, Ub.
  assert (T0 : 0 < two 52) by (apply IZR_lt; reflexivity).
  assert (K0 : (0 <= k)%Z). { unfold k. apply Zfloor_lub. cbn. apply Rmult_le_pos; lra. }
  assert (K1 : (k <= 2 ^ 52)%Z). { apply le_IZR. change (IZR (2 ^ 52)) with (two 52). nra. }
  pose proof (binary_normalize_correct 53 1024 b64_prec b64_emax mode_NE k (-52) false) as C. cbn [round_mode] in C.
  assert (Ek : F2R (Float radix2 k (-52)) = IZR k * half 52).
  { unfold F2R. cbn [Fnum Fexp]. rewrite bpow2_neg. reflexivity. }
  assert (Gf : generic_format radix2 (SpecFloat.fexp 53 1024) (F2R (Float radix2 k (-52)))).
  { change (SpecFloat.fexp 53 1024) with (FLT_exp (-1074) 53). apply generic_format_FLT.
    exists (Float radix2 k (-52)); [reflexivity| |cbn; lia]. cbn [Fnum]. change (radix2 ^ 53)%Z with (2 ^ 53)%Z. lia. }
  rewrite round_generic in C by (try typeclasses eauto; exact Gf). rewrite Ek in C.
  pose proof (half_two 52) as HT. pose proof (half_pos 52) as h52.
  assert (Kr : 0 <= IZR k <= two 52) by (split; [apply IZR_le; exact K0|apply IZR_le; exact K1]).
  assert (Kb : 0 <= IZR k * half 52 <= 1) by nra.
  rewrite Rlt_bool_true in C.
  2:{ rewrite Rabs_right by lra. pose proof four_big. pose proof big_pos. lra. }
  destruct C as (C1 & C2 & _). rewrite C1, C2. split; [reflexivity|].
  apply Rabs_le3. assert (exp (B2R z) = exp (B2R z) * two 52 * half 52) by (rewrite Rmult_assoc, (Rmult_comm (two 52)), HT; ring).
  nra.
Qed.

Ltac fval := match goal with |- B2R ?z = _ =>
  rewrite <- (SF2R_B2SF 53 1024 z); let w := eval vm_compute in (B2SF z) in replace (B2SF z) with w by (vm_compute; reflexivity);
  cbn [SF2R]; unfold F2R; cbn [Fnum Fexp cond_Zopp Z.opp]; rewrite ?bpow2_neg, ?bpow2_pos;
  try match goal with |- context [IZR (2 ^ ?n)] => let v := eval vm_compute in (2 ^ n)%Z in change (2 ^ n)%Z with v end;
  first [lra | field] end.

Definition frf (u : Units) : b64 := b64_of_Q 1.
Definition fcase_tl (bexp : b64 -> b64) : TLArgs (fenv bexp 4 demo_dim frf) :=
  let E := fenv bexp 4 demo_dim frf in
  mkTLArgs E (PQ (mkQty E 50 u_m)) (PQ (mkQty E 1200 u_m)) (PQ (mkQty E (5#4) u_Wm2C)) (PQ (mkQty E 0 u_Wm2C2))
    (PQ (mkQty E 1 u_none)) (PQ (mkQty E (3#4) u_Wm2C)) (PQ (mkQty E 16777216 u_s)).
Definition fcase_erf (bexp : b64 -> b64) : QArr (fenv bexp 4 demo_dim frf) :=
  mkQA [b64_of_Q 4 : num (fenv bexp 4 demo_dim frf); b64_of_Q 5; b64_of_Q (-5)] u_Wm2.
Definition fcase_F (i : nat) : R := match i with O => 4 | S O => 5 | _ => -5 end.

Lemma fcase_reads : forall bexp, reads_series bexp 4 demo_dim frf (fcase_erf bexp) fcase_F.
Proof.
  intros bexp. split.
  - intros x Hx. cbn in Hx. destruct Hx as [<-|[<-|[<-|[]]]]; vm_compute; reflexivity.
  - exists [b64_of_Q 4; b64_of_Q 5; b64_of_Q (-5)]. split; [reflexivity|].
    intros [|[|[|i]]] z Hz; cbn in Hz; try (destruct i; discriminate); apply some_inj in Hz; subst z;
      (split; [vm_compute; reflexivity|cbn [fcase_F]; fval]).
Qed.
Lemma reads_at : forall bexp (q : Qty (fenv bexp 4 demo_dim frf)) u (z : b64) x,
  to_mag (fenv bexp 4 demo_dim frf) q u = Ok (z : num (fenv bexp 4 demo_dim frf)) -> is_finite z = true -> B2R z = x ->
  reads bexp 4 demo_dim frf q u x.
Proof. intros. exists z. auto. Qed.
Definition fcase_c : TLN := mkTLN 16777216 (5/4) 0 1 (3/4) 209050000 5017200000.
Lemma two_big : forall x, Rabs x <= 10000000000 -> moderate x.
Proof.
  intros x H. unfold moderate, two. eapply Rle_trans; [exact H|]. apply IZR_le. vm_compute. discriminate.
Qed.
Lemma half_le : forall x, 1 <= Rabs x -> moderate_divisor x.
Proof.
  intros x H. unfold moderate_divisor, half. eapply Rle_trans; [|exact H]. rewrite <- Rinv_1. apply Rinv_le_contravar; [lra|].
  apply IZR_le. vm_compute. discriminate.
Qed.
Ltac small := apply two_big; apply Rabs_le3; lra.
Example c44_two_layer_case : forall bexp parse, exists s,
  tl_reachable (fenv bexp 4 demo_dim frf) parse s /\ tl_numbers bexp 4 demo_dim frf s fcase_c /\
  moderate_tl fcase_c /\ moderate_divisor (n_dt fcase_c) /\
  reads_series bexp 4 demo_dim frf (fcase_erf bexp) fcase_F /\ List.length (mags (fcase_erf bexp)) = 3%nat /\
  stable_tl fcase_c /\ half 46 * (1 + theta fcase_c) <= damping fcase_c /\ half 400 <= 4 /\ moderate (2 * 4) /\
  moderate (n_lambda0 fcase_c * 4) /\ (forall i, Rabs (fcase_F i) <= n_lambda0 fcase_c * 4) /\
  0 < snd (exact_run fcase_c fcase_F 2).
Proof.
  intros bexp parse. set (E := fenv bexp 4 demo_dim frf).
  destruct (tl_new_ok E (fcase_tl bexp)) as (s & Hs & Hc & Hp & _).
  { intros p. destruct p; eexists; (split; [reflexivity|]); intros k Hk; reflexivity. }
  exists s. split; [exists (fcase_tl bexp), s, []; split; [exact Hs|reflexivity]|].
  assert (Q : forall p q, tl_arg E (fcase_tl bexp) p = PQ q -> tl_param_get E p s = q).
  { intros p q H. rewrite Hp in H. injection H. auto. }
  split.
  { pose proof (Q Pdu _ eq_refl) as Q1. pose proof (Q Pdl _ eq_refl) as Q2. pose proof (Q Plambda0 _ eq_refl) as Q3.
    pose proof (Q Pa _ eq_refl) as Q4. pose proof (Q Pefficacy _ eq_refl) as Q5. pose proof (Q Peta _ eq_refl) as Q6.
    pose proof (Q Pdelta_t _ eq_refl) as Q7. cbn [tl_param_get] in *.
    unfold tl_numbers, tl_heat_capacity_upper, tl_heat_capacity_lower. fold E. rewrite Q1, Q2, Q3, Q4, Q5, Q6, Q7.
    repeat split; eapply reads_at; try reflexivity; try (vm_compute; reflexivity);
      cbn [fcase_c n_dt n_lambda0 n_a n_eps n_eta n_C n_CD]; fval. }
  split.
  { unfold moderate_tl. cbn [fcase_c n_dt n_lambda0 n_a n_eps n_eta n_C n_CD].
    repeat split; try small; apply half_le; rewrite Rabs_right; lra. }
  split; [apply half_le; cbn [fcase_c n_dt]; rewrite Rabs_right; lra|].
  split; [apply fcase_reads|]. split; [reflexivity|].
  split.
  { unfold stable_tl. cbn [fcase_c n_dt n_lambda0 n_a n_eps n_eta n_C n_CD]. repeat split; lra. }
  assert (Th : theta fcase_c = 5/6) by (unfold theta; cbn [fcase_c n_lambda0 n_eps n_eta]; field).
  split.
  { rewrite Th. assert (K : half 46 <= / 4096) by (unfold half; apply Rinv_le_contravar; [lra|]; apply IZR_le; vm_compute; discriminate).
    apply Rle_trans with (/ 4096 * (11/6)); [apply mulle; try lra; left; apply half_pos|].
    unfold damping. rewrite Th. cbn [fcase_c n_dt n_lambda0 n_a n_eps n_eta n_C n_CD]. apply Rmin_glb; lra. }
  split.
  { unfold half. apply Rle_trans with (/ 1); [apply Rinv_le_contravar; [lra|]; apply IZR_le; vm_compute; discriminate|lra]. }
  split; [small|]. split; [cbn [fcase_c n_lambda0]; small|].
  split.
  { intros i. cbn [fcase_c n_lambda0]. apply Rabs_le3. destruct i as [|[|i]]; cbn [fcase_F]; lra. }
  cbn [exact_run fcase_F snd]. unfold exact_upper, exact_lower. cbn [fcase_c n_dt n_lambda0 n_a n_eps n_eta n_C n_CD]. lra.
Qed.

Definition fcase_ir (bexp : b64 -> b64) : IRArgs (fenv bexp 4 demo_dim frf) :=
  let E := fenv bexp 4 demo_dim frf in
  mkIRArgs E (PQ (mkQty E (1#4) u_CWm2)) (PQ (mkQty E (1#2) u_CWm2)) (PQ (mkQty E 8 u_yr)) (PQ (mkQty E 256 u_yr))
    (PQ (mkQty E 1 u_none)) (PQ (mkQty E 1 u_yr)).
Lemma exp_gap : forall t, 0 < t -> t / (1 + t) <= 1 - exp (- t).
Proof.
  intros t Ht. pose proof (exp_ineq1_le t). rewrite exp_Ropp.
  assert (/ exp t <= / (1 + t)) by (apply Rinv_le_contravar; lra).
  assert (t / (1 + t) = 1 - / (1 + t)) by (field; lra). lra.
Qed.
Example c44_impulse_response_case : forall parse, exists s T1 T2 T N,
  good_exp floor_exp /\ ir_reachable (fenv floor_exp 4 demo_dim frf) parse s /\
  ir_numbers floor_exp 4 demo_dim frf s (1/4) 8 (1/2) 256 1 /\
  reads_series floor_exp 4 demo_dim frf (fcase_erf floor_exp) fcase_F /\
  ir_gives floor_exp 4 demo_dim frf s (fcase_erf floor_exp) T1 T2 T N /\
  moderate 1 /\ moderate (1/4) /\ moderate (1/2) /\ moderate_divisor 8 /\ moderate_divisor 256 /\
  half 46 <= 1 - exp (- (1) / 8) /\ half 46 <= 1 - exp (- (1) / 256) /\ half 400 <= 4 /\ moderate (2 * 4) /\
  (forall i, moderate (fcase_F i) /\ Rabs (fcase_F i) * Rabs (1/4) <= 4 /\ Rabs (fcase_F i) * Rabs (1/2) <= 4).
Proof.
  intros parse. set (E := fenv floor_exp 4 demo_dim frf).
  assert (OK : match ir_new E (fcase_ir floor_exp) with
               | Ok s => match ir_get_two_layer_parameters E s with
                         | Ok _ => (negb (neqb E (ir_d1_mag E s) (nQ E 0)) && negb (neqb E (ir_d2_mag E s) (nQ E 0)) &&
                                    neqb E (ir_efficacy_mag E s) (nQ E 1))%bool
                         | Err _ => false end
               | Err _ => false end = true) by (vm_compute; reflexivity).
  destruct (ir_new E (fcase_ir floor_exp)) as [s|] eqn:Hs; [|discriminate].
  destruct (ir_get_two_layer_parameters E s) as [p|] eqn:Hp; [|discriminate].
  apply andb_prop in OK. destruct OK as [OK O3]. apply andb_prop in OK. destruct OK as [O1 O2].
  apply negb_true_iff in O1. apply negb_true_iff in O2.
  destruct (fcase_reads floor_exp) as (Hn & fs & Hf & Hv).
  destruct (c01_impulse_response_success E s (fcase_erf floor_exp) fs p Hf Hn O1 O2 Hp O3) as (s' & D).
  destruct (c01_impulse_response_shape E s s' _ D) as (fs' & T1 & T2 & T & N & _ & _ & O & _).
  exists s, T1, T2, T, N. split; [exact floor_exp_good|].
  split; [exists (fcase_ir floor_exp), s, []; split; [exact Hs|reflexivity]|].
  split.
  { destruct (ir_new_ok E (fcase_ir floor_exp) (mkQty E 8 u_yr) (mkQty E 256 u_yr)) as (s1 & Hs1 & _ & Hq & _).
    { intros q. destruct q; eexists; (split; [reflexivity|]); intros k Hk; reflexivity. }
    { reflexivity. } { reflexivity. } { vm_compute. reflexivity. }
    rewrite Hs in Hs1. injection Hs1 as <-.
    assert (Q : forall q x, ir_arg E (fcase_ir floor_exp) q = PQ x -> ir_param_get E q s = x).
    { intros q x H. rewrite Hq in H. injection H. auto. }
    pose proof (Q Pq1 _ eq_refl) as Q1. pose proof (Q Pq2 _ eq_refl) as Q2. pose proof (Q Pd1 _ eq_refl) as Q3.
    pose proof (Q Pd2 _ eq_refl) as Q4. pose proof (Q Pdt _ eq_refl) as Q5. cbn [ir_param_get] in *.
    unfold ir_numbers. fold E. rewrite Q1, Q2, Q3, Q4, Q5.
    repeat split; eapply reads_at; try reflexivity; try (vm_compute; reflexivity); fval. }
  split; [apply fcase_reads|]. split; [exists s'; split; [exact D|exact O]|].
  split; [small|]. split; [small|]. split; [small|].
  split; [apply half_le; rewrite Rabs_right; lra|]. split; [apply half_le; rewrite Rabs_right; lra|].
  assert (K : half 46 <= / 4096) by (unfold half; apply Rinv_le_contravar; [lra|]; apply IZR_le; vm_compute; discriminate).
  split; [pose proof (exp_gap (1/8) ltac:(lra)) as G; replace (- (1) / 8) with (- (1 / 8)) by field; lra|].
  split; [pose proof (exp_gap (1/256) ltac:(lra)) as G; replace (- (1) / 256) with (- (1 / 256)) by field; lra|].
  split.
  { unfold half. apply Rle_trans with (/ 1); [apply Rinv_le_contravar; [lra|]; apply IZR_le; vm_compute; discriminate|lra]. }
  split; [small|].
  assert (B : forall i, -5 <= fcase_F i <= 5) by (intros [|[|i]]; cbn [fcase_F]; lra).
  intros i. pose proof (B i) as Bi. assert (A : Rabs (fcase_F i) <= 5) by (apply Rabs_le3; lra).
  split; [small|]. rewrite (Rabs_right (1/4)), (Rabs_right (1/2)) by lra. lra.
Qed.
