(** Errors of the conversions, and of runs relative to the physical parameters. *)
From Coq Require Import List String QArith Reals Bool Arith Lra Lia Psatz.
From Flocq Require Import Core IEEE754.BinarySingleNaN.
From Verif Require Import Arith Pint Base TwoLayer Impulse Scm Api Spec Exact SpecReal RealUnits RealConv GenTL Float SpecRound FloatTL FloatRun
  SpecPhysical.
Import ListNotations.
Local Open Scope R_scope.

Lemma u_tiny : half 53 <= / 1048576 /\ 0 < half 53.
Proof.
  split; [|apply half_pos]. unfold half. apply Rinv_le_contravar; [lra|]. apply IZR_le. vm_compute. discriminate.
Qed.
Lemma two_half n : two n * half n = 1.
Proof. unfold half, two. apply Rinv_r. apply not_0_IZR. lia. Qed.
Lemma two_pos n : 0 < two n.
Proof. apply IZR_lt. lia. Qed.
Lemma two_mul m n : two m * two n = two (m + n).
Proof.
  unfold two. rewrite <- mult_IZR. f_equal. change (Zpos (m + n)) with (Zpos m + Zpos n)%Z. rewrite Z.pow_add_r by lia. reflexivity.
Qed.
Lemma two_le m n : (m <= n)%positive -> two m <= two n.
Proof. intros H. unfold two. apply IZR_le. apply Z.pow_le_mono_r; lia. Qed.
Lemma half_le_half m n : (m <= n)%positive -> half n <= half m.
Proof. intros H. unfold half. apply Rinv_le_contravar; [apply IZR_lt; lia|]. apply IZR_le. apply Z.pow_le_mono_r; lia. Qed.
Lemma two_big1 n : (n <= 999)%positive -> two n <= big.
Proof. intros H. eapply Rle_trans; [apply (two_le n 999); lia|]. unfold two, big. apply IZR_le. vm_compute. discriminate. Qed.

(** A product of approximate factors. *)
Lemma mul_near (m f : b64) (m0 k a b : R) :
  is_finite m = true -> is_finite f = true -> 0 <= a <= half 45 -> 0 <= b <= half 45 ->
  Rabs (B2R m - m0) <= a * Rabs m0 -> Rabs (B2R f - k) <= b * Rabs k -> Rabs (m0 * k) <= two 500 ->
  is_finite (Bmult mode_NE m f) = true /\
  (m0 * k = 0 -> B2R (Bmult mode_NE m f) = 0) /\
  Rabs (B2R (Bmult mode_NE m f) - m0 * k) <= (a + b + 3/2 * half 53) * Rabs (m0 * k) + half 1000.
Proof.
  intros Fm Ff Ha Hb Em Ef HB. destruct u_tiny as [U1 U0].
  destruct halves as (_ & _ & _ & _ & _ & _ & _ & E45 & _). rewrite E45 in Ha, Hb.
  set (w := B2R m * B2R f).
  pose proof (Rabs_pos m0) as P1. pose proof (Rabs_pos k) as P2. pose proof (Rabs_pos (m0 * k)) as P3.
  assert (Ew : Rabs (w - m0 * k) <= (a + b + a * b) * Rabs (m0 * k)).
  { unfold w. replace (B2R m * B2R f - m0 * k) with ((B2R m - m0) * k + m0 * (B2R f - k) + (B2R m - m0) * (B2R f - k)) by ring.
    eapply Rle_trans; [apply Rabs_triang|]. eapply Rle_trans; [apply Rplus_le_compat_r, Rabs_triang|]. rewrite !Rabs_mult.
    assert (Rabs (B2R m - m0) * Rabs k <= a * Rabs m0 * Rabs k) by (apply Rmult_le_compat_r; lra).
    assert (Rabs m0 * Rabs (B2R f - k) <= Rabs m0 * (b * Rabs k)) by (apply Rmult_le_compat_l; lra).
    assert (Rabs (B2R m - m0) * Rabs (B2R f - k) <= a * Rabs m0 * (b * Rabs k)) by (apply mulle; try apply Rabs_pos; assumption).
    lra. }
  assert (Hs : a + b + a * b <= / 2) by nra.
  assert (Hw : Rabs w <= 2 * Rabs (m0 * k)).
  { replace w with (m0 * k + (w - m0 * k)) by ring. eapply Rle_trans; [apply Rabs_triang|].
    assert ((a + b + a * b) * Rabs (m0 * k) <= / 2 * Rabs (m0 * k)) by (apply Rmult_le_compat_r; lra). lra. }
  pose proof (two_big1 500 ltac:(lia)) as TB.
  pose proof (Bmult_correct 53 1024 _ _ mode_NE m f) as C. cbn [round_mode] in C. fold w in C.
  rewrite (rnd_no_overflow w) in C by lra. destruct C as (C1 & C2 & _).
  split; [rewrite C2, Fm, Ff; reflexivity|]. rewrite C1. split.
  - intros Z. rewrite Z, Rabs_R0 in Hw. assert (w = 0).
    { pose proof (Rabs_pos w). destruct (Req_dec w 0) as [e|e]; [exact e|]. pose proof (Rabs_pos_lt _ e). lra. }
    rewrite H. apply round_0. typeclasses eauto.
  - pose proof (rnd_err w) as Er. rewrite <- half_u in Er.
    assert (Om : half 53 * omega <= half 1000).
    { change omega with (half 1022). rewrite half_mul. apply half_le_half. lia. }
    replace (rnd w - m0 * k) with ((rnd w - w) + (w - m0 * k)) by ring.
    eapply Rle_trans; [apply Rabs_triang|].
    assert (Hw' : Rabs w <= (1 + (a + b + a * b)) * Rabs (m0 * k)).
    { replace w with (m0 * k + (w - m0 * k)) by ring. eapply Rle_trans; [apply Rabs_triang|]. lra. }
    assert (half 53 * Rabs w <= half 53 * ((1 + (a + b + a * b)) * Rabs (m0 * k))) by (apply Rmult_le_compat_l; lra).
    assert ((a + b + a * b + half 53 * (1 + (a + b + a * b))) * Rabs (m0 * k) <= (a + b + 3/2 * half 53) * Rabs (m0 * k)).
    { apply Rmult_le_compat_r; [lra|]. assert (a * b <= 256 * half 53 * (256 * half 53)) by (apply mulle; lra). nra. }
    lra.
Qed.

Section Reading.
Variable reg : Registry.
Variable bexp : b64 -> b64.
Variable rf : Units -> b64.
Notation E := (fenv bexp (rg_ndim reg) (rg_dim reg) rf).
Hypothesis acc : accurate_registry reg rf.

Lemma ordinary_pos x : ordinary x -> 0 < x.
Proof. intros [H _]. pose proof (half_pos 100). lra. Qed.

(** Converting a double [m] that is within [a] of [m0]. *)
Lemma conv_near (m : b64) (m0 a : R) u v : comparable reg bexp rf u v -> is_finite m = true ->
  0 <= a <= half 51 -> Rabs (B2R m - m0) <= a * Rabs m0 -> Rabs (m0 * (usize reg u / usize reg v)) <= two 500 ->
  exists z : b64, conv E (m : num E) u v = Ok (z : num E) /\ is_finite z = true /\
    (m0 * (usize reg u / usize reg v) = 0 -> B2R z = 0) /\
    Rabs (B2R z - m0 * (usize reg u / usize reg v)) <= half 49 * Rabs (m0 * (usize reg u / usize reg v)) + half 1000.
Proof.
  intros (Hd & Ho) Fm Ha Em HB. unfold conv.
  destruct halves as (E49 & E50 & _ & E52 & E51 & _ & _ & E45 & _). pose proof u_tiny as [U1 U0]. pose proof (half_pos 1000).
  assert (Hdb : dim_eqb E u v = true).
  { unfold dim_eqb. apply forallb_forall. intros k Hk. apply in_seq in Hk. apply Qeq_bool_iff. apply Hd. lia. }
  rewrite Hdb. destruct (units_eqb u v) eqn:Eu.
  - exists m. split; [reflexivity|]. split; [exact Fm|]. rewrite (usize_eqb reg u v Eu).
    replace (usize reg v / usize reg v) with 1 by (field; apply usize_neq). rewrite Rmult_1_r. pose proof (Rabs_pos m0). split.
    + intros ->. rewrite Rabs_R0, Rmult_0_r, Rminus_0_r in Em. pose proof (Rabs_pos (B2R m)).
      destruct (Req_dec (B2R m) 0) as [e|e]; [exact e|]. pose proof (Rabs_pos_lt _ e). lra.
    + assert (a * Rabs m0 <= half 49 * Rabs m0) by (apply Rmult_le_compat_r; lra). lra.
  - pose proof (ordinary_pos _ Ho) as Kp. rewrite <- usize_udiv in *. destruct (acc _ Ho) as (Ff & Ef).
    destruct (mul_near m (rf (udiv u v)) m0 (usize reg (udiv u v)) a (half 50) Fm Ff) as (R1 & R2 & R3); try lra.
    { rewrite (Rabs_right (usize reg _)) by lra. exact Ef. }
    exists (Bmult mode_NE m (rf (udiv u v))). split; [reflexivity|]. split; [exact R1|]. split; [exact R2|].
    eapply Rle_trans; [exact R3|]. apply Rplus_le_compat_r, Rmult_le_compat_r; [apply Rabs_pos|]. lra.
Qed.

Lemma stands_value (q : Qty E) x u : stands_for reg bexp rf q x u ->
  B2R (mag q : b64) * (usize reg (units q) / usize reg u) = x.
Proof.
  intros (_ & _ & H). unfold Rdiv. rewrite <- Rmult_assoc, H. field. apply usize_neq.
Qed.
Lemma tiny_ordinary x : ordinary x -> half 1000 <= half 53 * x.
Proof.
  intros [H _]. apply Rle_trans with (half 53 * half 100); [rewrite half_mul; apply half_le_half; lia|].
  apply Rmult_le_compat_l; [left; apply half_pos|exact H].
Qed.
Definition near (x y : R) : Prop := Rabs (y - x) <= half 48 * Rabs x.

Lemma read_near (q : Qty E) x u : stands_for reg bexp rf q x u -> x = 0 \/ ordinary x ->
  exists z : b64, to_mag E q u = Ok (z : num E) /\ is_finite z = true /\ near x (B2R z).
Proof.
  intros H Hx. pose proof (stands_value q x u H) as V. destruct H as (Hc & Fq & _).
  destruct (conv_near (mag q) (B2R (mag q : b64)) 0 (units q) u Hc Fq) as (z & Z1 & Z2 & Z3 & Z4).
  - pose proof (half_pos 51). lra.
  - rewrite Rminus_diag_eq, Rabs_R0 by reflexivity. lra.
  - rewrite V. destruct Hx as [-> | [H0 H1]]; [rewrite Rabs_R0; left; apply two_pos|].
    pose proof (half_pos 100). rewrite Rabs_right by lra. eapply Rle_trans; [exact H1|]. apply two_le. lia.
  - rewrite V in *. exists z. split; [exact Z1|]. split; [exact Z2|]. unfold near.
    destruct Hx as [Ex|Ho].
    + rewrite (Z3 Ex), Ex, Rminus_0_r, Rabs_R0. lra.
    + pose proof (tiny_ordinary _ Ho) as Ht. pose proof (ordinary_pos _ Ho). rewrite (Rabs_right x) in * by lra.
      destruct halves as (E49 & _ & _ & _ & _ & _ & E48 & _). rewrite E48. rewrite E49 in Z4. pose proof u_tiny as [_ U0]. assert (0 < half 53 * x) by (apply Rmult_lt_0_compat; assumption). lra.
Qed.

Ltac fval := match goal with |- B2R ?z = _ =>
  rewrite <- (SF2R_B2SF 53 1024 z); let w := eval vm_compute in (B2SF z) in replace (B2SF z) with w by (vm_compute; reflexivity);
  cbn [SF2R]; unfold F2R; cbn [Fnum Fexp cond_Zopp Z.opp]; rewrite ?bpow2_neg, ?bpow2_pos;
  try match goal with |- context [IZR (2 ^ ?n)] => let v := eval vm_compute in (2 ^ n)%Z in change (2 ^ n)%Z with v end;
  first [lra | field] end.
Lemma density_value : is_finite (b64_of_Q 1000) = true /\ B2R (b64_of_Q 1000) = 1000.
Proof. split; [vm_compute; reflexivity|fval]. Qed.
Lemma specific_value : is_finite (b64_of_Q 4181) = true /\ B2R (b64_of_Q 4181) = 4181.
Proof. split; [vm_compute; reflexivity|fval]. Qed.

Lemma capacity_factor x : x * usize reg u_kgm3 * usize reg u_JCkg / usize reg u_JCm2 = x / usize reg u_m.
Proof. sizes reg. Qed.

(** The heat capacity of a layer of depth [d]. *)
Lemma capacity_near (q : Qty E) d : stands_for reg bexp rf q d u_m -> ordinary d ->
  exists z : b64, to_mag E (qmul E (qmul E q (DENSITY_WATER E)) (HEAT_CAPACITY_WATER E)) u_JCm2 = Ok (z : num E) /\
    is_finite z = true /\ near (water_capacity d) (B2R z).
Proof.
  intros H Hd. pose proof (stands_value q d u_m H) as V. destruct H as (Hc & Fq & _). pose proof (ordinary_pos _ Hd) as Pd.
  set (m := mag q : b64) in *. set (k := usize reg (units q) / usize reg u_m) in *.
  destruct Hc as (Hdim & Ho). fold k in Ho. pose proof (ordinary_pos _ Ho) as Kp.
  assert (Mr : 0 < B2R m /\ half 200 <= B2R m <= two 200).
  { assert (Em : B2R m = d / k) by (apply (Rmult_eq_reg_r k); [rewrite V; field; lra|lra]). rewrite Em.
    assert (Ik : half 100 <= / k <= two 100).
    { pose proof (two_half 100) as TH. pose proof (half_pos 100). pose proof (two_pos 100). destruct Ho as [O1 O2].
      split.
      - apply Rmult_le_reg_r with k; [lra|]. rewrite Rinv_l by lra. nra.
      - apply Rmult_le_reg_r with k; [lra|]. rewrite Rinv_l by lra. nra. }
    destruct Hd as [D1 D2]. pose proof (half_pos 100). unfold Rdiv. split; [|split].
    - apply Rmult_lt_0_compat; lra.
    - change 200%positive with (100 + 100)%positive. rewrite <- half_mul. apply mulle; lra.
    - change 200%positive with (100 + 100)%positive. rewrite <- two_mul. apply mulle; lra. }
  destruct Mr as (M0 & M1 & M2). destruct u_tiny as [U1 U0].
  assert (UM : 0 < half 53 * B2R m) by (apply Rmult_lt_0_compat; assumption).
  destruct density_value as [A1 A2]. destruct specific_value as [B1 B2].
  assert (T2 : two 200 * 4181000 <= two 500).
  { apply Rle_trans with (two 200 * two 23); [apply Rmult_le_compat_l; [left; apply two_pos|]; unfold two; apply IZR_le; vm_compute; discriminate|].
    rewrite two_mul. apply two_le. vm_compute. discriminate. }
  assert (Tn : half 1000 <= half 53 * half 53 * B2R m).
  { apply Rle_trans with (half 53 * half 53 * half 200); [rewrite !half_mul; apply half_le_half; vm_compute; discriminate|].
    apply Rmult_le_compat_l; [|exact M1]. apply Rmult_le_pos; lra. }
  assert (Z0 : 0 <= 0 <= half 45) by (pose proof (half_pos 45); lra).
  destruct (mul_near m (b64_of_Q 1000) (B2R m) 1000 0 0 Fq A1 Z0 Z0) as (C1 & _ & C3).
  { rewrite Rminus_diag_eq, Rabs_R0 by reflexivity. lra. }
  { rewrite A2, Rminus_diag_eq, Rabs_R0 by reflexivity. lra. }
  { rewrite Rabs_right; nra. }
  rewrite (Rabs_right (B2R m * 1000)) in C3 by nra.
  destruct halves as (E49 & E50 & E46 & E52 & E51 & _ & E48 & E45 & _).
  set (m1 := Bmult mode_NE m (b64_of_Q 1000)) in *.
  assert (C4 : Rabs (B2R m1 - B2R m * 1000) <= (3/2 * half 53 + half 53 / 1000) * Rabs (B2R m * 1000)).
  { rewrite (Rabs_right (B2R m * 1000)) by nra. eapply Rle_trans; [exact C3|].
    assert (half 53 * half 53 * B2R m <= half 53 * 1 * B2R m) by (apply Rmult_le_compat_r; [lra|]; apply Rmult_le_compat_l; lra). lra. }
  assert (Ha : 0 <= 3/2 * half 53 + half 53 / 1000 <= half 45) by (rewrite E45; lra).
  destruct (mul_near m1 (b64_of_Q 4181) (B2R m * 1000) 4181 (3/2 * half 53 + half 53 / 1000) 0 C1 B1 Ha Z0 C4) as (D1 & _ & D3).
  { rewrite B2, Rminus_diag_eq, Rabs_R0 by reflexivity. lra. }
  { rewrite Rabs_right; nra. }
  set (m2 := Bmult mode_NE m1 (b64_of_Q 4181)) in *.
  assert (D4 : Rabs (B2R m2 - B2R m * 1000 * 4181) <= half 51 * Rabs (B2R m * 1000 * 4181)).
  { rewrite (Rabs_right (B2R m * 1000 * 4181)) in * by nra. eapply Rle_trans; [exact D3|]. rewrite E51.
    assert (half 53 * half 53 * B2R m <= half 53 * 1 * B2R m) by (apply Rmult_le_compat_r; [lra|]; apply Rmult_le_compat_l; lra). lra. }
  assert (Hk : usize reg (umul (umul (units q) u_kgm3) u_JCkg) / usize reg u_JCm2 = k).
  { unfold k. rewrite !usize_umul. apply capacity_factor. }
  assert (Hcmp : comparable reg bexp rf (umul (umul (units q) u_kgm3) u_JCkg) u_JCm2).
  { split; [exact (heat_capacity_dim E q Hdim)|]. rewrite Hk. exact Ho. }
  destruct (conv_near m2 (B2R m * 1000 * 4181) (half 51) _ _ Hcmp D1) as (z & Z1 & Z2 & _ & Z4).
  { pose proof (half_pos 51). lra. }
  { exact D4. }
  { rewrite Hk. replace (B2R m * 1000 * 4181 * k) with (4181000 * d) by (rewrite <- V; ring).
    destruct Hd as [D5 D6]. rewrite Rabs_right by lra. eapply Rle_trans; [|exact T2]. rewrite Rmult_comm.
    apply Rmult_le_compat_r; [lra|]. eapply Rle_trans; [exact D6|]. apply two_le. lia. }
  rewrite Hk in Z4. exists z. split; [exact Z1|]. split; [exact Z2|]. unfold near, water_capacity.
  replace (B2R m * 1000 * 4181 * k) with (1000 * 4181 * d) in Z4 by (rewrite <- V; ring).
  eapply Rle_trans; [exact Z4|]. rewrite E49, E48. pose proof (tiny_ordinary _ Hd).
  rewrite (Rabs_right (1000 * 4181 * d)) by lra. assert (0 < half 53 * d) by (apply Rmult_lt_0_compat; assumption). lra.
Qed.
End Reading.
