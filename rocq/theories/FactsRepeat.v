(** C64: long runs in double precision repeat themselves. *)
From Coq Require Import List String ZArith QArith Reals Lra Lia Bool Arith.
From Flocq Require Import Core IEEE754.BinarySingleNaN.
From Verif Require Import Arith Pint Base TwoLayer Impulse Scm Api Spec GenTL GenIR GenIRHist Float FloatRun SpecRound SpecExact FloatSym FloatExact FactsRun FactsFloat FactsExact SpecRepeat GenRepeat Demo.
Import ListNotations.
Local Open Scope R_scope.

(** Two-layer model, any parameters: a forcing that repeats itself after [m]
    steps gives results that from some index on repeat themselves, after a
    multiple of [m] steps, bit by bit (also infinities and NaN).  The index and
    the number of steps do not depend on the length of the run. *)
Theorem c64_two_layer_repeats : forall bexp nd sd rf s f u m,
  (0 < m)%nat -> repeats m f ->
  exists N k, (0 < k)%nat /\ (Z.of_nat (N + k * m) <= 2 ^ 130 * Z.of_nat m + 1)%Z /\
    forall n U L R, tl_gives bexp nd sd rf s (first bexp nd sd rf n f u) U L R ->
      repeats_from bexp nd sd rf N (k * m) U /\ repeats_from bexp nd sd rf N (k * m) L /\ repeats_from bexp nd sd rf N (k * m) R.
Proof.
  intros bexp nd sd rf s f u m Hm Hf.
  pose (F := fun i => conv1 rf u (f i)). pose proof (conv1_repeats rf m f u Hf) as HF. fold F in HF.
  destruct (recur (fun (x : b64) (p : b64 * b64) => (next_upper (fenv bexp nd sd rf) s (fst p) (snd p) x, next_lower (fenv bexp nd sd rf) s (snd p) (fst p)))
    (nQ (fenv bexp nd sd rf) 0, nQ (fenv bexp nd sd rf) 0) (traj (fenv bexp nd sd rf) s F) F m Hm HF eq_refl (fun n => eq_refl)) as (N & k & Hk & HN & HR).
  exists (S N), k. split; [exact Hk|]. split; [lia|].
  intros n U L R Hg. apply tl_gives_iff in Hg as (mm & Hmm & _ & -> & -> & ->). destruct (first_mags bexp nd sd rf n f u mm Hmm) as (Ln & At).
  rewrite Ln.
  assert (X : forall i, (i < n)%nat -> traj (fenv bexp nd sd rf) s (at_ (fenv bexp nd sd rf) mm) i = traj (fenv bexp nd sd rf) s F i).
  { intros i Hi. apply traj_ext. intros t Ht. apply At. lia. }
  assert (NM : forall (h : nat -> num (fenv bexp nd sd rf)) i, (i < n)%nat -> nth_error (map h (seq 0 n)) i = Some (h i)).
  { intros h i Hi. rewrite nth_error_map, nth_error_nth' with (d := O) by (rewrite seq_length; lia). rewrite seq_nth by lia. reflexivity. }
  repeat split; intros i Hi Hl; rewrite map_length, seq_length in Hl; rewrite !NM by lia; f_equal.
  - unfold trajU. rewrite !X by lia. rewrite HR by lia. reflexivity.
  - unfold trajL. rewrite !X by lia. rewrite HR by lia. reflexivity.
  - destruct i as [|i]; [lia|]. cbn [Nat.add trajR]. unfold trajU, trajL. rewrite !X by lia.
    change (S (i + k * m))%nat with (S i + k * m)%nat. rewrite !HR by lia. reflexivity.
Qed.

(** Impulse-response model, any parameters. *)
Theorem c64_impulse_response_repeats : forall bexp nd sd rf s f u m,
  (0 < m)%nat -> repeats m f ->
  exists N k, (0 < k)%nat /\ (Z.of_nat (N + k * m) <= 2 ^ 130 * Z.of_nat m + 1)%Z /\
    forall n T1 T2 T R, ir_gives bexp nd sd rf s (first bexp nd sd rf n f u) T1 T2 T R ->
      repeats_from bexp nd sd rf N (k * m) T1 /\ repeats_from bexp nd sd rf N (k * m) T2 /\
      repeats_from bexp nd sd rf N (k * m) T /\ repeats_from bexp nd sd rf N (k * m) R.
Proof.
  intros bexp nd sd rf s f u m Hm Hf.
  pose (F := fun i => conv1 rf u (f i)). pose proof (conv1_repeats rf m f u Hf) as HF. fold F in HF.
  destruct (recur (fun (x : b64) (p : b64 * b64) => (box (fenv bexp nd sd rf) (ir_delta_t_mag (fenv bexp nd sd rf) s) (ir_q1_mag (fenv bexp nd sd rf) s) (ir_d1_mag (fenv bexp nd sd rf) s) (fst p) x,
      box (fenv bexp nd sd rf) (ir_delta_t_mag (fenv bexp nd sd rf) s) (ir_q2_mag (fenv bexp nd sd rf) s) (ir_d2_mag (fenv bexp nd sd rf) s) (snd p) x))
    (nQ (fenv bexp nd sd rf) 0, nQ (fenv bexp nd sd rf) 0) (fun n => (iT1 (fenv bexp nd sd rf) s F n, iT2 (fenv bexp nd sd rf) s F n)) F m Hm HF eq_refl (fun n => eq_refl)) as (N & k & Hk & HN & HR).
  exists (S N), k. split; [exact Hk|]. split; [lia|].
  intros n T1 T2 T R Hg. apply ir_gives_iff in Hg as (mm & hp & Hmm & _ & _ & -> & -> & -> & ->). destruct (first_mags bexp nd sd rf n f u mm Hmm) as (Ln & At).
  rewrite Ln.
  assert (X1 : forall i, (i < n)%nat -> iT1 (fenv bexp nd sd rf) s (iat (fenv bexp nd sd rf) mm) i = iT1 (fenv bexp nd sd rf) s F i).
  { intros i Hi. apply irT_ext. intros t Ht. apply At. lia. }
  assert (X2 : forall i, (i < n)%nat -> iT2 (fenv bexp nd sd rf) s (iat (fenv bexp nd sd rf) mm) i = iT2 (fenv bexp nd sd rf) s F i).
  { intros i Hi. apply irT_ext. intros t Ht. apply At. lia. }
  assert (R1 : forall i, (N <= i)%nat -> iT1 (fenv bexp nd sd rf) s F (i + k * m)%nat = iT1 (fenv bexp nd sd rf) s F i) by (intros i Hi; exact (f_equal fst (HR i Hi))).
  assert (R2 : forall i, (N <= i)%nat -> iT2 (fenv bexp nd sd rf) s F (i + k * m)%nat = iT2 (fenv bexp nd sd rf) s F i) by (intros i Hi; exact (f_equal snd (HR i Hi))).
  assert (NM : forall (h : nat -> num (fenv bexp nd sd rf)) i, (i < n)%nat -> nth_error (map h (seq 0 n)) i = Some (h i)).
  { intros h i Hi. rewrite nth_error_map, nth_error_nth' with (d := O) by (rewrite seq_length; lia). rewrite seq_nth by lia. reflexivity. }
  repeat split; intros i Hi Hl; rewrite map_length, seq_length in Hl; rewrite !NM by lia; f_equal.
  - rewrite !X1 by lia. rewrite R1 by lia. reflexivity.
  - rewrite !X2 by lia. rewrite R2 by lia. reflexivity.
  - rewrite !X1, !X2 by lia. rewrite R1, R2 by lia. reflexivity.
  - destruct i as [|i]; [lia|]. cbn [Nat.add]. unfold iR. cbn [irR]. rewrite !X1, !X2 by lia. rewrite R1, R2 by lia.
    unfold iat at 1 2. f_equal. rewrite !At by lia. exact (repeats_mult m F HF k i).
Qed.

(** Impulse-response model under a constant forcing: the temperatures and the
    heat uptake come to rest, that is, from some index on all values are the same. *)
Lemma nonfinite_box : forall x c d : b64, is_finite d = true -> 0 <= B2R d -> is_finite x = false ->
  Bplus mode_NE (Bmult mode_NE x d) c = x \/ Bplus mode_NE (Bmult mode_NE x d) c = B754_nan.
Proof.
  intros x c d Hd Pd Hx. destruct x as [s|s| |s m e B]; try discriminate.
  - destruct d as [t|t| |t n g C]; try discriminate; [right; reflexivity|].
    assert (t = false). { destruct t; [|reflexivity]. exfalso. unfold B2R in Pd. apply (Rle_not_lt _ _ Pd). apply F2R_lt_0. reflexivity. }
    subst t. cbn [Bmult]. rewrite xorb_false_r. destruct c as [t|t| |t n' g' C']; cbn [Bplus]; try (left; reflexivity); [|right; reflexivity].
    destruct (Bool.eqb s t); [left|right]; reflexivity.
  - right. reflexivity.
Qed.
Lemma settle : forall (T : nat -> b64) (d c : b64) N p, is_finite d = true -> 0 <= B2R d ->
  (forall n, T (S n) = Bplus mode_NE (Bmult mode_NE (T n) d) c) -> is_finite (T O) = true ->
  (0 < p)%nat -> (forall i, (N <= i)%nat -> T (i + p)%nat = T i) ->
  forall i j, (N <= i)%nat -> (i <= j)%nat -> same (T i) (T j).
Proof.
  intros T d c N p Hd Pd HS H0 Hp HR.
  assert (NF : forall n, is_finite (T n) = false -> T (S n) = T n \/ T (S n) = B754_nan).
  { intros n Hn. rewrite HS. now apply nonfinite_box. }
  assert (NN : forall n t, T n = B754_nan -> T (n + t)%nat = B754_nan).
  { intros n t Hn. induction t as [|t IH]; [rewrite Nat.add_0_r; exact Hn|]. rewrite Nat.add_succ_r, HS, IH. reflexivity. }
  assert (FF : forall n t, is_finite (T (n + t)%nat) = true -> is_finite (T n) = true).
  { intros n t. induction t as [|t IH]; [rewrite Nat.add_0_r; auto|]. rewrite Nat.add_succ_r. intros H. apply IH.
    apply not_false_is_true. intros K. destruct (NF _ K) as [Q|Q]; rewrite Q in H; [congruence|discriminate]. }
  assert (MO : (forall n, is_finite (T (S n)) = true -> B2R (T n) <= B2R (T (S n))) \/ (forall n, is_finite (T (S n)) = true -> B2R (T (S n)) <= B2R (T n))).
  { assert (ST : forall n, is_finite (T (S (S n))) = true -> is_finite (T (S n)) = true /\
      (B2R (T n) <= B2R (T (S n)) -> B2R (T (S n)) <= B2R (T (S (S n)))) /\ (B2R (T (S n)) <= B2R (T n) -> B2R (T (S (S n))) <= B2R (T (S n)))).
    { intros n H. assert (H1 : is_finite (T (S n)) = true) by (apply (FF (S n) 1%nat); rewrite Nat.add_1_r; exact H). split; [exact H1|].
      assert (K2 := H). assert (K1 := H1). rewrite HS in K1, K2. destruct (plus_value _ _ K1) as (A1 & A2 & _). destruct (plus_value _ _ K2) as (B1 & B2 & _).
      split; intros L; rewrite (HS (S n)).
      - rewrite (HS n) at 1. apply plus_le; [exact K1|exact K2| |apply Rle_refl]. apply mult_le; assumption.
      - rewrite (HS n) at 2. apply plus_le; [exact K2|exact K1| |apply Rle_refl]. apply mult_le; assumption. }
    destruct (Rle_or_lt (B2R (T 0%nat)) (B2R (T 1%nat))) as [D|D]; [left|right]; induction n as [|n IH]; intros H.
    - exact D.
    - destruct (ST n H) as (H1 & U & _). apply U, IH, H1.
    - left. exact D.
    - destruct (ST n H) as (H1 & _ & U). apply U, IH, H1. }
  assert (ONE : forall i, (N <= i)%nat -> same (T i) (T (S i))).
  { intros i Hi. specialize (HR i Hi). destruct (is_finite (T i)) eqn:Fi.
    - assert (Fp : forall t, (t <= p)%nat -> is_finite (T (i + t)%nat) = true).
      { intros t Ht. apply (FF _ (p - t)%nat). replace (i + t + (p - t))%nat with (i + p)%nat by lia. rewrite HR. exact Fi. }
      assert (F1 : is_finite (T (S i)) = true) by (specialize (Fp 1%nat ltac:(lia)); rewrite Nat.add_1_r in Fp; exact Fp).
      assert (G1 : is_finite (T i) = true) by exact Fi.
      apply same_val; [exact G1|exact F1|].
      destruct MO as [MO|MO].
      + assert (CH : forall t, (S t <= p)%nat -> B2R (T (S i)) <= B2R (T (i + S t)%nat)).
        { induction t as [|t IH]; intros Ht; [rewrite Nat.add_1_r; apply Rle_refl|]. eapply Rle_trans; [apply IH; lia|].
          rewrite (Nat.add_succ_r i (S t)). apply MO. specialize (Fp (S (S t)) Ht). rewrite Nat.add_succ_r in Fp. exact Fp. }
        specialize (CH (p - 1)%nat ltac:(lia)). replace (S (p - 1)) with p in CH by lia. rewrite HR in CH. pose proof (MO i F1). lra.
      + assert (CH : forall t, (S t <= p)%nat -> B2R (T (i + S t)%nat) <= B2R (T (S i))).
        { induction t as [|t IH]; intros Ht; [rewrite Nat.add_1_r; apply Rle_refl|]. eapply Rle_trans; [|apply IH; lia].
          rewrite (Nat.add_succ_r i (S t)). apply MO. specialize (Fp (S (S t)) Ht). rewrite Nat.add_succ_r in Fp. exact Fp. }
        specialize (CH (p - 1)%nat ltac:(lia)). replace (S (p - 1)) with p in CH by lia. rewrite HR in CH. pose proof (MO i F1). lra.
    - destruct (NF i Fi) as [Q|Q]; [left; symmetry; exact Q|]. pose proof (NN (S i) (p - 1)%nat Q) as Q2.
      replace (S i + (p - 1))%nat with (i + p)%nat in Q2 by lia. left. rewrite Q, <- HR, Q2. reflexivity. }
  intros i j Hi Hij. replace j with (i + (j - i))%nat by lia. generalize (j - i)%nat as t. clear j Hij.
  induction t as [|t IH]; [rewrite Nat.add_0_r; apply same_refl|]. rewrite Nat.add_succ_r. eapply same_trans; [exact IH|]. apply ONE. lia.
Qed.

Theorem c64_impulse_response_settles : forall bexp nd sd rf parse s q1 d1 q2 d2 dt x u,
  unit_exp bexp -> ir_reachable (fenv bexp nd sd rf) parse s -> ir_numbers bexp nd sd rf s q1 d1 q2 d2 dt ->
  0 <= dt -> 0 < d1 -> 0 < d2 ->
  exists N, (Z.of_nat N <= 2 ^ 130)%Z /\
    forall n T1 T2 T R, ir_gives bexp nd sd rf s (first bexp nd sd rf n (fun _ => x) u) T1 T2 T R ->
      forall X, In X [T1; T2; T; R] -> forall i j (y z : b64), (N <= i)%nat -> (i <= j)%nat ->
        nth_error X i = Some (y : num (fenv bexp nd sd rf)) -> nth_error X j = Some (z : num (fenv bexp nd sd rf)) -> same y z.
Proof.
  intros bexp nd sd rf parse s q1 d1 q2 d2 dt x u Hx Hr (N1 & N2 & N3 & N4 & N5) P0 P1 P2.
  destruct (ir_reachable_coherent (fenv bexp nd sd rf) parse s Hr).
  destruct (reads_to _ _ _ _ _ _ _ _ N2 ic_d1) as [A2 B2]. destruct (reads_to _ _ _ _ _ _ _ _ N4 ic_d2) as [A4 B4].
  destruct (reads_to _ _ _ _ _ _ _ _ N5 ic_delta_t) as [A5 B5].
  destruct (factor bexp nd sd rf _ _ Hx A5 A2 ltac:(rewrite B5; exact P0) ltac:(rewrite B2; exact P1)) as (G1 & X1 & _).
  destruct (factor bexp nd sd rf _ _ Hx A5 A4 ltac:(rewrite B5; exact P0) ltac:(rewrite B4; exact P2)) as (G2 & X2 & _).
  pose (F := fun _ : nat => conv1 rf u x).
  destruct (recur (fun (x : b64) (p : b64 * b64) => (box (fenv bexp nd sd rf) (ir_delta_t_mag _ s) (ir_q1_mag _ s) (ir_d1_mag _ s) (fst p) x,
      box (fenv bexp nd sd rf) (ir_delta_t_mag _ s) (ir_q2_mag _ s) (ir_d2_mag _ s) (snd p) x))
    (nQ (fenv bexp nd sd rf) 0, nQ (fenv bexp nd sd rf) 0) (fun n => (iT1 (fenv bexp nd sd rf) s F n, iT2 (fenv bexp nd sd rf) s F n)) F 1
    ltac:(lia) ltac:(intros i; reflexivity) eq_refl (fun n => eq_refl)) as (N & k & Hk & HN & HR).
  assert (R1 : forall i, (N <= i)%nat -> iT1 (fenv bexp nd sd rf) s F (i + k * 1)%nat = iT1 (fenv bexp nd sd rf) s F i) by (intros i Hi; exact (f_equal fst (HR i Hi))).
  assert (R2 : forall i, (N <= i)%nat -> iT2 (fenv bexp nd sd rf) s F (i + k * 1)%nat = iT2 (fenv bexp nd sd rf) s F i) by (intros i Hi; exact (f_equal snd (HR i Hi))).
  assert (S1 := settle (iT1 (fenv bexp nd sd rf) s F) _ _ N (k * 1) G1 X1 (fun n => eq_refl) eq_refl ltac:(lia) R1).
  assert (S2 := settle (iT2 (fenv bexp nd sd rf) s F) _ _ N (k * 1) G2 X2 (fun n => eq_refl) eq_refl ltac:(lia) R2).
  exists (S N). split; [lia|].
  intros n T1 T2 T R Hg. apply ir_gives_iff in Hg as (mm & hp & Hmm & _ & _ & -> & -> & -> & ->). destruct (first_mags bexp nd sd rf n _ u mm Hmm) as (Ln & At).
  rewrite Ln.
  assert (Y1 : forall i, (i < n)%nat -> iT1 (fenv bexp nd sd rf) s (iat (fenv bexp nd sd rf) mm) i = iT1 (fenv bexp nd sd rf) s F i).
  { intros i Hi. apply irT_ext. intros t Ht. apply At. lia. }
  assert (Y2 : forall i, (i < n)%nat -> iT2 (fenv bexp nd sd rf) s (iat (fenv bexp nd sd rf) mm) i = iT2 (fenv bexp nd sd rf) s F i).
  { intros i Hi. apply irT_ext. intros t Ht. apply At. lia. }
  intros X HX i j y z Hi Hj Hy Hz. destruct HX as [<-|[<-|[<-|[<-|[]]]]]; apply nth_map_seq in Hy as [Li ->]; apply nth_map_seq in Hz as [Lj ->].
  - rewrite !Y1 by lia. apply S1; lia.
  - rewrite !Y2 by lia. apply S2; lia.
  - rewrite !Y1, !Y2 by lia. apply same_plus; [apply S1|apply S2]; lia.
  - destruct i as [|i]; [lia|]. destruct j as [|j]; [lia|]. unfold iR. cbn [irR]. rewrite !Y1, !Y2 by lia.
    apply heat_same; [apply S1; lia|apply S2; lia|]. left. unfold iat. rewrite !At by lia. reflexivity.
Qed.

(** ** Cases: an alternating and a constant forcing, runs of every length *)
Lemma first_reads : forall bexp n (f : nat -> b64) F, (forall i, is_finite (f i) = true /\ B2R (f i) = F i) ->
  reads_series bexp 4 demo_dim frf (first bexp 4 demo_dim frf n f u_Wm2) F.
Proof.
  intros bexp n f F Hf. split.
  - intros x Hx. cbn [first mags] in Hx. apply in_map_iff in Hx as (i & <- & _). destruct (Hf i) as (H & _). cbn. destruct (f i); [reflexivity|discriminate|discriminate|reflexivity].
  - exists (map f (seq 0 n)). split; [reflexivity|]. intros i z Hz. rewrite nth_error_map in Hz.
    destruct (nth_error (seq 0 n) i) as [t|] eqn:Ht; [|discriminate]. injection Hz as <-.
    assert (t = i). { pose proof (nth_error_nth _ _ O Ht) as A. assert (i < n)%nat by (rewrite <- (seq_length n 0); apply nth_error_Some; congruence). rewrite seq_nth in A by assumption. lia. }
    subst t. apply Hf.
Qed.
Definition swing (i : nat) : b64 := if Nat.even i then b64_of_Q 4 else b64_of_Q (-4).
Example c64_two_layer_case : forall bexp parse, exists s, tl_reachable (fenv bexp 4 demo_dim frf) parse s /\ repeats 2 swing /\ swing 1%nat <> swing 0%nat /\
  forall n, exists U L R, tl_gives bexp 4 demo_dim frf s (first bexp 4 demo_dim frf n swing u_Wm2) U L R /\ List.length U = n.
Proof.
  intros bexp parse. destruct (c44_two_layer_case bexp parse) as (s & H1 & _). exists s. split; [exact H1|]. split.
  { intros i. unfold swing. rewrite Nat.even_add. cbn [Nat.even]. destruct (Nat.even i); reflexivity. }
  split; [intros H; apply (f_equal (fun x : b64 => Bsign x)) in H; vm_compute in H; discriminate|].
  intros n. assert (V : forall i, is_finite (swing i) = true /\ B2R (swing i) = if Nat.even i then 4 else -4).
  { intros i. unfold swing. destruct (Nat.even i); (split; [vm_compute; reflexivity|fval]). }
  destruct (tl_gives_ex bexp 4 demo_dim frf s _ _ (first_reads bexp n swing _ V)) as (U & L & R & Hg). exists U, L, R. split; [exact Hg|].
  destruct Hg as (_ & _ & _ & LU & _). rewrite LU. unfold first. cbn [mags]. rewrite map_length, seq_length. reflexivity.
Qed.
Example c64_impulse_response_case : forall parse, exists s,
  unit_exp floor_exp /\ ir_reachable (fenv floor_exp 4 demo_dim frf) parse s /\ ir_numbers floor_exp 4 demo_dim frf s (1/4) 8 (1/2) 256 1 /\
  forall n, exists T1 T2 T R, ir_gives floor_exp 4 demo_dim frf s (first floor_exp 4 demo_dim frf n (fun _ => b64_of_Q 4) u_Wm2) T1 T2 T R /\
    List.length T1 = n.
Proof.
  intros parse. destruct (c56_impulse_response_case parse) as (s & T1 & T2 & T & N & _ & _ & _ & _ & _ & _ & _ & _ & H1 & H2 & H3 & _ & _ & _ & _ & _ & _ & Hg & _).
  exists s. split; [exact H1|]. split; [exact H2|]. split; [exact H3|]. intros n.
  apply ir_gives_iff in Hg as (m & hp & Hm & _ & Hs & _).
  destruct Hs as [Hs|Hs]; [exfalso; pose proof (to_mags_length _ _ _ _ Hm) as Lm; rewrite Lm in Hs; cbn in Hs; lia|].
  eexists _, _, _, _. split; [apply ir_gives_iff; exists (map (fun _ => b64_of_Q 4) (seq 0 n)), hp; repeat split; [|right; exact Hs]|].
  - exact (match first_reads floor_exp n (fun _ => b64_of_Q 4) (fun _ => 4) ltac:(intros i; split; [vm_compute; reflexivity|fval]) with conj H _ =>
      proj1 (nan_free_existsb _ _) H end).
  - rewrite !map_length, !seq_length. reflexivity.
Qed.
