(** There are finitely many doubles, so runs driven by a repeating forcing
    repeat themselves. *)
From Coq Require Import List String ZArith QArith Reals Lra Lia Bool Arith Classical.
From Flocq Require Import Core IEEE754.BinarySingleNaN.
From Verif Require Import Arith Pint Base TwoLayer Impulse Scm Api Spec GenTL GenIR Float SpecRound SpecExact FloatSym FloatExact SpecRepeat.
Import ListNotations.

(** ** Counting doubles *)
Definition code (x : b64) : Z :=
  match x with
  | B754_zero s => if s then 0 else 1
  | B754_infinity s => if s then 2 else 3
  | B754_nan => 4
  | B754_finite s m e _ => 5 + (if s then 0 else 1) + 2 * (Zpos m + 2 ^ 53 * (e + 1074))
  end.
Lemma finite_range m e (B : SpecFloat.bounded 53 1024 m e = true) : (0 < Zpos m < 2 ^ 53 /\ 0 <= e + 1074 <= 2045)%Z.
Proof.
  unfold SpecFloat.bounded in B. apply andb_true_iff in B as [C B]. apply Z.leb_le in B.
  unfold SpecFloat.canonical_mantissa in C. apply Zeq_bool_eq in C. rewrite Digits.Zpos_digits2_pos in C.
  pose proof (Digits.Zdigits_correct radix2 (Zpos m)) as D. unfold SpecFloat.fexp, SpecFloat.emin in C.
  assert (G : (Digits.Zdigits radix2 (Zpos m) <= 53)%Z) by lia.
  assert (P : (radix2 ^ Digits.Zdigits radix2 (Zpos m) <= radix2 ^ 53)%Z) by (apply Z.pow_le_mono_r; [reflexivity|exact G]).
  change (radix2 ^ 53)%Z with (2 ^ 53)%Z in P. change (Z.abs (Zpos m)) with (Zpos m) in D. lia.
Qed.
Lemma code_range x : (0 <= code x < 2 ^ 65)%Z.
Proof.
  destruct x as [s|s| |s m e B]; cbn [code]; [destruct s; lia|destruct s; lia|lia|].
  pose proof (finite_range m e B). destruct s; lia.
Qed.
Lemma code_inj x y : code x = code y -> x = y.
Proof.
  intros H. destruct x as [s|s| |s m e B], y as [t|t| |t n g C]; cbn [code] in H;
    try (pose proof (finite_range m e B)); try (pose proof (finite_range n g C));
    try reflexivity; try (exfalso; destruct s, t; lia); try (exfalso; destruct s; lia); try (exfalso; destruct t; lia);
    try (destruct s, t; first [reflexivity|exfalso; lia]).
  assert (Hs : s = t) by (destruct s, t; lia). subst t.
  assert (He : e = g) by (destruct s; nia). subst g. assert (Hm : Zpos m = Zpos n) by (destruct s; lia). injection Hm as ->.
  f_equal. apply eqbool_irrelevance.
Qed.
Definition code2 (p : b64 * b64) : Z := code (fst p) + 2 ^ 65 * code (snd p).
Lemma code2_range p : (0 <= code2 p < 2 ^ 130)%Z.
Proof. unfold code2. pose proof (code_range (fst p)). pose proof (code_range (snd p)). lia. Qed.
Lemma code2_inj p q : code2 p = code2 q -> p = q.
Proof.
  unfold code2. intros H. pose proof (code_range (fst p)). pose proof (code_range (snd p)). pose proof (code_range (fst q)). pose proof (code_range (snd q)).
  assert (code (snd p) = code (snd q)) by lia. assert (code (fst p) = code (fst q)) by lia.
  destruct p, q. cbn [fst snd] in *. f_equal; apply code_inj; assumption.
Qed.

Lemma pigeon (c : nat -> nat) K : (forall n, c n < K)%nat -> exists i j, (i < j <= K)%nat /\ c i = c j.
Proof.
  intros H. apply NNPP. intros N.
  assert (I : forall i j, (i <= K)%nat -> (j <= K)%nat -> c i = c j -> i = j).
  { intros i j Hi Hj Hc. destruct (Nat.lt_total i j) as [L|[L|L]]; [|exact L|]; exfalso; apply N; [exists i, j|exists j, i]; split; auto. }
  assert (D : NoDup (map c (seq 0 (S K)))).
  { assert (A : forall l, incl l (seq 0 (S K)) -> NoDup l -> NoDup (map c l)).
    { induction l as [|x l IH]; intros Hl Hn; [constructor|]. inversion_clear Hn. cbn [map]. constructor; [|apply IH; [|assumption]].
      - intros Hx. apply in_map_iff in Hx as (y & Hy & Hin). apply I in Hy; [subst; contradiction| |].
        + specialize (Hl y (or_intror Hin)). apply in_seq in Hl. lia.
        + specialize (Hl x (or_introl eq_refl)). apply in_seq in Hl. lia.
      - intros z Hz. apply Hl. right. exact Hz. }
    apply A; [apply incl_refl|apply seq_NoDup]. }
  assert (L : (List.length (map c (seq 0 (S K))) <= List.length (seq 0 K))%nat).
  { apply NoDup_incl_length; [exact D|]. intros z Hz. apply in_map_iff in Hz as (y & <- & _). apply in_seq. specialize (H y). lia. }
  rewrite map_length, !seq_length in L. lia.
Qed.

(** ** Repetition *)
Lemma repeats_mult m (f : nat -> b64) : repeats m f -> forall k i, f (i + k * m)%nat = f i.
Proof. intros H. induction k as [|k IH]; intros i; [f_equal; lia|]. replace (i + S k * m)%nat with (i + k * m + m)%nat by lia. rewrite H. apply IH. Qed.

Lemma recur (g : b64 -> b64 * b64 -> b64 * b64) x0 (x : nat -> b64 * b64) f m :
  (0 < m)%nat -> repeats m f -> x O = x0 -> (forall n, x (S n) = g (f n) (x n)) ->
  exists N k, (0 < k)%nat /\ (Z.of_nat (N + k * m) <= 2 ^ 130 * Z.of_nat m)%Z /\ forall i, (N <= i)%nat -> x (i + k * m)%nat = x i.
Proof.
  intros Hm Hf H0 HS. pose (K := Z.to_nat (2 ^ 130)).
  assert (HK : Z.of_nat K = (2 ^ 130)%Z) by (apply Z2Nat.id; discriminate).
  destruct (pigeon (fun n => Z.to_nat (code2 (x (n * m)%nat))) K) as (i & j & Hij & E).
  { intros n. pose proof (code2_range (x (n * m)%nat)). apply Nat2Z.inj_lt. rewrite HK, Z2Nat.id; lia. }
  assert (E2 : x (i * m)%nat = x (j * m)%nat).
  { apply code2_inj. pose proof (code2_range (x (i * m)%nat)). pose proof (code2_range (x (j * m)%nat)). apply Z2Nat.inj; [lia|lia|exact E]. }
  exists (i * m)%nat, (j - i)%nat. split; [lia|]. split.
  - clear -Hij HK Hm. clearbody K. nia.
  - intros n Hn. replace n with (i * m + (n - i * m))%nat by lia. generalize (n - i * m)%nat as t. clear n Hn.
    induction t as [|t IH].
    + replace (i * m + 0 + (j - i) * m)%nat with (j * m)%nat by nia. rewrite Nat.add_0_r. symmetry. exact E2.
    + replace (i * m + S t + (j - i) * m)%nat with (S (i * m + t + (j - i) * m))%nat by lia.
      replace (i * m + S t)%nat with (S (i * m + t))%nat by lia. rewrite !HS, IH, (repeats_mult m f Hf). reflexivity.
Qed.

Section Run.
Variable bexp : b64 -> b64.
Variable nd : nat.
Variable sd : string -> nat -> Q.
Variable rf : Units -> b64.
Notation E := (fenv bexp nd sd rf).

(** The forcing in W/m^2. *)
Definition conv1 (u : Units) (x : b64) : b64 := if units_eqb u u_Wm2 then x else Bmult mode_NE x (rf (udiv u u_Wm2)).
Lemma first_mags n f u (m : list (num E)) : to_mags E (first bexp nd sd rf n f u) u_Wm2 = Ok m ->
  List.length m = n /\ forall i, (i < n)%nat -> nth i m (nnan E) = conv1 u (f i).
Proof.
  unfold to_mags, first. cbn [mags aunits]. destruct (dim_eqb E u u_Wm2); [|discriminate]. unfold conv1. intros H.
  destruct (units_eqb u u_Wm2); injection H as <-.
  - split; [rewrite map_length, seq_length; reflexivity|]. intros i Hi.
    rewrite (nth_indep _ _ (f 0%nat)) by (rewrite map_length, seq_length; exact Hi). rewrite map_nth, seq_nth by exact Hi. reflexivity.
  - rewrite map_map. split; [rewrite map_length, seq_length; reflexivity|]. intros i Hi.
    match goal with |- nth i (map ?h _) _ = _ => rewrite (nth_indep _ _ (h 0%nat)) by (rewrite map_length, seq_length; exact Hi); rewrite (map_nth h), seq_nth by exact Hi end.
    reflexivity.
Qed.
Lemma conv1_repeats m f u : repeats m f -> repeats m (fun i => conv1 u (f i)).
Proof. intros H i. rewrite H. reflexivity. Qed.

Section TLR.
Variable s : TL E.
Lemma traj_ext F G n : (forall i, (i < n)%nat -> F i = G i) -> traj E s F n = traj E s G n.
Proof.
  induction n as [|n IH]; intros H; [reflexivity|]. cbn [traj]. rewrite IH by (intros; apply H; lia). rewrite H by lia. reflexivity.
Qed.
End TLR.
Section IRR.
Variable s : IR E.
Lemma irT_ext dt q d F G n : (forall i, (i < n)%nat -> F i = G i) -> irT E dt q d F n = irT E dt q d G n.
Proof.
  induction n as [|n IH]; intros H; [reflexivity|]. cbn [irT]. rewrite IH by (intros; apply H; lia). rewrite H by lia. reflexivity.
Qed.
End IRR.
End Run.
