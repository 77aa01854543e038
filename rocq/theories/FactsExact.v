(** Property C56: facts of runs in IEEE binary64 that hold without rounding error. *)
From Coq Require Import List String QArith Reals Bool Arith Lra Lia.
From Flocq Require Import Core IEEE754.BinarySingleNaN.
From Verif Require Import Arith Pint Base TwoLayer Impulse Scm Api Spec Demo Float SpecRound SpecExact FloatTL FloatRun FloatBox FloatSym FloatExact
  GenTL GenTLHist GenIR GenIRHist FactsRun FactsFloat.
Import ListNotations.
Local Open Scope R_scope.

Lemma F2_length {A B} (P : A -> B -> Prop) l l' : Forall2 P l l' -> List.length l = List.length l'.
Proof. induction 1; cbn; congruence. Qed.

Section Glue.
Variable bexp : b64 -> b64.
Variable nd : nat.
Variable sd : string -> nat -> Q.
Variable rf : Units -> b64.
Notation E := (fenv bexp nd sd rf).

Lemma opp_series : forall (f g : nat -> num E) n n', n = n' -> (forall i, opp (f i) (g i)) ->
  same_series bexp nd sd rf (map g (seq 0 n')) (opposite bexp nd sd rf (map f (seq 0 n))).
Proof.
  intros f g n n' <- H. unfold same_series, opposite. rewrite map_map.
  apply (Forall2_map_seq same (fun i => g i : b64) (fun i => Bopp (f i : b64) : b64)). intros i _. apply H.
Qed.
Lemma delay_series : forall (f g : nat -> num E) k n, (forall i, (i < k)%nat -> is_zero (g i : b64)) ->
  (forall i, same (f i) (g (k + i)%nat)) ->
  same_series bexp nd sd rf (map g (seq 0 (k + n))) (zeros bexp nd sd rf k ++ map f (seq 0 n)).
Proof.
  intros f g k n Hz H. unfold same_series. rewrite (map_seq_split bexp nd sd rf). apply Forall2_app.
  - unfold zeros. apply Forall2_nth; [rewrite map_length, seq_length, repeat_length; reflexivity|].
    intros i x y Hx Hy. assert (Hi : (i < k)%nat).
    { rewrite <- (repeat_length (B754_zero false : b64) k). apply nth_error_Some. intros K.
      pose proof (eq_trans (eq_sym K) Hy). discriminate. }
    rewrite nth_error_repeat in Hy by exact Hi. injection Hy as <-.
    rewrite nth_error_map, nth_error_nth' with (d := O) in Hx by (rewrite seq_length; lia).
    rewrite seq_nth in Hx by lia. injection Hx as <-. right. split; [now apply Hz|eexists; reflexivity].
  - apply (Forall2_map_seq same (fun i => g (k + i)%nat : b64) (fun i => f i : b64)). intros i _. apply same_sym, H.
Qed.
Lemma nth_map_seq : forall (f : nat -> num E) n i x, nth_error (map f (seq 0 n)) i = Some x -> (i < n)%nat /\ x = f i.
Proof.
  intros f n i x H. assert (Hi : (i < n)%nat).
  { assert (K : (i < List.length (map f (seq 0 n)))%nat) by (apply nth_error_Some; congruence).
    rewrite map_length, seq_length in K. exact K. }
  split; [exact Hi|]. rewrite nth_error_map, nth_error_nth' with (d := O) in H by (rewrite seq_length; lia).
  rewrite seq_nth in H by lia. now injection H.
Qed.
Lemma reads_at_i : forall e F m i, reads_series bexp nd sd rf e F -> to_mags E e u_Wm2 = Ok m -> (i < List.length m)%nat ->
  is_finite (iat E m i : b64) = true /\ B2R (iat E m i : b64) = F i.
Proof.
  intros e F m i (_ & l & Hl & HF) Hm Hi. rewrite Hl in Hm. injection Hm as <-. apply HF. unfold iat. now apply nth_error_nth'.
Qed.
Lemma delayed_rest : forall k e F m, reads_series bexp nd sd rf (delayed bexp nd sd rf k e) F -> to_mags E e u_Wm2 = Ok m ->
  exists z, to_mags E (delayed bexp nd sd rf k e) u_Wm2 = Ok (repeat z k ++ m) /\
    (forall i, (i < k)%nat -> is_zero (iat E (repeat z k ++ m) i : b64)) /\
    (forall i, iat E (repeat z k ++ m) (k + i) = iat E m i) /\ List.length (repeat z k ++ m) = (k + List.length m)%nat.
Proof.
  intros k e F m He Hm. destruct (delayed_mags bexp nd sd rf k e _ m Hm) as (z & Hz). exists z. split; [exact Hz|].
  assert (Ln : List.length (repeat z k ++ m) = (k + List.length m)%nat) by (rewrite app_length, repeat_length; reflexivity).
  split; [|split; [|exact Ln]].
  - intros i Hi. destruct (reads_at_i _ _ _ i He Hz ltac:(lia)) as [Fi _].
    rewrite (iat_lt bexp nd sd rf) in * by exact Hi. apply (delayed_zero bexp nd sd rf k e u_Wm2 m z Hz); [lia|exact Fi].
  - intros i. apply iat_app.
Qed.
(** The decay factor and its complement are numbers between 0 and 1. *)
Lemma factor : forall dt d : b64, unit_exp bexp -> is_finite dt = true -> is_finite d = true -> 0 <= B2R dt -> 0 < B2R d ->
  let x := bexp (Bopp dt [/] d) in
  is_finite x = true /\ 0 <= B2R x /\ is_finite ((nQ E 1 : b64) [-] x) = true /\ 0 <= B2R ((nQ E 1 : b64) [-] x).
Proof.
  intros dt d Hx Ft Fd Ht Hd x. destruct (Hx _ (decay_arg dt d Ft Fd Ht Hd)) as (A & B & C). fold x in A, B, C.
  split; [exact A|]. split; [exact B|].
  assert (O1 : is_finite (nQ E 1 : b64) = true) by (vm_compute; reflexivity).
  assert (O2 : B2R (nQ E 1 : b64) = 1) by fval.
  apply minus_pos; [exact O1|exact A|lra|lra].
Qed.
End Glue.

(** Without state-dependent feedback ([a = 0]) the opposite forcing gives the opposite outputs. *)
Theorem c56_two_layer_sign : forall bexp nd sd rf parse s e,
  let E := fenv bexp nd sd rf in
  tl_reachable E parse s -> reads bexp nd sd rf (tl_a E s) u_Wm2C2 0 ->
  snd (tl_drive E (negated bexp nd sd rf e) s) = snd (tl_drive E e s) /\
  forall U L N, tl_gives bexp nd sd rf s e U L N ->
  exists U' L' N', tl_gives bexp nd sd rf s (negated bexp nd sd rf e) U' L' N' /\
    same_series bexp nd sd rf U' (opposite bexp nd sd rf U) /\ same_series bexp nd sd rf L' (opposite bexp nd sd rf L) /\
    same_series bexp nd sd rf N' (opposite bexp nd sd rf N).
Proof.
  intros bexp nd sd rf parse s e E Hr Ha.
  assert (Za : is_zero (tl_a_mag E s : b64)).
  { destruct (tl_reachable_coherent E parse s Hr). destruct (reads_to _ _ _ _ _ _ _ _ Ha tc_a) as [A B]. now apply zero_B2R. }
  split.
  - destruct (same_dim_dec E (aunits e) u_Wm2) as [H|H].
    2:{ rewrite (drive_unit E s e) by assumption. rewrite (drive_unit E s (negated bexp nd sd rf e)) by assumption. reflexivity. }
    apply to_mags_ok_iff in H as [m Hm]. destruct (negated_mags bexp nd sd rf e _ m Hm) as (m' & Hm' & _).
    pose proof (negated_nan bexp nd sd rf e) as Hn. fold E in Hn.
    destruct (existsb (nisnan E) (mags e)) eqn:He; pose proof (eq_trans Hn He) as Hn'.
    + rewrite (drive_nan E s e m Hm He), (drive_nan E s _ m' Hm' Hn'). reflexivity.
    + rewrite (drive_ok E s e m Hm He), (drive_ok E s _ m' Hm' Hn'). reflexivity.
  - intros U L N Hg. apply tl_gives_iff in Hg as (m & Hm & Hn & -> & -> & ->).
    destruct (negated_mags bexp nd sd rf e _ m Hm) as (m' & Hm' & Ho).
    eexists _, _, _. split; [apply tl_gives_iff; exists m'; rewrite negated_nan; repeat split; try reflexivity; assumption|].
    assert (Ln : List.length m = List.length m') by exact (F2_length _ _ _ Ho).
    pose proof (f2_at_tl bexp nd sd rf Ho) as HF.
    split; [|split]; apply opp_series; try exact Ln; intros i.
    + exact (proj1 (traj_opp bexp nd sd rf s _ _ Za HF i)).
    + exact (proj2 (traj_opp bexp nd sd rf s _ _ Za HF i)).
    + exact (trajR_opp bexp nd sd rf s _ _ Za HF i).
Qed.

(** The impulse-response model: for all parameters, including runs that fail. *)
Theorem c56_impulse_response_sign : forall bexp nd sd rf s e,
  let E := fenv bexp nd sd rf in
  snd (ir_drive E (negated bexp nd sd rf e) s) = snd (ir_drive E e s) /\
  forall T1 T2 T N, ir_gives bexp nd sd rf s e T1 T2 T N ->
  exists T1' T2' T' N', ir_gives bexp nd sd rf s (negated bexp nd sd rf e) T1' T2' T' N' /\
    same_series bexp nd sd rf T1' (opposite bexp nd sd rf T1) /\ same_series bexp nd sd rf T2' (opposite bexp nd sd rf T2) /\
    same_series bexp nd sd rf T' (opposite bexp nd sd rf T) /\ same_series bexp nd sd rf N' (opposite bexp nd sd rf N).
Proof.
  intros bexp nd sd rf s e E. split.
  - destruct (same_dim_dec E (aunits e) u_Wm2) as [H|H].
    2:{ rewrite (idrive_unit E s e) by assumption. rewrite (idrive_unit E s (negated bexp nd sd rf e)) by assumption. reflexivity. }
    apply to_mags_ok_iff in H as [m Hm]. destruct (negated_mags bexp nd sd rf e _ m Hm) as (m' & Hm' & Ho).
    pose proof (F2_length _ _ _ Ho) as Ln.
    pose proof (negated_nan bexp nd sd rf e) as Hn. fold E in Hn.
    destruct (existsb (nisnan E) (mags e)) eqn:He; pose proof (eq_trans Hn He) as Hn'.
    { rewrite (idrive_nan E s e m Hm He), (idrive_nan E s _ m' Hm' Hn'). reflexivity. }
    destruct (le_lt_dec (List.length m) 1) as [Hl|Hl].
    { set (hp := (nnan E, @None (num E * num E * num E))).
      rewrite (idrive_ok E s e m hp Hm He) by auto.
      rewrite (idrive_ok E s _ m' hp Hm' Hn'); [reflexivity|]. left. unfold E in *. cbn in *. lia. }
    destruct (step_status E s) as [hp|x] eqn:Hst.
    + rewrite (idrive_ok E s e m hp Hm He) by auto. rewrite (idrive_ok E s _ m' hp Hm' Hn') by auto. reflexivity.
    + rewrite (idrive_err E s e m x Hm He) by auto. rewrite (idrive_err E s _ m' x Hm' Hn'); auto. unfold E in *. cbn in *. lia.
  - intros T1 T2 T N Hg. apply ir_gives_iff in Hg as (m & hp & Hm & Hn & Hs & -> & -> & -> & ->).
    destruct (negated_mags bexp nd sd rf e _ m Hm) as (m' & Hm' & Ho).
    assert (Ln : List.length m = List.length m') by exact (F2_length _ _ _ Ho).
    eexists _, _, _, _. split.
    { apply ir_gives_iff. exists m', hp. rewrite negated_nan, <- Ln. repeat split; try reflexivity; assumption. }
    pose proof (f2_at bexp nd sd rf Ho) as HF.
    split; [|split; [|split]]; apply opp_series; try reflexivity; intros i.
    + now apply irT_opp.
    + now apply irT_opp.
    + apply o_plus; now apply irT_opp.
    + now apply iR_opp.
Qed.

(** Zeros in front of the forcing put as many zeros in front of the outputs and change nothing else. *)
Theorem c56_two_layer_leading_zeros : forall bexp nd sd rf parse s c k e F U L N,
  let E := fenv bexp nd sd rf in
  tl_reachable E parse s -> tl_numbers bexp nd sd rf s c -> moderate_tl c ->
  reads_series bexp nd sd rf (delayed bexp nd sd rf k e) F -> tl_gives bexp nd sd rf s e U L N ->
  exists U' L' N', tl_gives bexp nd sd rf s (delayed bexp nd sd rf k e) U' L' N' /\
    same_series bexp nd sd rf U' (zeros bexp nd sd rf k ++ U) /\ same_series bexp nd sd rf L' (zeros bexp nd sd rf k ++ L) /\
    (n_dt c <> 0 -> same_series bexp nd sd rf N' (zeros bexp nd sd rf k ++ N)).
Proof.
  intros bexp nd sd rf parse s c k e F U L N E Hr Hc Hm He Hg.
  destruct (tl_nums bexp nd sd rf parse s c Hr Hc) as (Ec & f1 & f2 & f3 & f4 & f5 & f6 & f7).
  apply tl_gives_iff in Hg as (m & Hmm & Hn & -> & -> & ->).
  destruct (delayed_rest bexp nd sd rf k e F m He Hmm) as (z & Hz & Zk & Zi & Ln).
  eexists _, _, _. split; [apply tl_gives_iff; exists (repeat z k ++ m); rewrite delayed_nan; repeat split; try reflexivity; assumption|].
  rewrite Ec in *. clear Ec. cbn [n_dt].
  destruct Hm as (M1 & M2 & M3 & M4 & M5 & M6 & M7 & M8 & M9). cbn [n_dt n_lambda0 n_a n_eps n_eta n_C n_CD] in *.
  assert (nz : forall x, moderate_divisor x -> x <> 0).
  { intros x H K. unfold moderate_divisor in H. rewrite K, Rabs_R0 in H. pose proof (half_pos 150). lra. }
  assert (f_ee : is_finite ((tl_efficacy_mag E s : b64) [*] (tl_eta_mag E s : b64)) = true).
  { pose proof (Bmult_correct 53 1024 _ _ mode_NE (tl_efficacy_mag E s : b64) (tl_eta_mag E s : b64)) as A. cbn [round_mode] in A.
    rewrite rnd_no_overflow in A; [destruct A as (_ & A & _); rewrite A; unfold E in *; rewrite f4, f5; reflexivity|].
    rewrite Rabs_mult. unfold moderate in M4, M5. eapply Rle_trans.
    - apply Rmult_le_compat; try apply Rabs_pos; [exact M4|exact M5].
    - unfold two, big. rewrite <- !mult_IZR. apply IZR_le. vm_compute. discriminate. }
  pose proof (traj_same bexp nd sd rf s f1 f2 f3 f_ee f5 f6 f7 (nz _ M8) (nz _ M9)
    (at_ E m) (at_ E (repeat z k ++ m)) k Zk (fun i => or_introl (eq_sym (Zi i)))) as TS.
  pose proof (rest bexp nd sd rf s f1 f2 f3 f_ee f5 f6 f7 (nz _ M8) (nz _ M9) (at_ E (repeat z k ++ m)) k Zk) as RS.
  rewrite Ln.
  split; [|split; [|intros Hd]]; apply delay_series.
  - intros i Hi. apply RS. lia.
  - intros i. apply TS.
  - intros i Hi. apply RS. lia.
  - intros i. apply TS.
  - intros i Hi. apply (trajR_same bexp nd sd rf s f1 f2 f3 f_ee f5 f6 f7 (nz _ M8) (nz _ M9)
      (at_ E m) (at_ E (repeat z k ++ m)) k Hd Zk (fun i => or_introl (eq_sym (Zi i)))). lia.
  - intros i. apply (trajR_same bexp nd sd rf s f1 f2 f3 f_ee f5 f6 f7 (nz _ M8) (nz _ M9)
      (at_ E m) (at_ E (repeat z k ++ m)) k Hd Zk (fun i => or_introl (eq_sym (Zi i)))).
Qed.

Theorem c56_impulse_response_leading_zeros : forall bexp nd sd rf parse s q1 d1 q2 d2 dt k e F T1 T2 T N T1' T2' T' N',
  let E := fenv bexp nd sd rf in
  unit_exp bexp -> ir_reachable E parse s -> ir_numbers bexp nd sd rf s q1 d1 q2 d2 dt -> 0 <= dt -> 0 < d1 -> 0 < d2 ->
  reads_series bexp nd sd rf (delayed bexp nd sd rf k e) F ->
  ir_gives bexp nd sd rf s e T1 T2 T N -> ir_gives bexp nd sd rf s (delayed bexp nd sd rf k e) T1' T2' T' N' ->
  same_series bexp nd sd rf T1' (zeros bexp nd sd rf k ++ T1) /\ same_series bexp nd sd rf T2' (zeros bexp nd sd rf k ++ T2) /\
  same_series bexp nd sd rf T' (zeros bexp nd sd rf k ++ T) /\
  (forall i (z : b64), (i <= k)%nat -> nth_error N' i = Some (z : num E) -> is_finite z = true -> is_zero z) /\
  (forall i (x : b64), nth_error N (S i) = Some (x : num E) ->
     exists y : b64, nth_error N' (k + S i) = Some (y : num E) /\ same x y).
Proof.
  intros bexp nd sd rf parse s q1 d1 q2 d2 dt k e F T1 T2 T N T1' T2' T' N' E Hx Hr (N1 & N2 & N3 & N4 & N5) P0 P1 P2 He Hg Hg'.
  destruct (ir_reachable_coherent E parse s Hr).
  destruct (reads_to _ _ _ _ _ _ _ _ N1 ic_q1) as [A1 B1]. destruct (reads_to _ _ _ _ _ _ _ _ N2 ic_d1) as [A2 B2].
  destruct (reads_to _ _ _ _ _ _ _ _ N3 ic_q2) as [A3 B3]. destruct (reads_to _ _ _ _ _ _ _ _ N4 ic_d2) as [A4 B4].
  destruct (reads_to _ _ _ _ _ _ _ _ N5 ic_delta_t) as [A5 B5].
  apply ir_gives_iff in Hg as (m & hp & Hmm & Hn & Hs & -> & -> & -> & ->).
  apply ir_gives_iff in Hg' as (m' & hp' & Hmm' & Hn' & Hs' & -> & -> & -> & ->).
  destruct (delayed_rest bexp nd sd rf k e F m He Hmm) as (z & Hz & Zk & Zi & Ln).
  assert (Em : m' = repeat z k ++ m) by congruence. subst m'. clear Hmm'.
  destruct (factor bexp nd sd rf _ _ Hx A5 A2 ltac:(rewrite B5; exact P0) ltac:(rewrite B2; exact P1)) as (X1 & _ & Y1 & _).
  destruct (factor bexp nd sd rf _ _ Hx A5 A4 ltac:(rewrite B5; exact P0) ltac:(rewrite B4; exact P2)) as (X2 & _ & Y2 & _).
  pose proof (irT_rest bexp nd sd rf _ _ _ _ k A1 X1 Y1 Zk) as R1.
  pose proof (irT_rest bexp nd sd rf _ _ _ _ k A3 X2 Y2 Zk) as R2.
  pose proof (irT_same bexp nd sd rf _ _ _ _ _ k A1 X1 Y1 Zk (fun i => or_introl (eq_sym (Zi i)))) as S1.
  pose proof (irT_same bexp nd sd rf _ _ _ _ _ k A3 X2 Y2 Zk (fun i => or_introl (eq_sym (Zi i)))) as S2.
  rewrite Ln in *.
  split; [|split; [|split; [|split]]].
  - apply delay_series; [|exact S1]. intros i Hi. apply R1. lia.
  - apply delay_series; [|exact S2]. intros i Hi. apply R2. lia.
  - apply delay_series.
    + intros i Hi. apply z_plus; [apply R1|apply R2]; lia.
    + intros i. apply same_plus; [apply S1|apply S2].
  - intros i w Hi Hw Fw. apply nth_map_seq in Hw as [_ ->]. apply zn_fin; [|exact Fw].
    destruct i as [|i]; [left; eexists; reflexivity|]. apply heat_rest; [apply R1|apply R2|apply Zk]; lia.
  - intros i x Hx'. apply nth_map_seq in Hx' as [Hi ->].
    exists (iR E s hp' (iat E (repeat z k ++ m)) (k + S i)). split.
    { rewrite nth_error_map, nth_error_nth' with (d := O) by (rewrite seq_length; lia). rewrite seq_nth by lia. reflexivity. }
    rewrite Nat.add_succ_r. unfold iR. cbn [irR].
    destruct Hs as [Hs|Hs]; [lia|]. destruct Hs' as [Hs'|Hs']; [lia|]. rewrite Hs in Hs'. injection Hs' as <-.
    apply heat_same; [apply S1|apply S2|left; symmetry; apply Zi].
Qed.

(** A forcing that is nowhere larger gives temperatures that are nowhere larger. *)
Theorem c56_impulse_response_order : forall bexp nd sd rf parse s q1 d1 q2 d2 dt e F e' F' T1 T2 T N T1' T2' T' N',
  let E := fenv bexp nd sd rf in
  unit_exp bexp -> ir_reachable E parse s -> ir_numbers bexp nd sd rf s q1 d1 q2 d2 dt -> 0 <= dt -> 0 < d1 -> 0 < d2 ->
  0 <= q1 -> 0 <= q2 ->
  reads_series bexp nd sd rf e F -> reads_series bexp nd sd rf e' F' ->
  (forall i, (i < List.length (mags e))%nat -> (i < List.length (mags e'))%nat -> F i <= F' i) ->
  ir_gives bexp nd sd rf s e T1 T2 T N -> ir_gives bexp nd sd rf s e' T1' T2' T' N' ->
  below bexp nd sd rf T1 T1' /\ below bexp nd sd rf T2 T2' /\ below bexp nd sd rf T T'.
Proof.
  intros bexp nd sd rf parse s q1 d1 q2 d2 dt e F e' F' T1 T2 T N T1' T2' T' N' E Hx Hr (N1 & N2 & N3 & N4 & N5) P0 P1 P2 Q1 Q2 He He' HF Hg Hg'.
  destruct (ir_reachable_coherent E parse s Hr).
  destruct (reads_to _ _ _ _ _ _ _ _ N1 ic_q1) as [A1 B1]. destruct (reads_to _ _ _ _ _ _ _ _ N2 ic_d1) as [A2 B2].
  destruct (reads_to _ _ _ _ _ _ _ _ N3 ic_q2) as [A3 B3]. destruct (reads_to _ _ _ _ _ _ _ _ N4 ic_d2) as [A4 B4].
  destruct (reads_to _ _ _ _ _ _ _ _ N5 ic_delta_t) as [A5 B5].
  apply ir_gives_iff in Hg as (m & hp & Hmm & Hn & Hs & -> & -> & -> & ->).
  apply ir_gives_iff in Hg' as (m' & hp' & Hmm' & Hn' & Hs' & -> & -> & -> & ->).
  destruct (factor bexp nd sd rf _ _ Hx A5 A2 ltac:(rewrite B5; exact P0) ltac:(rewrite B2; exact P1)) as (_ & X1 & _ & Y1).
  destruct (factor bexp nd sd rf _ _ Hx A5 A4 ltac:(rewrite B5; exact P0) ltac:(rewrite B4; exact P2)) as (_ & X2 & _ & Y2).
  rewrite <- B1 in Q1. rewrite <- B3 in Q2.
  assert (HF0 : forall i, (i < List.length m)%nat -> (i < List.length m')%nat -> F i <= F' i).
  { intros i Hi Hi'. apply HF.
    - exact (eq_ind _ (fun n => (i < n)%nat) Hi _ (to_mags_length E e _ m Hmm)).
    - exact (eq_ind _ (fun n => (i < n)%nat) Hi' _ (to_mags_length E e' _ m' Hmm')). }
  assert (HF' : forall i, (i < List.length m)%nat -> (i < List.length m')%nat -> B2R (iat E m i : b64) <= B2R (iat E m' i : b64)).
  { intros i Hi Hi'. pose proof (proj2 (reads_at_i _ _ _ _ _ _ _ _ He Hmm Hi)) as V1.
    pose proof (proj2 (reads_at_i _ _ _ _ _ _ _ _ He' Hmm' Hi')) as V2. pose proof (HF0 i Hi Hi') as V3.
    rewrite <- V1, <- V2 in V3. exact V3. }
  assert (M1 : forall n, (n < List.length m)%nat -> (n < List.length m')%nat ->
    is_finite (iT1 E s (iat E m) n : b64) = true -> is_finite (iT1 E s (iat E m') n : b64) = true ->
    B2R (iT1 E s (iat E m) n : b64) <= B2R (iT1 E s (iat E m') n : b64)).
  { induction n as [|n IH]; intros Hi Hi' K K'; [right; reflexivity|].
    apply box_mono; [exact Q1|exact X1|exact Y1|exact K|exact K'| |].
    - intros; apply IH; try assumption; lia.
    - intros; apply HF'; lia. }
  assert (M2 : forall n, (n < List.length m)%nat -> (n < List.length m')%nat ->
    is_finite (iT2 E s (iat E m) n : b64) = true -> is_finite (iT2 E s (iat E m') n : b64) = true ->
    B2R (iT2 E s (iat E m) n : b64) <= B2R (iT2 E s (iat E m') n : b64)).
  { induction n as [|n IH]; intros Hi Hi' K K'; [right; reflexivity|].
    apply box_mono; [exact Q2|exact X2|exact Y2|exact K|exact K'| |].
    - intros; apply IH; try assumption; lia.
    - intros; apply HF'; lia. }
  split; [|split]; intros i x y Hx' Hy K K'; apply nth_map_seq in Hx' as [Hi ->]; apply nth_map_seq in Hy as [Hi' ->].
  - now apply M1.
  - now apply M2.
  - destruct (plus_value _ _ K) as (C1 & C2 & _). destruct (plus_value _ _ K') as (D1 & D2 & _).
    apply plus_le; auto.
Qed.

(** A forcing that starts at zero or above and never decreases gives temperatures that never decrease. *)
Theorem c56_impulse_response_rise : forall bexp nd sd rf parse s q1 d1 q2 d2 dt e F T1 T2 T N,
  let E := fenv bexp nd sd rf in
  unit_exp bexp -> ir_reachable E parse s -> ir_numbers bexp nd sd rf s q1 d1 q2 d2 dt -> 0 <= dt -> 0 < d1 -> 0 < d2 ->
  0 <= q1 -> 0 <= q2 -> reads_series bexp nd sd rf e F ->
  0 <= F O -> (forall i, (S i < List.length (mags e))%nat -> F i <= F (S i)) ->
  ir_gives bexp nd sd rf s e T1 T2 T N ->
  let rises (X : list (num E)) := forall i (x y : b64), nth_error X i = Some (x : num E) -> nth_error X (S i) = Some (y : num E) ->
    is_finite y = true -> is_finite x = true /\ 0 <= B2R x <= B2R y in
  rises T1 /\ rises T2 /\ rises T.
Proof.
  intros bexp nd sd rf parse s q1 d1 q2 d2 dt e F T1 T2 T N E Hx Hr (N1 & N2 & N3 & N4 & N5) P0 P1 P2 Q1 Q2 He F0 HF Hg rises.
  destruct (ir_reachable_coherent E parse s Hr).
  destruct (reads_to _ _ _ _ _ _ _ _ N1 ic_q1) as [A1 B1]. destruct (reads_to _ _ _ _ _ _ _ _ N2 ic_d1) as [A2 B2].
  destruct (reads_to _ _ _ _ _ _ _ _ N3 ic_q2) as [A3 B3]. destruct (reads_to _ _ _ _ _ _ _ _ N4 ic_d2) as [A4 B4].
  destruct (reads_to _ _ _ _ _ _ _ _ N5 ic_delta_t) as [A5 B5].
  apply ir_gives_iff in Hg as (m & hp & Hmm & Hn & Hs & -> & -> & -> & ->).
  destruct (factor bexp nd sd rf _ _ Hx A5 A2 ltac:(rewrite B5; exact P0) ltac:(rewrite B2; exact P1)) as (_ & X1 & _ & Y1).
  destruct (factor bexp nd sd rf _ _ Hx A5 A4 ltac:(rewrite B5; exact P0) ltac:(rewrite B4; exact P2)) as (_ & X2 & _ & Y2).
  rewrite <- B1 in Q1. rewrite <- B3 in Q2.
  assert (HF0 : forall i, (S i < List.length m)%nat -> F i <= F (S i)).
  { intros i Hi. apply HF. exact (eq_ind _ (fun n => (S i < n)%nat) Hi _ (to_mags_length E e _ m Hmm)). }
  assert (V : forall i, (i < List.length m)%nat -> B2R (iat E m i : b64) = F i).
  { intros i Hi. exact (proj2 (reads_at_i _ _ _ _ _ _ _ _ He Hmm Hi)). }
  assert (G : forall q d, 0 <= B2R (q : b64) -> 0 <= B2R (bexp (Bopp (ir_delta_t_mag E s : b64) [/] (d : b64))) ->
    0 <= B2R ((nQ E 1 : b64) [-] bexp (Bopp (ir_delta_t_mag E s : b64) [/] (d : b64))) ->
    forall n, (S n < List.length m)%nat -> is_finite (irT E (ir_delta_t_mag E s) q d (iat E m) (S n) : b64) = true ->
    is_finite (irT E (ir_delta_t_mag E s) q d (iat E m) n : b64) = true /\
    0 <= B2R (irT E (ir_delta_t_mag E s) q d (iat E m) n : b64) <= B2R (irT E (ir_delta_t_mag E s) q d (iat E m) (S n) : b64)).
  { intros q d Hq Hxx Hyy. induction n as [|n IH]; intros Hi K.
    - split; [reflexivity|]. split; [right; reflexivity|].
      destruct (plus_value _ _ K) as (C1 & C2 & Ev). change (0 <= B2R (box E (ir_delta_t_mag E s) q d (nQ E 0) (iat E m 0) : b64)).
      unfold box. change (nadd E) with (Bplus (prec := 53) (emax := 1024) mode_NE). rewrite Ev.
      destruct (mult_value _ _ C2) as (C3 & _). rewrite <- rnd_0 at 1. apply rnd_le.
      pose proof (mult_pos _ _ C1 Hxx ltac:(right; reflexivity)) as K1.
      assert (K3 : 0 <= B2R (iat E m 0 : b64)) by (rewrite V by lia; exact F0).
      pose proof (mult_pos _ _ C2 Hyy (mult_pos _ _ C3 Hq K3)) as K2. 
      apply Rplus_le_le_0_compat; [exact K1|exact K2].
    - assert (Kn : is_finite (irT E (ir_delta_t_mag E s) q d (iat E m) (S n) : b64) = true).
      { destruct (plus_value _ _ K) as (C1 & _). exact (proj1 (mult_value _ _ C1)). }
      destruct (IH ltac:(lia) Kn) as (IF & IP & IM). split; [exact Kn|]. split; [lra|].
      apply box_mono; [exact Hq|exact Hxx|exact Hyy|exact Kn|exact K| |].
      + intros _ _. exact IM.
      + intros _ _. rewrite !V by lia. apply HF0. lia. }
  pose proof (G _ _ Q1 X1 Y1) as G1. pose proof (G _ _ Q2 X2 Y2) as G2. clear G.
  split; [|split]; intros i x y Hx' Hy K; apply nth_map_seq in Hx' as [Hi ->]; apply nth_map_seq in Hy as [Hi' ->].
  - now apply G1.
  - now apply G2.
  - destruct (plus_value _ _ K) as (D1 & D2 & Ev). destruct (G1 i Hi' D1) as (a1 & b1 & c1). destruct (G2 i Hi' D2) as (a2 & b2 & c2).
    fold (iT1 E s (iat E m) i) in a1, b1, c1. fold (iT2 E s (iat E m) i) in a2, b2, c2.
    assert (FF : is_finite ((iT1 E s (iat E m) i : b64) [+] (iT2 E s (iat E m) i : b64)) = true).
    { pose proof (Bplus_correct 53 1024 _ _ mode_NE (iT1 E s (iat E m) i : b64) (iT2 E s (iat E m) i : b64) a1 a2) as A.
      cbn [round_mode] in A. rewrite Rlt_bool_true in A; [apply A|].
      pose proof (abs_B2R_lt_emax 53 1024 ((iT1 E s (iat E m) (S i) : b64) [+] (iT2 E s (iat E m) (S i) : b64))) as Lt.
      assert (Ev' : B2R ((iT1 E s (iat E m) (S i) : b64) [+] (iT2 E s (iat E m) (S i) : b64)) =
        rnd (B2R (iT1 E s (iat E m) (S i) : b64) + B2R (iT2 E s (iat E m) (S i) : b64))) by exact Ev.
      eapply Rle_lt_trans; [|exact Lt]. rewrite Ev'.
      assert (0 <= rnd (B2R (iT1 E s (iat E m) i : b64) + B2R (iT2 E s (iat E m) i : b64))) by (rewrite <- rnd_0 at 1; apply rnd_le; lra).
      assert (rnd (B2R (iT1 E s (iat E m) i : b64) + B2R (iT2 E s (iat E m) i : b64)) <=
              rnd (B2R (iT1 E s (iat E m) (S i) : b64) + B2R (iT2 E s (iat E m) (S i) : b64))).
      { apply rnd_le. apply Rplus_le_compat; [exact c1|exact c2]. }
      rewrite !Rabs_pos_eq; [assumption| |assumption]. eapply Rle_trans; eassumption. }
    split; [exact FF|]. split.
    + destruct (plus_value _ _ FF) as (_ & _ & Ef). 
      change (0 <= B2R ((iT1 E s (iat E m) i : b64) [+] (iT2 E s (iat E m) i : b64))). rewrite Ef.
      rewrite <- rnd_0 at 1. apply rnd_le. apply Rplus_le_le_0_compat; assumption.
    + apply plus_le; assumption.
Qed.

(** Concrete cases. *)
Lemma floor_exp_unit : unit_exp floor_exp.
Proof.
  intros z Hz. unfold floor_exp.
  assert (Hz0 : B2R z <= 0) by (destruct Hz as [[_ Hz]| ->]; [exact Hz|right; reflexivity]).
  set (k := Zfloor (exp (B2R z) * two 52)).
  assert (H1 : exp (B2R z) <= 1).
  { rewrite <- exp_0. destruct Hz0 as [H|H]; [left; now apply exp_increasing|rewrite H; right; reflexivity]. }
  pose proof (exp_pos (B2R z)) as H0.
  pose proof (Zfloor_lb (exp (B2R z) * two 52)) as L. fold k in L.
  assert (T0 : 0 < two 52) by (apply IZR_lt; reflexivity).
  assert (K0 : (0 <= k)%Z). { unfold k. apply Zfloor_lub. cbn. apply Rmult_le_pos; lra. }
  assert (K1 : (k <= 2 ^ 52)%Z). { apply le_IZR. change (IZR (2 ^ 52)) with (two 52). nra. }
  pose proof (binary_normalize_correct 53 1024 b64_prec b64_emax mode_NE k (-52) false) as C. cbn [round_mode] in C.
  assert (Ek : F2R (Float radix2 k (-52)) = IZR k * half 52).
  { unfold F2R. cbn [Fnum Fexp]. rewrite bpow2_neg. reflexivity. }
  assert (Gf : generic_format radix2 (SpecFloat.fexp 53 1024) (F2R (Float radix2 k (-52)))).
  { change (SpecFloat.fexp 53 1024) with (FLT_exp (-1074) 53). apply generic_format_FLT.
    exists (Float radix2 k (-52)); [reflexivity| |cbn; lia]. cbn [Fnum]. change (radix2 ^ 53)%Z with (2 ^ 53)%Z. lia. }
  rewrite round_generic in C by (try typeclasses eauto; exact Gf). rewrite Ek in C.
  pose proof (half_two 52) as HT. pose proof (half_pos 52) as h52.
  assert (Kr : 0 <= IZR k <= two 52) by (split; [apply IZR_le; exact K0|apply IZR_le; exact K1]).
  assert (Kb : 0 <= IZR k * half 52 <= 1) by nra.
  rewrite Rlt_bool_true in C.
  2:{ rewrite Rabs_right by lra. pose proof four_big. pose proof big_pos. lra. }
  destruct C as (C1 & C2 & _). rewrite C1, C2. split; [reflexivity|exact Kb].
Qed.

Definition later (k : nat) (F : nat -> R) (i : nat) : R := if Nat.ltb i k then 0 else F (i - k)%nat.
Lemma delayed_reads : forall bexp k, reads_series bexp 4 demo_dim frf
  (delayed bexp 4 demo_dim frf k (fcase_erf bexp)) (later k fcase_F).
Proof.
  intros bexp k. destruct (fcase_reads bexp) as (Hn & l & Hl & HF). split.
  - intros x Hx. unfold delayed in Hx. cbn [mags] in Hx. apply in_app_or in Hx as [Hx|Hx]; [|now apply Hn].
    apply repeat_spec in Hx. subst x. reflexivity.
  - exists (repeat (B754_zero false : b64) k ++ l). split.
    + assert (El : Ok (mags (fcase_erf bexp)) = Ok (l : list (num (fenv bexp 4 demo_dim frf)))) by exact Hl. injection El as <-. reflexivity.
    + intros i z Hz. unfold later. destruct (Nat.ltb_spec i k) as [Hi|Hi].
      * rewrite nth_error_app1 in Hz by (rewrite repeat_length; exact Hi). rewrite nth_error_repeat in Hz by exact Hi.
        injection Hz as <-. split; reflexivity.
      * rewrite nth_error_app2 in Hz by (rewrite repeat_length; exact Hi). rewrite repeat_length in Hz. now apply HF.
Qed.
Example c56_two_layer_case : forall bexp parse, exists s U L N,
  tl_reachable (fenv bexp 4 demo_dim frf) parse s /\ reads bexp 4 demo_dim frf (tl_a _ s) u_Wm2C2 0 /\
  tl_numbers bexp 4 demo_dim frf s fcase_c /\ moderate_tl fcase_c /\ n_dt fcase_c <> 0 /\
  reads_series bexp 4 demo_dim frf (delayed bexp 4 demo_dim frf 2 (fcase_erf bexp)) (later 2 fcase_F) /\
  tl_gives bexp 4 demo_dim frf s (fcase_erf bexp) U L N /\ List.length U = 3%nat.
Proof.
  intros bexp parse. destruct (c44_two_layer_case bexp parse) as (s & H1 & H2 & H3 & _).
  destruct (tl_gives_ex bexp 4 demo_dim frf s _ _ (fcase_reads bexp)) as (U & L & N & Hg).
  exists s, U, L, N. split; [exact H1|]. split; [exact (proj1 (proj2 (proj2 H2)))|]. split; [exact H2|]. split; [exact H3|].
  split; [cbn; lra|]. split; [apply delayed_reads|]. split; [exact Hg|].
  destruct Hg as (_ & _ & _ & LU & _). exact LU.
Qed.

Definition rise_erf : QArr (fenv floor_exp 4 demo_dim frf) :=
  mkQA [b64_of_Q 4 : num (fenv floor_exp 4 demo_dim frf); b64_of_Q 5; b64_of_Q 6] u_Wm2.
Definition rise_F (i : nat) : R := match i with O => 4 | S O => 5 | _ => 6 end.
Lemma rise_reads : reads_series floor_exp 4 demo_dim frf rise_erf rise_F.
Proof.
  split.
  - intros x Hx. cbn [rise_erf mags In] in Hx. destruct Hx as [<-|[<-|[<-|[]]]]; vm_compute; reflexivity.
  - exists [b64_of_Q 4; b64_of_Q 5; b64_of_Q 6]. split; [reflexivity|].
    intros [|[|[|i]]] z Hz; cbn [nth_error] in Hz; try (destruct i; discriminate); apply some_inj in Hz; subst z;
      (split; [vm_compute; reflexivity|cbn [rise_F]; fval]).
Qed.
Example c56_impulse_response_case : forall parse, exists s T1 T2 T N T1' T2' T' N' U1 U2 U R,
  unit_exp floor_exp /\ ir_reachable (fenv floor_exp 4 demo_dim frf) parse s /\
  ir_numbers floor_exp 4 demo_dim frf s (1/4) 8 (1/2) 256 1 /\
  reads_series floor_exp 4 demo_dim frf (fcase_erf floor_exp) fcase_F /\
  reads_series floor_exp 4 demo_dim frf (delayed floor_exp 4 demo_dim frf 2 (fcase_erf floor_exp)) (later 2 fcase_F) /\
  reads_series floor_exp 4 demo_dim frf rise_erf rise_F /\
  (forall i, fcase_F i <= rise_F i) /\ 0 <= rise_F 0 /\ (forall i, rise_F i <= rise_F (S i)) /\
  ir_gives floor_exp 4 demo_dim frf s (fcase_erf floor_exp) T1 T2 T N /\
  ir_gives floor_exp 4 demo_dim frf s (delayed floor_exp 4 demo_dim frf 2 (fcase_erf floor_exp)) T1' T2' T' N' /\
  ir_gives floor_exp 4 demo_dim frf s rise_erf U1 U2 U R.
Proof.
  intros parse. set (E := fenv floor_exp 4 demo_dim frf).
  assert (OK : match ir_new E (fcase_ir floor_exp) with
               | Ok s => match ir_get_two_layer_parameters E s with
                         | Ok _ => (negb (neqb E (ir_d1_mag E s) (nQ E 0)) && negb (neqb E (ir_d2_mag E s) (nQ E 0)) &&
                                    neqb E (ir_efficacy_mag E s) (nQ E 1))%bool
                         | Err _ => false end
               | Err _ => false end = true) by (vm_compute; reflexivity).
  destruct (ir_new E (fcase_ir floor_exp)) as [s|] eqn:Hs; [|discriminate].
  destruct (ir_get_two_layer_parameters E s) as [p|] eqn:Hp; [|discriminate].
  apply andb_prop in OK. destruct OK as [OK O3]. apply andb_prop in OK. destruct OK as [O1 O2].
  apply negb_true_iff in O1. apply negb_true_iff in O2.
  assert (G : forall e F, reads_series floor_exp 4 demo_dim frf e F -> exists T1 T2 T N, ir_gives floor_exp 4 demo_dim frf s e T1 T2 T N).
  { intros e F (Hn & fs & Hf & Hv). destruct (c01_impulse_response_success E s e fs p Hf Hn O1 O2 Hp O3) as (s' & D).
    destruct (c01_impulse_response_shape E s s' _ D) as (fs' & T1 & T2 & T & N & _ & _ & O & _).
    exists T1, T2, T, N, s'. split; [exact D|exact O]. }
  destruct (G _ _ (fcase_reads floor_exp)) as (T1 & T2 & T & N & G1).
  destruct (G _ _ (delayed_reads floor_exp 2)) as (T1' & T2' & T' & N' & G2).
  destruct (G _ _ rise_reads) as (U1 & U2 & U & R & G3).
  exists s, T1, T2, T, N, T1', T2', T', N', U1, U2, U, R.
  split; [exact floor_exp_unit|].
  split; [exists (fcase_ir floor_exp), s, []; split; [exact Hs|reflexivity]|].
  split.
  { destruct (ir_new_ok E (fcase_ir floor_exp) (mkQty E 8 u_yr) (mkQty E 256 u_yr)) as (s1 & Hs1 & _ & Hq & _).
    { intros q. destruct q; eexists; (split; [reflexivity|]); intros k Hk; reflexivity. }
    { reflexivity. } { reflexivity. } { vm_compute. reflexivity. }
    rewrite Hs in Hs1. injection Hs1 as <-.
    assert (Q : forall q x, ir_arg E (fcase_ir floor_exp) q = PQ x -> ir_param_get E q s = x).
    { intros q x H. rewrite Hq in H. injection H. auto. }
    pose proof (Q Pq1 _ eq_refl) as Q1. pose proof (Q Pq2 _ eq_refl) as Q2. pose proof (Q Pd1 _ eq_refl) as Q3.
    pose proof (Q Pd2 _ eq_refl) as Q4. pose proof (Q Pdt _ eq_refl) as Q5. cbn [ir_param_get] in *.
    unfold ir_numbers. fold E. rewrite Q1, Q2, Q3, Q4, Q5.
    repeat split; eapply reads_at; try reflexivity; try (vm_compute; reflexivity); fval. }
  split; [apply fcase_reads|]. split; [apply delayed_reads|]. split; [exact rise_reads|].
  split; [intros [|[|i]]; cbn; lra|]. split; [cbn; lra|]. split; [intros [|[|i]]; cbn; lra|]. auto.
Qed.
