(** Runs in binary64: sign, leading zeros, order. *)
From Coq Require Import List String QArith Reals Bool Arith Lra Lia.
From Flocq Require Import Core IEEE754.BinarySingleNaN.
From Verif Require Import Arith Pint Base TwoLayer Impulse Scm Api Spec Float SpecRound SpecExact FloatSym
  GenTL GenTLHist GenIR GenIRHist.
Import ListNotations.
Local Open Scope R_scope.

Lemma Forall2_nth {A B} (P : A -> B -> Prop) : forall l l',
  List.length l = List.length l' ->
  (forall i x y, nth_error l i = Some x -> nth_error l' i = Some y -> P x y) -> Forall2 P l l'.
Proof.
  induction l as [|x l IH]; intros [|y l'] HL H; try discriminate; constructor.
  - exact (H O x y eq_refl eq_refl).
  - apply IH; [now injection HL|]. intros i. exact (H (S i)).
Qed.
Lemma Forall2_map_seq {A B} (P : A -> B -> Prop) (f : nat -> A) (g : nat -> B) n a :
  (forall i, (a <= i < a + n)%nat -> P (f i) (g i)) -> Forall2 P (map f (seq a n)) (map g (seq a n)).
Proof.
  revert a. induction n as [|n IH]; intros a H; cbn; constructor; [apply H; lia|]. apply IH. intros i Hi. apply H. lia.
Qed.

Lemma map_repeat' {A B} (f : A -> B) x k : map f (repeat x k) = repeat (f x) k.
Proof. induction k; cbn; congruence. Qed.
Lemma seq_shift_k k a n : map (Nat.add k) (seq a n) = seq (k + a) n.
Proof.
  revert a. induction n as [|n IH]; intros a; [reflexivity|]. cbn. f_equal. rewrite IH. f_equal. lia.
Qed.

(** ** Divisions of the decay factor *)
Lemma sign_pos : forall x : b64, is_finite x = true -> 0 < B2R x -> Bsign x = false.
Proof.
  intros [s| | |s m e B] F H; try discriminate; cbn in *; [lra|]. destruct s; [|reflexivity]. exfalso.
  revert H. apply Rle_not_lt. apply Rlt_le, F2R_lt_0. reflexivity.
Qed.
Lemma decay_arg : forall dt d : b64, is_finite dt = true -> is_finite d = true -> 0 <= B2R dt -> 0 < B2R d ->
  let z := Bopp dt [/] d in (is_finite z = true /\ B2R z <= 0) \/ z = B754_infinity true.
Proof.
  intros dt d Ft Fd Ht Hd z.
  pose proof (Bdiv_correct 53 1024 _ _ mode_NE (Bopp dt) d ltac:(lra)) as A. fold z in A. cbn [round_mode] in A.
  rewrite B2R_Bopp in A.
  assert (Hq : - B2R dt / B2R d <= 0).
  { assert (0 <= B2R dt / B2R d) by (unfold Rdiv; apply Rmult_le_pos; [exact Ht|left; now apply Rinv_0_lt_compat]).
    unfold Rdiv in *. lra. }
  destruct (Rlt_bool _ _) eqn:Eb.
  - destruct A as (A1 & A2 & _). rewrite is_finite_Bopp in A2. left. split; [congruence|].
    rewrite A1, <- rnd_0. now apply rnd_le.
  - right. apply inf_overflow in A. rewrite A. f_equal.
    assert (0 < B2R dt).
    { destruct Ht as [Ht|Ht]; [exact Ht|]. exfalso. revert Eb. rewrite <- Ht.
      replace (- 0 / B2R d) with 0 by (field; lra). rewrite rnd_0, Rabs_R0, Rlt_bool_true; [discriminate|]. apply bpow_gt_0. }
    rewrite Bsign_Bopp by (destruct dt; try discriminate; reflexivity). rewrite !sign_pos by assumption. reflexivity.
Qed.

Section Run.
Variable bexp : b64 -> b64.
Variable nd : nat.
Variable sd : string -> nat -> Q.
Variable rf : Units -> b64.
Notation E := (fenv bexp nd sd rf).
Notation zero := (B754_zero false : b64).

Lemma nQ0 : (nQ E 0 : b64) = B754_zero false. Proof. reflexivity. Qed.

(** ** Opposite forcing *)
Lemma negated_nan : forall e : QArr E, existsb (nisnan E) (mags (negated bexp nd sd rf e)) = existsb (nisnan E) (mags e).
Proof.
  intros e. unfold negated, opposite. cbn [mags]. induction (mags e) as [|x l IH]; [reflexivity|]. cbn [map existsb].
  rewrite IH. f_equal. destruct (x : b64); reflexivity.
Qed.
Lemma negated_mags : forall (e : QArr E) u m, to_mags E e u = Ok m ->
  exists m', to_mags E (negated bexp nd sd rf e) u = Ok m' /\ Forall2 opp (m : list b64) (m' : list b64).
Proof.
  intros e u m. unfold to_mags, negated, opposite. cbn [mags aunits].
  destruct (dim_eqb E (aunits e) u); [|discriminate]. intros [= <-]. eexists. split; [reflexivity|].
  destruct (units_eqb (aunits e) u); induction (mags e) as [|x l IH]; cbn [map]; constructor; auto.
  - apply opp_of.
  - apply o_mult_l; [apply same_refl|apply opp_of].
Qed.
Lemma f2_at {m m' : list (num E)} : Forall2 opp (m : list b64) (m' : list b64) -> forall i, opp (iat E m i) (iat E m' i).
Proof.
  intros H. induction H as [|x y l l' Hxy H IH]; intros [|i]; cbn; try apply same_refl; auto. apply IH.
Qed.
Lemma f2_at_tl {m m' : list (num E)} : Forall2 opp (m : list b64) (m' : list b64) -> forall i, opp (at_ E m i) (at_ E m' i).
Proof. exact f2_at. Qed.

Section TLR.
Variable s : TL E.

Lemma traj_opp : forall F F', is_zero (tl_a_mag E s : b64) -> (forall i, opp (F i) (F' i)) ->
  forall n, opp (trajU E s F n) (trajU E s F' n) /\ opp (trajL E s F n) (trajL E s F' n).
Proof.
  intros F F' Ha HF. unfold trajU, trajL. induction n as [|n [IU IL]].
  - split; apply zero_same.
  - cbn [traj]. destruct (traj E s F n) as [u l], (traj E s F' n) as [u' l']. cbn [fst snd] in *.
    unfold next_upper, next_lower, calculate_next_temp_upper, calculate_next_temp_lower. split.
    + apply o_plus; [exact IU|]. apply o_mult_r; [apply same_refl|]. apply o_div. apply o_minus.
      * apply o_minus; [apply HF|]. apply o_mult_r; [|exact IU].
        apply same_minus; [apply same_refl|]. now apply zero_times_opp.
      * apply o_mult_r; [apply same_refl|]. now apply o_minus.
    + apply o_plus; [exact IL|]. apply o_mult_r; [apply same_refl|]. apply o_div. apply o_mult_r; [apply same_refl|].
      now apply o_minus.
Qed.
Lemma trajR_opp : forall F F', is_zero (tl_a_mag E s : b64) -> (forall i, opp (F i) (F' i)) ->
  forall n, opp (trajR E s F n) (trajR E s F' n).
Proof.
  intros F F' Ha HF [|n]; [apply zero_same|]. cbn [trajR]. unfold next_rndt, calculate_next_rndt.
  destruct (traj_opp F F' Ha HF n) as [U L]. destruct (traj_opp F F' Ha HF (S n)) as [U' L'].
  apply o_plus; apply o_div; (apply o_mult_r; [apply same_refl|]); now apply o_minus.
Qed.

(** The outputs of a run as functions of the index. *)
Lemma tl_gives_iff : forall e U L N, tl_gives bexp nd sd rf s e U L N <->
  exists m, to_mags E e u_Wm2 = Ok m /\ existsb (nisnan E) (mags e) = false /\
    U = map (trajU E s (at_ E m)) (seq 0 (List.length m)) /\ L = map (trajL E s (at_ E m)) (seq 0 (List.length m)) /\
    N = map (trajR E s (at_ E m)) (seq 0 (List.length m)).
Proof.
  intros e U L N.
  assert (T : forall m F n, traj E (with_erf E s (Some e) (Some m)) F n = traj E s F n).
  { intros m F n. apply traj_indep; reflexivity. }
  assert (FU : forall m n, map (trajU E (with_erf E s (Some e) (Some m)) (at_ E m)) (seq 0 n) = map (trajU E s (at_ E m)) (seq 0 n)).
  { intros. apply map_ext. intros i. unfold trajU. now rewrite T. }
  assert (FL : forall m n, map (trajL E (with_erf E s (Some e) (Some m)) (at_ E m)) (seq 0 n) = map (trajL E s (at_ E m)) (seq 0 n)).
  { intros. apply map_ext. intros i. unfold trajL. now rewrite T. }
  assert (FR : forall m n, map (trajR E (with_erf E s (Some e) (Some m)) (at_ E m)) (seq 0 n) = map (trajR E s (at_ E m)) (seq 0 n)).
  { intros. apply map_ext. intros [|i]; cbn [trajR]; [reflexivity|]. unfold trajU, trajL. now rewrite !T. }
  split.
  - intros (s1 & D & O & _).
    destruct (same_dim_dec E (aunits e) u_Wm2) as [H|H].
    2:{ rewrite drive_unit in D by assumption. discriminate. }
    apply to_mags_ok_iff in H as [m Hm]. exists m. split; [exact Hm|].
    destruct (existsb (nisnan E) (mags e)) eqn:Hn.
    { rewrite (drive_nan E s e m Hm Hn) in D. discriminate. }
    split; [reflexivity|]. rewrite (drive_ok E s e m Hm Hn) in D. injection D as <-.
    unfold tl_outputs, filled in O. cbn [tl_temp_upper tl_temp_lower tl_rndt with_run] in O.
    injection O as <- <- <-. rewrite !fill_full, FU, FL, FR. auto.
  - intros (m & Hm & Hn & -> & -> & ->). eexists. split; [apply (drive_ok E s e m Hm Hn)|].
    unfold tl_outputs, filled. cbn [tl_temp_upper tl_temp_lower tl_rndt with_run]. rewrite !fill_full, FU, FL, FR.
    split; [reflexivity|]. rewrite !map_length, seq_length. now rewrite (to_mags_length E e _ m Hm).
Qed.

(** ** Forcing zero at the beginning *)
Lemma z_plus : forall x y, is_zero x -> is_zero y -> is_zero (x [+] y).
Proof. intros x y [a ->] [b ->]. destruct a, b; eexists; reflexivity. Qed.
Lemma z_minus : forall x y, is_zero x -> is_zero y -> is_zero (x [-] y).
Proof. intros x y [a ->] [b ->]. destruct a, b; eexists; reflexivity. Qed.
Lemma z_mult_l : forall x y, is_zero x -> is_finite y = true -> is_zero (x [*] y).
Proof. intros x y [a ->] H. destruct y; try discriminate; eexists; reflexivity. Qed.
Lemma z_mult_r : forall x y, is_finite x = true -> is_zero y -> is_zero (x [*] y).
Proof. intros. rewrite mult_comm. now apply z_mult_l. Qed.
Lemma z_div : forall x y, is_zero x -> is_finite y = true -> B2R y <> 0 -> is_zero (x [/] y).
Proof. intros x y [a ->] H K. destruct y; try discriminate; [cbn in K; congruence|]. eexists; reflexivity. Qed.
Lemma minus_zero_fin : forall x y, is_finite x = true -> is_zero y -> is_finite (x [-] y) = true.
Proof. intros x y H [a ->]. destruct x as [b| | |]; try discriminate; [|reflexivity]. destruct a, b; reflexivity. Qed.

Notation fin x := (is_finite (x : b64) = true).
Hypothesis f_dt : fin (tl_delta_t_mag E s).
Hypothesis f_l0 : fin (tl_lambda0_mag E s).
Hypothesis f_a : fin (tl_a_mag E s).
Hypothesis f_ee : fin ((tl_efficacy_mag E s : b64) [*] (tl_eta_mag E s : b64)).
Hypothesis f_eta : fin (tl_eta_mag E s).
Hypothesis f_C : fin (tl_hcu_mag E s).
Hypothesis f_CD : fin (tl_hcl_mag E s).
Hypothesis n_C : B2R (tl_hcu_mag E s : b64) <> 0.
Hypothesis n_CD : B2R (tl_hcl_mag E s : b64) <> 0.

Lemma rest_step : forall u l f : num E, is_zero u -> is_zero l -> is_zero f ->
  is_zero (next_upper E s u l f) /\ is_zero (next_lower E s l u).
Proof.
  intros u l f Hu Hl Hf. unfold next_upper, next_lower, calculate_next_temp_upper, calculate_next_temp_lower. split.
  - apply z_plus; [exact Hu|]. apply z_mult_r; [assumption|]. apply z_div; [|assumption|assumption]. apply z_minus.
    + apply z_minus; [exact Hf|]. apply z_mult_r; [|exact Hu]. apply minus_zero_fin; [assumption|]. now apply z_mult_r.
    + apply z_mult_r; [assumption|]. now apply z_minus.
  - apply z_plus; [exact Hl|]. apply z_mult_r; [assumption|]. apply z_div; [|assumption|assumption].
    apply z_mult_r; [assumption|]. now apply z_minus.
Qed.
Lemma rest : forall F k, (forall i, (i < k)%nat -> is_zero (F i)) ->
  forall n, (n <= k)%nat -> is_zero (trajU E s F n) /\ is_zero (trajL E s F n).
Proof.
  intros F k HF. unfold trajU, trajL. induction n as [|n IH]; intros Hn.
  - split; eexists; reflexivity.
  - destruct IH as [IU IL]; [lia|]. cbn [traj]. destruct (traj E s F n) as [u l]. cbn [fst snd] in *.
    apply rest_step; auto.
Qed.
Lemma traj_same : forall F F' k, (forall i, (i < k)%nat -> is_zero (F' i)) -> (forall i, same (F i) (F' (k + i)%nat)) ->
  forall n, same (trajU E s F n) (trajU E s F' (k + n)) /\ same (trajL E s F n) (trajL E s F' (k + n)).
Proof.
  intros F F' k Hk HF. induction n as [|n [IU IL]].
  - rewrite Nat.add_0_r. destruct (rest F' k Hk k ltac:(lia)) as [A B]. split; right; (split; [eexists; reflexivity|assumption]).
  - rewrite Nat.add_succ_r. unfold trajU, trajL in *. cbn [traj].
    destruct (traj E s F n) as [u l], (traj E s F' (k + n)) as [u' l']. cbn [fst snd] in *.
    unfold next_upper, next_lower, calculate_next_temp_upper, calculate_next_temp_lower. split.
    + apply same_plus; [exact IU|]. apply same_mult; [apply same_refl|]. apply same_div. apply same_minus.
      * apply same_minus; [apply HF|]. apply same_mult; [|exact IU].
        apply same_minus; [apply same_refl|]. apply same_mult; [apply same_refl|exact IU].
      * apply same_mult; [apply same_refl|]. now apply same_minus.
    + apply same_plus; [exact IL|]. apply same_mult; [apply same_refl|]. apply same_div. apply same_mult; [apply same_refl|].
      now apply same_minus.
Qed.
Lemma trajR_same : forall F F' k, B2R (tl_delta_t_mag E s : b64) <> 0 ->
  (forall i, (i < k)%nat -> is_zero (F' i)) -> (forall i, same (F i) (F' (k + i)%nat)) ->
  (forall n, (n <= k)%nat -> is_zero (trajR E s F' n)) /\ forall n, same (trajR E s F n) (trajR E s F' (k + n)).
Proof.
  intros F F' k Hd Hk HF.
  assert (Z : forall n, (n <= k)%nat -> is_zero (trajR E s F' n)).
  { intros [|n] Hn; [eexists; reflexivity|]. cbn [trajR]. unfold next_rndt, calculate_next_rndt.
    destruct (rest F' k Hk n ltac:(lia)) as [A B]. destruct (rest F' k Hk (S n) ltac:(lia)) as [A' B'].
    apply z_plus; (apply z_div; [|assumption|assumption]); (apply z_mult_r; [assumption|]); now apply z_minus. }
  split; [exact Z|]. intros [|n].
  - rewrite Nat.add_0_r. right. split; [eexists; reflexivity|apply Z; lia].
  - rewrite Nat.add_succ_r. cbn [trajR]. unfold next_rndt, calculate_next_rndt.
    destruct (traj_same F F' k Hk HF n) as [U L]. destruct (traj_same F F' k Hk HF (S n)) as [U' L'].
    rewrite Nat.add_succ_r in U', L'.
    apply same_plus; apply same_div; (apply same_mult; [apply same_refl|]); now apply same_minus.
Qed.
End TLR.

(** Conversion of a delayed forcing. *)
Lemma delayed_mags : forall k (e : QArr E) u m, to_mags E e u = Ok m ->
  exists z, to_mags E (delayed bexp nd sd rf k e) u = Ok (repeat z k ++ m).
Proof.
  intros k e u m. unfold to_mags, delayed, zeros. cbn [mags aunits].
  destruct (dim_eqb E (aunits e) u); [|discriminate]. intros [= <-].
  destruct (units_eqb (aunits e) u); [eexists; reflexivity|].
  eexists. rewrite map_app, map_repeat'. reflexivity.
Qed.
Lemma delayed_mags_inv : forall k (e : QArr E) u m', to_mags E (delayed bexp nd sd rf k e) u = Ok m' ->
  exists m, to_mags E e u = Ok m.
Proof.
  intros k e u m' H. assert (D : same_dim E (aunits (delayed bexp nd sd rf k e)) u) by (apply to_mags_ok_iff; eauto).
  apply to_mags_ok_iff. exact D.
Qed.
Lemma delayed_zero : forall k (e : QArr E) u m z, to_mags E (delayed bexp nd sd rf k e) u = Ok (repeat z k ++ m) ->
  (0 < k)%nat -> is_finite (z : b64) = true -> is_zero (z : b64).
Proof.
  intros k e u m z. unfold to_mags, delayed, zeros. cbn [mags aunits].
  destruct (dim_eqb E (aunits e) u); [|discriminate]. destruct k as [|k]; [lia|]. cbn [repeat app map].
  destruct (units_eqb (aunits e) u); intros [= H]; intros _ F; rewrite <- H in *; [eexists; reflexivity|].
  destruct (rf _); try discriminate F; eexists; reflexivity.
Qed.
Lemma delayed_nan : forall k (e : QArr E), existsb (nisnan E) (mags (delayed bexp nd sd rf k e)) = existsb (nisnan E) (mags e).
Proof. intros k e. unfold delayed, zeros. cbn [mags]. induction k as [|k IH]; [reflexivity|]. cbn. exact IH. Qed.
Lemma iat_app : forall k (z : num E) m i, iat E (repeat z k ++ m) (k + i) = iat E m i.
Proof. intros. unfold iat. rewrite app_nth2; rewrite repeat_length; [|lia]. f_equal. lia. Qed.
Lemma iat_lt : forall k (z : num E) m i, (i < k)%nat -> iat E (repeat z k ++ m) i = z.
Proof. intros. unfold iat. rewrite app_nth1 by (rewrite repeat_length; lia). revert i H. induction k as [|k IH]; intros [|i] Hi; try lia; [reflexivity|]. cbn. apply IH. lia. Qed.
Lemma map_seq_split : forall (f : nat -> num E) k n, map f (seq 0 (k + n)) = map f (seq 0 k) ++ map (fun i => f (k + i)%nat) (seq 0 n).
Proof.
  intros. rewrite seq_app, map_app. f_equal. cbn. rewrite <- (Nat.add_0_r k) at 1. rewrite <- seq_shift_k. apply map_map.
Qed.

(** ** Impulse response *)
Section IRR.
Variable s : IR E.

Lemma ir_gives_iff : forall e T1 T2 T N, ir_gives bexp nd sd rf s e T1 T2 T N <->
  exists m hp, to_mags E e u_Wm2 = Ok m /\ existsb (nisnan E) (mags e) = false /\
    ((List.length m <= 1)%nat \/ step_status E s = Ok hp) /\
    T1 = map (iT1 E s (iat E m)) (seq 0 (List.length m)) /\ T2 = map (iT2 E s (iat E m)) (seq 0 (List.length m)) /\
    T = map (fun i => nadd E (iT1 E s (iat E m) i) (iT2 E s (iat E m) i)) (seq 0 (List.length m)) /\
    N = map (iR E s hp (iat E m)) (seq 0 (List.length m)).
Proof.
  assert (ZA : forall (f g : nat -> num E) n a, zip_add E (map f (seq a n)) (map g (seq a n)) = map (fun i => nadd E (f i) (g i)) (seq a n)).
  { intros f g. induction n as [|n IH]; intros a; [reflexivity|]. cbn [seq map zip_add]. now rewrite IH. }
  intros e T1 T2 T N. split.
  - intros (s1 & D & O). pose proof (idrive_outcome E s e) as K. rewrite D in K. cbn [snd] in K.
    destruct K as (m & hp & Hm & Hn & Hs & Hd). exists m, hp. injection Hd as ->.
    split; [exact Hm|]. split; [exact Hn|]. split; [exact Hs|].
    unfold ir_outputs, ifilled in O. cbn [ir_temp1 ir_temp2 ir_rndt iwith_run] in O. rewrite !fill_full, ZA in O.
    injection O as <- <- <- <-. auto.
  - intros (m & hp & Hm & Hn & Hs & -> & -> & -> & ->). eexists. split; [apply (idrive_ok E s e m hp Hm Hn Hs)|].
    unfold ir_outputs, ifilled. cbn [ir_temp1 ir_temp2 ir_rndt iwith_run]. rewrite !fill_full, ZA. reflexivity.
Qed.

Lemma irT_opp : forall dt q d F F', (forall i, opp (F i) (F' i)) -> forall n, opp (irT E dt q d F n) (irT E dt q d F' n).
Proof.
  intros dt q d F F' HF. induction n as [|n IH]; [apply zero_same|]. cbn [irT]. unfold box.
  apply o_plus; (apply o_mult_l; [apply same_refl|]); [exact IH|]. apply o_mult_l; [apply same_refl|apply HF].
Qed.
Lemma heat_opp : forall hp eff t1 t2 f t1' t2' f', opp t1 t1' -> opp t2 t2' -> opp f f' ->
  opp (heat E hp eff t1 t2 f) (heat E hp eff t1' t2' f').
Proof.
  intros [l [[[eta o1] o2]|]] eff t1 t2 f t1' t2' f' H1 H2 Hf; unfold heat; cbn [fst snd].
  - apply o_minus.
    + apply o_minus; [exact Hf|]. apply o_mult_r; [apply same_refl|]. now apply o_plus.
    + apply o_mult_r; [apply same_refl|]. apply o_plus; (apply o_mult_r; [apply same_refl|]); (apply o_mult_l; [apply same_refl|]); assumption.
  - apply o_minus; [|vm_compute; right; split; eexists; reflexivity].
    apply o_minus; [exact Hf|]. apply o_mult_r; [apply same_refl|]. now apply o_plus.
Qed.
Lemma iR_opp : forall hp F F', (forall i, opp (F i) (F' i)) -> forall n, opp (iR E s hp F n) (iR E s hp F' n).
Proof.
  intros hp F F' HF [|n]; [apply zero_same|]. unfold iR. cbn [irR]. apply heat_opp; [now apply irT_opp|now apply irT_opp|apply HF].
Qed.

(** Leading zeros. *)
Lemma irT_rest : forall dt q d F k, is_finite (q : b64) = true ->
  is_finite (bexp ((Bopp (dt : b64)) [/] (d : b64))) = true -> is_finite ((nQ E 1 : b64) [-] bexp ((Bopp (dt : b64)) [/] (d : b64))) = true ->
  (forall i, (i < k)%nat -> is_zero (F i)) -> forall n, (n <= k)%nat -> is_zero (irT E dt q d F n).
Proof.
  intros dt q d F k Hq Hx Hy HF. induction n as [|n IH]; intros Hn; [eexists; reflexivity|]. cbn [irT]. unfold box.
  apply z_plus; apply z_mult_l; [apply IH; lia|exact Hx| |exact Hy]. apply z_mult_l; [apply HF; lia|exact Hq].
Qed.
Lemma irT_same : forall dt q d F F' k, is_finite (q : b64) = true ->
  is_finite (bexp ((Bopp (dt : b64)) [/] (d : b64))) = true -> is_finite ((nQ E 1 : b64) [-] bexp ((Bopp (dt : b64)) [/] (d : b64))) = true ->
  (forall i, (i < k)%nat -> is_zero (F' i)) -> (forall i, same (F i) (F' (k + i)%nat)) ->
  forall n, same (irT E dt q d F n) (irT E dt q d F' (k + n)).
Proof.
  intros dt q d F F' k Hq Hx Hy Hk HF. induction n as [|n IH].
  - rewrite Nat.add_0_r. right. split; [eexists; reflexivity|]. apply irT_rest with k; auto.
  - rewrite Nat.add_succ_r. cbn [irT]. unfold box.
    apply same_plus; (apply same_mult; [|apply same_refl]); [exact IH|]. apply same_mult; [apply HF|apply same_refl].
Qed.
Lemma heat_same : forall hp eff t1 t2 f t1' t2' f', same t1 t1' -> same t2 t2' -> same f f' ->
  same (heat E hp eff t1 t2 f) (heat E hp eff t1' t2' f').
Proof.
  intros [l [[[eta o1] o2]|]] eff t1 t2 f t1' t2' f' H1 H2 Hf; unfold heat; cbn [fst snd].
  - apply same_minus.
    + apply same_minus; [exact Hf|]. apply same_mult; [apply same_refl|]. now apply same_plus.
    + apply same_mult; [apply same_refl|]. apply same_plus; (apply same_mult; [apply same_refl|]); (apply same_mult; [assumption|apply same_refl]).
  - apply same_minus; [|apply same_refl].
    apply same_minus; [exact Hf|]. apply same_mult; [apply same_refl|]. now apply same_plus.
Qed.
(** Zero or NaN. *)
Definition zn (x : b64) : Prop := is_zero x \/ x = B754_nan.
Lemma zn_plus : forall x y, zn x -> zn y -> zn (x [+] y).
Proof. intros x y [Hx| ->] [Hy| ->]; try (right; destruct x; reflexivity); try (right; reflexivity). left. now apply z_plus. Qed.
Lemma zn_minus : forall x y, zn x -> zn y -> zn (x [-] y).
Proof. intros x y [Hx| ->] [Hy| ->]; try (right; destruct x; reflexivity); try (right; reflexivity). left. now apply z_minus. Qed.
Lemma zn_mult_r : forall x y, zn y -> zn (x [*] y).
Proof.
  intros x y [[a ->]| ->]; [|right; destruct x; reflexivity].
  destruct x as [b|b| |b m ex B]; [left|right|right|left]; try reflexivity; eexists; reflexivity.
Qed.
Lemma zn_mult_l : forall x y, zn x -> zn (x [*] y).
Proof. intros. rewrite mult_comm. now apply zn_mult_r. Qed.
Lemma zn_fin : forall x, zn x -> is_finite x = true -> is_zero x.
Proof. intros x [H| ->] F; [exact H|discriminate]. Qed.
Lemma heat_rest : forall hp eff t1 t2 f, is_zero t1 -> is_zero t2 -> is_zero f -> zn (heat E hp eff t1 t2 f).
Proof.
  intros [l [[[eta o1] o2]|]] eff t1 t2 f H1 H2 Hf; unfold heat; cbn [fst snd].
  - apply zn_minus.
    + apply zn_minus; [now left|]. apply zn_mult_r. left. now apply z_plus.
    + apply zn_mult_r. apply zn_plus; apply zn_mult_r; apply zn_mult_l; now left.
  - apply zn_minus; [|left; vm_compute; eexists; reflexivity].
    apply zn_minus; [now left|]. apply zn_mult_r. left. now apply z_plus.
Qed.

(** Order. *)
Lemma box_mono : forall dt q d (t t' f f' : num E), 0 <= B2R (q : b64) ->
  0 <= B2R (bexp ((Bopp (dt : b64)) [/] (d : b64))) -> 0 <= B2R ((nQ E 1 : b64) [-] bexp ((Bopp (dt : b64)) [/] (d : b64))) ->
  is_finite (box E dt q d t f : b64) = true -> is_finite (box E dt q d t' f' : b64) = true ->
  (is_finite (t : b64) = true -> is_finite (t' : b64) = true -> B2R (t : b64) <= B2R (t' : b64)) ->
  (is_finite (f : b64) = true -> is_finite (f' : b64) = true -> B2R (f : b64) <= B2R (f' : b64)) ->
  B2R (box E dt q d t f : b64) <= B2R (box E dt q d t' f' : b64).
Proof.
  intros dt q d t t' f f' Hq Hx Hy H H' Ht Hf.
  destruct (plus_value _ _ H) as (A1 & A2 & _). destruct (plus_value _ _ H') as (B1 & B2 & _).
  destruct (mult_value _ _ A1) as (C1 & _). destruct (mult_value _ _ B1) as (D1 & _).
  destruct (mult_value _ _ A2) as (C2 & _). destruct (mult_value _ _ B2) as (D2 & _).
  destruct (mult_value _ _ C2) as (C3 & _). destruct (mult_value _ _ D2) as (D3 & _).
  apply plus_le; [exact H|exact H'| |].
  - apply mult_le; auto.
  - apply mult_le; auto. apply mult_le; auto.
Qed.
End IRR.
End Run.
