(** Property C68, continued: parameters assigned while a run goes on. *)
From Coq Require Import List String QArith ZArith Bool Arith Lia.
From Verif Require Import Arith Pint Base TwoLayer Impulse Scm Api Spec Demo GenTL FactsInterrupt Threads SpecThreads ThreadsProof NonInterf
  FactsThreads ThreadRun.
Import ListNotations.

(** ** How far a thread of assignments is *)
Section Far.
Context {S : Type}.
Fixpoint len {A} (p : Prog S A) (s : S) : nat := match p with Done _ => 0%nat | Act w k => Datatypes.S (len (k s) (w s)) end.
Lemma ahead_len {A} (p : Prog S A) s n : (len p s <= n)%nat -> ahead n p s = (fst (alone p s), Done (snd (alone p s))).
Proof.
  revert s n. induction p as [r|w k IH]; intros s n H; [destruct n; reflexivity|]. cbn [len] in H. destruct n; [lia|]. apply IH. lia.
Qed.
Lemma ahead_catch_lt {A B} (p : Prog S A) (f : Res A -> Prog S B) s n : (n < len p s)%nat ->
  fst (ahead n (pcatch p f) s) = fst (ahead n p s).
Proof.
  revert s n. induction p as [r|w k IH]; intros s n H; cbn [len] in H; [lia|]. destruct n; [reflexivity|]. apply IH. lia.
Qed.
Lemma ahead_catch_ge {A B} (p : Prog S A) (f : Res A -> Prog S B) s n : (len p s <= n)%nat ->
  ahead n (pcatch p f) s = ahead (n - len p s) (f (snd (alone p s))) (fst (alone p s)).
Proof.
  revert s n. induction p as [r|w k IH]; intros s n H; cbn [len] in *; [rewrite Nat.sub_0_r; reflexivity|]. destruct n; [lia|].
  cbn [pcatch ahead alone]. rewrite IH by lia. reflexivity.
Qed.
Lemma ahead_catch_done {A B} (p : Prog S A) (f : Res A -> Prog S B) s n : (forall r, exists r', f r = Done r') ->
  fst (ahead n (pcatch p f) s) = fst (ahead n p s).
Proof.
  intros D. destruct (le_lt_dec (len p s) n) as [H|H]; [|apply ahead_catch_lt, H].
  rewrite ahead_catch_ge by exact H. rewrite (ahead_len p) by exact H. destruct (D (snd (alone p s))) as (r' & ->).
  destruct (n - len p s)%nat; reflexivity.
Qed.
End Far.

Section Far.
Context (env : Env) (pu : string -> option (Qty env)).
Notation TL := (TL env).
Fixpoint passed (ops : list (TLOp env)) (n : nat) (s : TL) : nat :=
  match ops with
  | [] => 0%nat
  | o :: r => let p := ptl_call env pu o in
              if (len p s <=? n)%nat then S (passed r (n - len p s) (fst (alone p s))) else 0%nat
  end.
Lemma passed_mono ops : forall n m s, (n <= m)%nat -> (passed ops n s <= passed ops m s)%nat.
Proof.
  induction ops as [|o r IH]; intros n m s H; cbn [passed]; [lia|].
  destruct (Nat.leb_spec (len (ptl_call env pu o) s) n), (Nat.leb_spec (len (ptl_call env pu o) s) m); try lia.
  apply le_n_S, IH. lia.
Qed.
Lemma passed_le ops : forall n s, (passed ops n s <= List.length ops)%nat.
Proof. induction ops as [|o r IH]; intros n s; cbn; [lia|]. destruct (_ <=? _)%nat; [apply le_n_S, IH|lia]. Qed.

Lemma assign_used p v s n : let o := hd (TReset env) (tl_assigning env [(p, v)]) in
  (n < len (ptl_call env pu o) s)%nat -> tl_used env (fst (ahead n (ptl_call env pu o) s)) = tl_used env s.
Proof.
  destruct p; cbn [tl_assigning map fst snd hd ptl_call]; unfold pnone;
    unfold ptl_set_du, ptl_set_dl, ptl_set_lambda0, ptl_set_a, ptl_set_efficacy, ptl_set_eta, ptl_set_delta_t, pval;
    (destruct (assert_quantity env v _) as [q|e]; cbn [pbind len]; [|lia]);
    (destruct (to_mag env q _) as [mg|e]; cbn [pbind len pwrite pread patom ahead fst snd mmod mread];
      [|intros H; destruct n as [|[|n]]; [reflexivity|cbn in H; lia..]]);
    try (intros H; destruct n as [|[|[|n]]]; [reflexivity|reflexivity|cbn in H; lia..]);
    (match goal with |- context [to_mag env ?x u_JCm2] => destruct (to_mag env x u_JCm2) as [hh|e] end;
      cbn [pbind len pwrite patom ahead fst snd mmod mread];
      intros H; destruct n as [|[|[|[|n]]]]; try reflexivity; cbn in H; lia).
Qed.
Lemma thread_used l : forall n s,
  tl_used env (fst (ahead n (ptl_thread env pu (tl_assigning env l)) s)) =
  tl_used env (tl_calls env pu (firstn (passed (tl_assigning env l) n s) (tl_assigning env l)) s).
Proof.
  induction l as [|[p v] l IH]; intros n s; [destruct n; reflexivity|].
  change (tl_assigning env ((p, v) :: l)) with (hd (TReset env) (tl_assigning env [(p, v)]) :: tl_assigning env l).
  set (o := hd (TReset env) (tl_assigning env [(p, v)])). unfold ptl_thread. cbn [pcalls passed].
  destruct (Nat.leb_spec (len (ptl_call env pu o) s) n) as [H|H].
  - rewrite ahead_catch_ge by exact H. cbn [firstn].
    rewrite ahead_catch_done by (intros [x|e]; eexists; reflexivity).
    etransitivity; [exact (IH (n - len (ptl_call env pu o) s)%nat (fst (alone (ptl_call env pu o) s)))|].
    unfold tl_calls at 2. cbn [fold_left]. rewrite alone_tl_call. reflexivity.
  - rewrite ahead_catch_lt by exact H. unfold o. rewrite assign_used by exact H. reflexivity.
Qed.
End Far.

(** ** The theorem *)
Section During.
Context (env : Env) (pu : string -> option (Qty env)).
Notation TL := (TL env).
Lemma gtraj_ext (Q Q' : nat -> nat -> TL) F : (forall j i, tl_used env (Q j i) = tl_used env (Q' j i)) ->
  (forall n, gtraj env Q F n = gtraj env Q' F n) /\ forall n, gR env Q F n = gR env Q' F n.
Proof.
  intros H.
  assert (E : forall j i, tl_delta_t_mag env (Q j i) = tl_delta_t_mag env (Q' j i) /\ tl_lambda0_mag env (Q j i) = tl_lambda0_mag env (Q' j i) /\
              tl_a_mag env (Q j i) = tl_a_mag env (Q' j i) /\ tl_efficacy_mag env (Q j i) = tl_efficacy_mag env (Q' j i) /\
              tl_eta_mag env (Q j i) = tl_eta_mag env (Q' j i) /\ tl_hcu_mag env (Q j i) = tl_hcu_mag env (Q' j i) /\
              tl_hcl_mag env (Q j i) = tl_hcl_mag env (Q' j i)).
  { intros j i. specialize (H j i). unfold tl_used in H. injection H as H1 H2 H3 H4 H5 H6 H7. repeat split; assumption. }
  assert (T : forall n, gtraj env Q F n = gtraj env Q' F n).
  { induction n as [|n IH]; [reflexivity|]. cbn [gtraj]. rewrite IH.
    destruct (E n 0%nat) as (-> & _). destruct (E n 1%nat) as (_ & -> & _). destruct (E n 2%nat) as (_ & _ & -> & _).
    destruct (E n 3%nat) as (_ & _ & _ & -> & _). destruct (E n 4%nat) as (_ & _ & _ & _ & -> & _).
    destruct (E n 5%nat) as (_ & _ & _ & _ & _ & -> & _). destruct (E n 6%nat) as (-> & _).
    destruct (E n 7%nat) as (_ & _ & _ & _ & -> & _). destruct (E n 8%nat) as (_ & _ & _ & _ & _ & _ & ->). reflexivity. }
  split; [exact T|]. intros [|n]; [reflexivity|]. cbn [gR]. unfold gU, gL. rewrite !T.
  destruct (E n 9%nat) as (-> & _). destruct (E n 11%nat) as (_ & _ & _ & _ & _ & -> & _). destruct (E n 10%nat) as (_ & _ & _ & _ & _ & _ & ->).
  reflexivity.
Qed.
Lemma stepwise_fill (Q P : nat -> nat -> TL) F n x : (forall j i, tl_used env (Q j i) = tl_used env (P j i)) ->
  tl_temp_upper env x = fill (nnan env) (gU env Q F) n n -> tl_temp_lower env x = fill (nnan env) (gL env Q F) n n ->
  tl_rndt env x = fill (nnan env) (gR env Q F) n n -> stepwise env P F n x.
Proof.
  intros H HU HL HR. destruct (gtraj_ext Q P F H) as [E1 E2].
  assert (N : forall (f : nat -> num env) k, (k < n)%nat -> entry env (fill (nnan env) f n n) k = f k).
  { intros f k Hk. unfold entry. erewrite nth_error_nth; [reflexivity|]. apply fill_nth_lt, Hk. }
  unfold stepwise. rewrite HU, HL, HR, !fill_length by lia. split; [reflexivity|]. split; [reflexivity|]. split; [reflexivity|]. split.
  - intros Hn. rewrite !N by exact Hn. split; [reflexivity|]. split; reflexivity.
  - intros j Hj. rewrite !N by lia. rewrite !E2. unfold gU, gL. rewrite !E1. split; [reflexivity|]. split; reflexivity.
Qed.
Lemma reset_glue sA X e m : existsb (nisnan env) (mags e) = false ->
  tl_erf env sA = Some e -> tl_erf_mag env sA = Some m -> tl_erf env X = Some e -> tl_erf_mag env X = Some m ->
  tl_reset env (glue env sA X) = tl_reset env X.
Proof.
  intros Hn H1 H2 H3 H4. destruct X, sA. cbn in H1, H2, H3, H4. subst. unfold tl_reset, mbind, mread, glue.
  cbn [tl_erf]. rewrite Hn. reflexivity.
Qed.
Lemma offs_mono i : (i < 11)%nat -> (offs i <= offs (S i))%nat.
Proof. intros H. do 11 (destruct i as [|i]; [cbn; lia|]). lia. Qed.
Lemma mono_le (t : nat -> nat) : (forall k, (t k <= t (S k))%nat) -> forall i j, (i <= j)%nat -> (t i <= t j)%nat.
Proof. intros H i j L. induction L as [|j L IH]; [lia|]. specialize (H j). lia. Qed.
Lemma within_params l : within (tl_part env) params (ptl_thread env pu (tl_assigning env l)).
Proof.
  apply (within_weaken (tl_part env) (tp_sym env) (tp_trans env) (assigned env l)).
  - intros x (p & -> & _). discriminate.
  - intros x. apply assigned_dec.
  - apply within_assigning.
Qed.
End During.

(** A run in one thread while another assigns parameters: whatever the order in which
    the two act, the run ends normally; the series are Euler steps, and every number in them is the one
    in effect after some first part of the assignments, more and more of them as the
    run goes on.  When both have ended the object is, except for the results, as after
    the assignments. *)
Theorem c68_assign_during_run : forall (env : Env) parse_unit s e s1 s2 l sched,
  tl_set_drivers env (EQ1 e) s = (s1, Ok tt) -> tl_reset env s1 = (s2, Ok tt) ->
  let ops := tl_assigning env l in
  let x := play sched (s2, [ptl_thread env parse_unit [TRun env]; ptl_thread env parse_unit ops]) in
  forall y, ended x 0 y ->
  y = Ok [Ok []] /\
  (exists F r, to_mags env e u_Wm2 = Ok F /\ in_order r /\ (forall j i, (r j i <= List.length l)%nat) /\
     stepwise env (fun j i => tl_calls env parse_unit (firstn (r j i) ops) s2) (entry env F) (List.length F) (fst x)) /\
  (finished x -> tl_reset env (fst x) = tl_reset env (tl_calls env parse_unit ops s2) /\
                 ended x 1 (Ok (tl_outcomes env parse_unit ops s2))).
Proof.
  intros env pu s e s1 s2 l sched H1 H2 ops x y Hy.
  destruct (same_dim_dec env (aunits e) u_Wm2) as [D|D].
  2:{ cbn [tl_set_drivers] in H1. rewrite set_erf_err in H1 by exact D. discriminate. }
  apply to_mags_ok_iff in D as [m Hm].
  destruct (existsb (nisnan env) (mags e)) eqn:Hn.
  { cbn [tl_set_drivers] in H1. rewrite (set_erf_ok env s e m Hm) in H1. injection H1 as <-.
    rewrite (reset_nan env _ e) in H2 by (auto; reflexivity). discriminate. }
  pose proof (set_reset_ok env s e m Hm Hn) as E. unfold mbind in E. rewrite H1, H2 in E. injection E as E2.
  pose proof (to_mags_length env e _ m Hm) as Hl.
  set (t0 := with_erf env s (Some e) (Some m)) in *.
  assert (F2 : filled env t0 m 0 = with_run env t0 None (repeat (nnan env) (List.length m)) (repeat (nnan env) (List.length m)) (repeat (nnan env) (List.length m)))
    by (unfold filled; rewrite !fill_0; reflexivity).
  assert (Hr : tl_erf_len env t0 = List.length m) by (cbn; lia).
  set (B := ptl_thread env pu ops) in *. set (b := fun n => fst (ahead n B s2)).
  assert (G : s2 = glue env s2 (b 0%nat)). { unfold b. destruct B; cbn [ahead fst]; destruct s2; reflexivity. }
  pose proof (two_threads env b B s2 (within_params env pu l) (fun n => eq_refl) sched (ptl_thread env pu [TRun env]) 0%nat s2 y
                (keeps_run_thread env pu)) as T. cbv zeta in T.
  assert (Gx : play sched (glue env s2 (b 0%nat), [ptl_thread env pu [TRun env]; snd (ahead 0 B s2)]) = x).
  { rewrite <- G. unfold x. destruct B; reflexivity. }
  rewrite Gx in T. destruct (T Hy) as (t & T1 & _ & sA & T2 & nB & T3 & T4). clear T.
  pose proof (follow_run_thread env pu b t0 m t eq_refl Hr) as W. cbv zeta in W. rewrite <- F2, <- E2 in W.
  rewrite W in T2. injection T2 as TA <-.
  split; [reflexivity|]. split.
  - exists m, (fun j i => passed env pu ops (t (when_read j i)) s2). split; [exact Hm|]. split; [split|split].
    + intros j i Hi. apply passed_mono, (mono_le t T1). unfold when_read. pose proof (offs_mono i Hi). lia.
    + intros j. apply passed_mono, (mono_le t T1). unfold when_read. cbn [offs nth]. lia.
    + intros j i. etransitivity; [apply passed_le|]. unfold ops, tl_assigning. rewrite map_length. lia.
    + rewrite T3, <- TA. eapply stepwise_fill; [|reflexivity|reflexivity|reflexivity].
      intros j i. unfold b, B, ops. apply thread_used.
  - intros Fin.
    destruct (Fin (snd (ahead nB B s2))) as (r & Er); [eapply nth_error_In, T4|].
    assert (EB : ahead nB B s2 = (tl_calls env pu ops s2, Done (Ok (tl_outcomes env pu ops s2)))).
    { destruct (le_lt_dec (len B s2) nB) as [L|L]; [rewrite ahead_len by exact L; unfold B; rewrite alone_tl_thread; reflexivity|].
      exfalso. clear -Er L. revert nB Er L. generalize s2 as z. induction B as [r'|w k IH]; intros z nB Er L; cbn [len] in L; [lia|].
      destruct nB; [cbn in Er; discriminate|]. cbn [ahead] in Er. eapply IH; [exact Er|lia]. }
    split.
    + rewrite T3, <- TA. unfold b. rewrite EB. cbn [fst].
      assert (K : tl_part env None (tl_calls env pu ops s2) s2).
      { pose proof (within_alone (tl_part env) (tp_refl env) (tp_trans env) params B s2 s2 (within_params env pu l) (fun x _ => tp_refl env x s2)) as (_ & _ & K).
        unfold B in K. rewrite alone_tl_thread in K. apply K. intros N. apply N. reflexivity. }
      rewrite E2 in K at 2. apply (reset_glue env _ _ e m); try reflexivity; [exact Hn|..]; cbn in K; inversion K; reflexivity.
    + unfold ended. rewrite T4, EB. reflexivity.
Qed.

(** ** One assignment *)
Lemma in_order_step r i : in_order r -> (i < 12)%nat -> forall j, (r j i <= r (S j) i)%nat.
Proof.
  intros [H1 H2] Hi j.
  assert (A : forall a c, (a <= c)%nat -> (c <= 11)%nat -> forall j, (r j a <= r j c)%nat).
  { intros a c L. induction L as [|c L IH]; intros Hc j'; [lia|]. specialize (IH ltac:(lia) j'). specialize (H1 j' c ltac:(lia)). lia. }
  pose proof (A i 11%nat ltac:(lia) ltac:(lia) j). pose proof (A 0%nat i ltac:(lia) ltac:(lia) (S j)). specialize (H2 j). lia.
Qed.
Lemma switch_at (f : nat -> nat) : (forall j, (f j <= f (S j))%nat) -> (forall j, (f j <= 1)%nat) -> forall n,
  exists k, forall j, (j < n)%nat -> f j = if (j <? k)%nat then 0%nat else 1%nat.
Proof.
  intros H1 H2 n. induction n as [|n (k & IH)]; [exists 0%nat; intros; lia|].
  destruct (f n) as [|[|x]] eqn:E; [| |specialize (H2 n); lia].
  - exists (S n). intros j Hj. assert (f j <= f n)%nat by (apply (mono_le f H1); lia). destruct (Nat.ltb_spec j (S n)); lia.
  - exists (Nat.min k n). intros j Hj. destruct (Nat.eq_dec j n) as [->|N].
    + rewrite E. destruct (Nat.ltb_spec n (Nat.min k n)); lia.
    + rewrite IH by lia. destruct (Nat.ltb_spec j k), (Nat.ltb_spec j (Nat.min k n)); lia.
Qed.

(** When one of lambda0, a and efficacy is assigned during a run, there is a step from
    which on the run uses the new value, and it used the old one before: no step mixes
    the two. *)
Theorem c68_one_assignment : forall (env : Env) parse_unit s e s1 s2 p v sched,
  tl_set_drivers env (EQ1 e) s = (s1, Ok tt) -> tl_reset env s1 = (s2, Ok tt) ->
  p = Plambda0 \/ p = Pa \/ p = Pefficacy ->
  let ops := tl_assigning env [(p, v)] in
  let x := play sched (s2, [ptl_thread env parse_unit [TRun env]; ptl_thread env parse_unit ops]) in
  forall y, ended x 0 y ->
  exists F k, to_mags env e u_Wm2 = Ok F /\
    stepwise env (fun j _ => if (j <? k)%nat then s2 else tl_calls env parse_unit ops s2) (entry env F) (List.length F) (fst x).
Proof.
  intros env pu s e s1 s2 p v sched H1 H2 Hp ops x y Hy.
  destruct (c68_assign_during_run env pu s e s1 s2 [(p, v)] sched H1 H2 y Hy) as (_ & (F & r & HF & O & L & W) & _).
  cbv zeta in W. fold ops x in W. exists F. cbn [List.length] in L.
  set (i0 := match p with Plambda0 => 1%nat | Pa => 2%nat | _ => 3%nat end).
  destruct (switch_at (fun j => r j i0) (in_order_step r i0 O ltac:(unfold i0; destruct p; lia)) (fun j => L j i0) (List.length F)) as (k & Hk).
  exists k. split; [exact HF|]. unfold stepwise in W |- *. destruct W as (L1 & L2 & L3 & Z & W).
  split; [exact L1|]. split; [exact L2|]. split; [exact L3|]. split; [exact Z|].
  intros j Hj. specialize (W j Hj). specialize (Hk j ltac:(lia)). cbv zeta in W.
  assert (K : forall i, firstn (r j i) ops = [] \/ firstn (r j i) ops = ops).
  { intros i. specialize (L j i). destruct (r j i) as [|[|q]]; [left|right|lia]; reflexivity. }
  assert (K0 : forall (A : Type) (g : TL env -> A), g (tl_calls env pu ops s2) = g s2 ->
             forall i c, g (tl_calls env pu (firstn (r j i) ops) s2) = g (if (j <? c)%nat then s2 else tl_calls env pu ops s2)).
  { intros A g E i c. destruct (K i) as [-> | ->]; destruct (j <? c)%nat; cbn [tl_calls fold_left]; congruence. }
  assert (K1 : forall (A : Type) (g : TL env -> A),
             g (tl_calls env pu (firstn (r j i0) ops) s2) = g (if (j <? k)%nat then s2 else tl_calls env pu ops s2)).
  { intros A g. rewrite Hk. destruct (j <? k)%nat; reflexivity. }
  assert (U : forall z, tl_delta_t_mag env (tl_calls env pu ops z) = tl_delta_t_mag env z /\
                tl_eta_mag env (tl_calls env pu ops z) = tl_eta_mag env z /\ tl_hcu_mag env (tl_calls env pu ops z) = tl_hcu_mag env z /\
                tl_hcl_mag env (tl_calls env pu ops z) = tl_hcl_mag env z /\
                (p <> Plambda0 -> tl_lambda0_mag env (tl_calls env pu ops z) = tl_lambda0_mag env z) /\
                (p <> Pa -> tl_a_mag env (tl_calls env pu ops z) = tl_a_mag env z) /\
                (p <> Pefficacy -> tl_efficacy_mag env (tl_calls env pu ops z) = tl_efficacy_mag env z)).
  { intros z. unfold ops, tl_calls, tl_assigning. destruct Hp as [-> | [-> | ->]]; cbn [map fst snd fold_left tl_call];
      unfold tl_set_lambda0, tl_set_a, tl_set_efficacy, mbind, mread, mmod, mret; destruct (assert_quantity env v _); cbn [fst snd];
      try (destruct (to_mag env _ _)); repeat split; try reflexivity; intros N; contradiction N; reflexivity. }
  destruct (U s2) as (U1 & U2 & U3 & U4 & U5 & U6 & U7).
  destruct W as (W1 & W2 & W3). rewrite W1, W2, W3 at 1.
  rewrite !(K0 _ (tl_delta_t_mag env) U1 _ k), !(K0 _ (tl_eta_mag env) U2 _ k), !(K0 _ (tl_hcu_mag env) U3 _ k), !(K0 _ (tl_hcl_mag env) U4 _ k).
  assert (V1 : tl_lambda0_mag env (tl_calls env pu (firstn (r j 1%nat) ops) s2) = tl_lambda0_mag env (if (j <? k)%nat then s2 else tl_calls env pu ops s2)).
  { destruct Hp as [E|E]; [subst p; apply (K1 _ (tl_lambda0_mag env))|apply K0, U5; destruct E as [-> | ->]; discriminate]. }
  assert (V2 : tl_a_mag env (tl_calls env pu (firstn (r j 2%nat) ops) s2) = tl_a_mag env (if (j <? k)%nat then s2 else tl_calls env pu ops s2)).
  { destruct Hp as [E|[E|E]]; subst p; [apply K0, U6; discriminate|apply (K1 _ (tl_a_mag env))|apply K0, U6; discriminate]. }
  assert (V3 : tl_efficacy_mag env (tl_calls env pu (firstn (r j 3%nat) ops) s2) = tl_efficacy_mag env (if (j <? k)%nat then s2 else tl_calls env pu ops s2)).
  { destruct Hp as [E|[E|E]]; subst p; [apply K0, U7; discriminate..|apply (K1 _ (tl_efficacy_mag env))]. }
  rewrite V1, V2, V3. split; [reflexivity|]. split; reflexivity.
Qed.

(** ** Cases *)
Ltac vmrefl := match goal with |- _ = ?y => exact_no_check (eq_refl y) end.
Definition demo_three : QArr demo := mkQA (env := demo) [Some 1; Some 2; Some 3] u_Wm2.
Notation demo_ready := (fst (tl_reset demo (fst (tl_set_drivers demo (EQ1 demo_three) demo_tl)))).
Definition new_eta : PyVal demo := PQ (mkQty demo (1 # 2) u_Wm2C).
Definition new_lambda0 : PyVal demo := PQ (mkQty demo 4 u_Wm2C).
Definition other_lambda0 : PyVal demo := PQ (mkQty demo 3 u_Wm2C).
(** Two threads in turn. *)
Definition in_alternation (n : nat) : list nat := flat_map (fun _ => [0; 1]%nat) (seq 0 n).
Lemma both_finished {S A} (x : S * list (Prog S A)) r0 r1 : snd x = [Done r0; Done r1] -> finished x.
Proof. intros E p. rewrite E. intros [<-|[<-|[]]]; eexists; reflexivity. Qed.

(** A two-layer and an impulse-response object driven by two threads in turn. *)
Definition demo_workers : list (Worker demo) :=
  [OnTL demo 0 [TSetDrivers demo (EQ1 demo_short); TReset demo; TRun demo];
   OnIR demo 0 [ISetDrivers demo (EQ1 demo_short); IReset demo; IRun demo]].
Notation demo_driven := (play (in_alternation 120) ((fun _ => demo_tl, fun _ => demo_ir) : Memory demo, map (worker_thread demo demo_parse) demo_workers)).
Example c68_different_objects_case :
  NoDup (map (object_of demo) demo_workers) /\ finished demo_driven /\
  tl_temp_upper demo (fst (fst demo_driven) 0%nat) = ([Some 0; Some (78894 # 522625)] : list (num demo)) /\
  ir_temp1 demo (snd (fst demo_driven) 0%nat) = ([Some 0; Some (3 # 1090)] : list (num demo)).
Proof.
  split; [repeat constructor; cbn; intuition discriminate|]. split; [|split; vmrefl].
  apply (both_finished _ (Ok [Ok []; Ok []; Ok []]) (Ok [Ok []; Ok []; Ok []])). vmrefl.
Qed.

(** Two threads assign lambda0 and eta in turn. *)
Notation demo_pair := [[(Plambda0, new_lambda0)]; [(Peta, new_eta)]].
Notation demo_assigned := (play [0; 1; 1; 0]%nat (demo_tl, map (fun l => ptl_thread demo demo_parse (tl_assigning demo l)) demo_pair)).
Example c68_parameters_case :
  separate demo_pair /\ finished demo_assigned /\
  mag (tl_lambda0 demo (fst demo_assigned)) = (Some 4 : num demo) /\ mag (tl_eta demo (fst demo_assigned)) = (Some (1 # 2) : num demo).
Proof.
  split; [|split; [|split; vmrefl]].
  - intros i j li lj p N Hi Hj. destruct i as [|[|[|i]]], j as [|[|[|j]]]; cbn in Hi, Hj; try discriminate; try congruence;
      injection Hi as <-; injection Hj as <-; cbn; intuition congruence.
  - apply (both_finished _ (Ok [Ok []]) (Ok [Ok []])). vmrefl.
Qed.
(** The condition matters: if both assign lambda0, the object may show one value and
    run with the other. *)
Notation demo_same := (play [0; 1; 1; 0]%nat (demo_tl, map (fun l => ptl_thread demo demo_parse (tl_assigning demo l))
                         [[(Plambda0, new_lambda0)]; [(Plambda0, other_lambda0)]])).
Example c68_same_parameter_case :
  finished demo_same /\ mag (tl_lambda0 demo (fst demo_same)) = (Some 3 : num demo) /\
  tl_lambda0_mag demo (fst demo_same) = (Some 4 : num demo).
Proof. split; [|split; vmrefl]. apply (both_finished _ (Ok [Ok []]) (Ok [Ok []])). vmrefl. Qed.

(** lambda0 assigned in the second step of a run. *)
Notation demo_during := (play (repeat 0%nat 40 ++ [1; 1]%nat ++ repeat 0%nat 30)
  (demo_ready, [ptl_thread demo demo_parse [TRun demo]; ptl_thread demo demo_parse (tl_assigning demo [(Plambda0, new_lambda0)])])).
Example c68_during_case :
  snd (tl_set_drivers demo (EQ1 demo_three) demo_tl) = Ok tt /\
  snd (tl_reset demo (fst (tl_set_drivers demo (EQ1 demo_three) demo_tl))) = Ok tt /\
  ended demo_during 0 (Ok [Ok []]) /\ finished demo_during /\
  tl_temp_upper demo (fst demo_during) <> tl_temp_upper demo (fst (tl_run demo demo_ready)).
Proof.
  split; [vmrefl|]. split; [vmrefl|]. split; [unfold ended; vmrefl|]. split.
  - apply (both_finished _ (Ok [Ok []]) (Ok [Ok []])). vmrefl.
  - intros E. apply (f_equal (fun l : list (num demo) => match nth 2 l None with Some q => Qeq_bool q (2736059185989 # 6828422265625) | None => false end)) in E.
    assert (E1 : match nth 2 (tl_temp_upper demo (fst (tl_run demo demo_ready))) None with Some q => Qeq_bool q (2736059185989 # 6828422265625) | None => false end = true) by vmrefl.
    assert (E2 : match nth 2 (tl_temp_upper demo (fst demo_during)) None with Some q => Qeq_bool q (2736059185989 # 6828422265625) | None => false end = false) by vmrefl.
    rewrite E1 in E. rewrite E2 in E. clear E1 E2. discriminate E.
Qed.
(** eta is read twice in a step: assigned in between, the upper layer is that of a run
    with the old value and the lower layer that of a run with the new one. *)
Notation demo_torn := (play (repeat 0%nat 50 ++ [1; 1]%nat ++ repeat 0%nat 13)
  (demo_ready, [ptl_thread demo demo_parse [TRun demo]; ptl_thread demo demo_parse (tl_assigning demo [(Peta, new_eta)])])).
Example c68_torn_step_case :
  finished demo_torn /\
  tl_temp_upper demo (fst demo_torn) = ([Some 0; Some (78894 # 522625); Some (2736059185989 # 6828422265625)] : list (num demo)) /\
  tl_temp_upper demo (fst (tl_run demo demo_ready)) = ([Some 0; Some (78894 # 522625); Some (2736059185989 # 6828422265625)] : list (num demo)) /\
  tl_temp_lower demo (fst demo_torn) = ([Some 0; Some 0; Some (518688603 # 1092547562500)] : list (num demo)) /\
  tl_temp_lower demo (fst (tl_run demo (fst (tl_set_eta demo new_eta demo_ready)))) = ([Some 0; Some 0; Some (518688603 # 1092547562500)] : list (num demo)) /\
  tl_temp_lower demo (fst (tl_run demo demo_ready)) = ([Some 0; Some 0; Some (1037377206 # 1365684453125)] : list (num demo)).
Proof.
  split; [|repeat split; vmrefl]. apply (both_finished _ (Ok [Ok []]) (Ok [Ok []])). vmrefl.
Qed.
(** Two runs of one object: the second takes over after the first step of the first, and
    both raise IndexError. *)
Notation demo_both := (play (repeat 0%nat 7 ++ repeat 1%nat 100 ++ repeat 0%nat 100)
  (demo_ready, [ptl_thread demo demo_parse [TRun demo]; ptl_thread demo demo_parse [TRun demo]])).
Example c68_two_runs_case :
  ended demo_both 0 (Ok [Err IndexError]) /\ ended demo_both 1 (Ok [Err IndexError]).
Proof. split; unfold ended; vmrefl. Qed.
