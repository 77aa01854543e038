(** Property C68, continued: parameters of an impulse-response model assigned while a run goes on. *)
From Coq Require Import List String QArith ZArith Bool Arith Lia.
From Verif Require Import Arith Pint Base TwoLayer Impulse Scm Api Spec Demo GenTL GenIR FactsInterrupt Threads SpecThreads ThreadsProof NonInterf
  FactsThreads ThreadRun FactsThreadRun ThreadRunIR.
Import ListNotations.

Section Used.
Variable env : Env.
(** Numbers the temperatures of a run use. *)
Definition ir_used (s : IR env) :=
  (ir_delta_t_mag env s, ir_q1_mag env s, ir_d1_mag env s, ir_q2_mag env s, ir_d2_mag env s).
End Used.

Section Far.
Context (env : Env) (pu : string -> option (Qty env)).
Notation IR := (IR env).
Fixpoint ir_passed (ops : list (IROp env)) (n : nat) (s : IR) : nat :=
  match ops with
  | [] => 0%nat
  | o :: r => let p := pir_call env pu o in
              if (len p s <=? n)%nat then S (ir_passed r (n - len p s) (fst (alone p s))) else 0%nat
  end.
Lemma ir_passed_mono ops : forall n m s, (n <= m)%nat -> (ir_passed ops n s <= ir_passed ops m s)%nat.
Proof.
  induction ops as [|o r IH]; intros n m s H; cbn [ir_passed]; [lia|].
  destruct (Nat.leb_spec (len (pir_call env pu o) s) n), (Nat.leb_spec (len (pir_call env pu o) s) m); try lia.
  apply le_n_S, IH. lia.
Qed.
Lemma ir_passed_le ops : forall n s, (ir_passed ops n s <= List.length ops)%nat.
Proof. induction ops as [|o r IH]; intros n s; cbn; [lia|]. destruct (_ <=? _)%nat; [apply le_n_S, IH|lia]. Qed.

Lemma ir_assign_used p v s n : let o := hd (IReset env) (ir_assigning env [(p, v)]) in
  (n < len (pir_call env pu o) s)%nat -> ir_used env (fst (ahead n (pir_call env pu o) s)) = ir_used env s.
Proof.
  destruct p; cbn [ir_assigning map fst snd hd pir_call]; unfold pnone;
    unfold pir_set_q1, pir_set_q2, pir_set_d1, pir_set_d2, pir_set_efficacy, pir_set_delta_t, pval;
    (destruct (assert_quantity env v _) as [q|e]; cbn [pbind len]; [|lia]);
    (destruct (to_mag env q _) as [mg|e]; cbn [pbind len pwrite pread patom ahead fst snd mmod mread];
      [|intros H; destruct n as [|[|n]]; [reflexivity|cbn in H; lia..]]);
    (intros H; destruct n as [|[|[|n]]]; [reflexivity|reflexivity|cbn in H; lia..]).
Qed.
Lemma ir_thread_used l : forall n s,
  ir_used env (fst (ahead n (pir_thread env pu (ir_assigning env l)) s)) =
  ir_used env (ir_calls env pu (firstn (ir_passed (ir_assigning env l) n s) (ir_assigning env l)) s).
Proof.
  induction l as [|[p v] l IH]; intros n s; [destruct n; reflexivity|].
  change (ir_assigning env ((p, v) :: l)) with (hd (IReset env) (ir_assigning env [(p, v)]) :: ir_assigning env l).
  set (o := hd (IReset env) (ir_assigning env [(p, v)])). unfold pir_thread. cbn [pcalls ir_passed].
  destruct (Nat.leb_spec (len (pir_call env pu o) s) n) as [H|H].
  - rewrite ahead_catch_ge by exact H. cbn [firstn].
    rewrite ahead_catch_done by (intros [x|e]; eexists; reflexivity).
    etransitivity; [exact (IH (n - len (pir_call env pu o) s)%nat (fst (alone (pir_call env pu o) s)))|].
    unfold ir_calls at 2. cbn [fold_left]. rewrite alone_ir_call. reflexivity.
  - rewrite ahead_catch_lt by exact H. unfold o. rewrite ir_assign_used by exact H. reflexivity.
Qed.
End Far.

Section During.
Context (env : Env) (pu : string -> option (Qty env)).
Notation IR := (IR env).
Lemma box_stepwise_inv (Q P : nat -> nat -> IR) F n x : (forall j i, ir_used env (Q j i) = ir_used env (P j i)) ->
  box_inv env Q F n n (ir_temp1 env x) (ir_temp2 env x) -> box_stepwise env P F n x.
Proof.
  intros H (L1 & L2 & Z & W). unfold box_stepwise. split; [exact L1|]. split; [exact L2|]. split; [exact Z|].
  assert (E : forall j i, ir_delta_t_mag env (Q j i) = ir_delta_t_mag env (P j i) /\ ir_q1_mag env (Q j i) = ir_q1_mag env (P j i) /\
              ir_d1_mag env (Q j i) = ir_d1_mag env (P j i) /\ ir_q2_mag env (Q j i) = ir_q2_mag env (P j i) /\
              ir_d2_mag env (Q j i) = ir_d2_mag env (P j i)).
  { intros j i. specialize (H j i). unfold ir_used in H. injection H as H1 H2 H3 H4 H5. repeat split; assumption. }
  intros j Hj. specialize (W j Hj).
  destruct (E j 0%nat) as (<- & _). destruct (E j 1%nat) as (_ & <- & _). destruct (E j 2%nat) as (_ & _ & <- & _).
  destruct (E j 3%nat) as (<- & _). destruct (E j 4%nat) as (_ & _ & _ & <- & _). destruct (E j 5%nat) as (_ & _ & _ & _ & <-).
  exact W.
Qed.
Lemma ireset_glue sA X e m : existsb (nisnan env) (mags e) = false ->
  ir_erf env sA = Some e -> ir_erf_mag env sA = Some m -> ir_erf env X = Some e -> ir_erf_mag env X = Some m ->
  ir_reset env (iglue env sA X) = ir_reset env X.
Proof.
  intros Hn H1 H2 H3 H4. destruct X, sA. cbn in H1, H2, H3, H4. subst. unfold ir_reset, mbind, mread, iglue.
  cbn [ir_erf]. rewrite Hn. reflexivity.
Qed.
Lemma ioffs_mono i : (i < 5)%nat -> (ioffs i <= ioffs (S i))%nat.
Proof. intros H. do 5 (destruct i as [|i]; [cbn; lia|]). lia. Qed.
Lemma within_iparams l : within (ir_part env) iparams (pir_thread env pu (ir_assigning env l)).
Proof.
  apply (within_weaken (ir_part env) (ip_sym env) (ip_trans env) (ir_assigned env l)).
  - intros x (p & -> & _). discriminate.
  - intros x. apply ir_assigned_dec.
  - apply within_ir_assigning.
Qed.
End During.

Lemma play_length {S A} sched : forall x : S * list (Prog S A), List.length (snd (play sched x)) = List.length (snd x).
Proof.
  induction sched as [|i sched IH]; intros [s ps]; [reflexivity|]. cbn [play]. rewrite IH. unfold turn.
  destruct (nth_error ps i) as [[r|w k]|] eqn:E; try reflexivity. cbn [snd]. apply put_length. eapply nth_error_Some_lt, E.
Qed.

(** The same for the impulse-response model: if the run ends normally, every number in the
    steps of its temperatures is the one in effect after some first part of the
    assignments, more and more of them as the run goes on.  When both threads have ended
    the object is, except for the results, as after the assignments. *)
Theorem c68_impulse_response_assign_during_run : forall (env : Env) parse_unit s e s1 s2 l sched,
  ir_set_drivers env (EQ1 e) s = (s1, Ok tt) -> ir_reset env s1 = (s2, Ok tt) ->
  let ops := ir_assigning env l in
  let x := play sched (s2, [pir_thread env parse_unit [IRun env]; pir_thread env parse_unit ops]) in
  (ended x 0 (Ok [Ok []]) ->
   exists F r, to_mags env e u_Wm2 = Ok F /\ box_order r /\ (forall j i, (r j i <= List.length l)%nat) /\
     box_stepwise env (fun j i => ir_calls env parse_unit (firstn (r j i) ops) s2) (entry env F) (List.length F) (fst x)) /\
  (finished x -> ir_reset env (fst x) = ir_reset env (ir_calls env parse_unit ops s2) /\
                 ended x 1 (Ok (ir_outcomes env parse_unit ops s2))).
Proof.
  intros env pu s e s1 s2 l sched H1 H2 ops x.
  destruct (same_dim_dec env (aunits e) u_Wm2) as [D|D].
  2:{ cbn [ir_set_drivers] in H1. rewrite iset_erf_err in H1 by exact D. discriminate. }
  apply to_mags_ok_iff in D as [m Hm].
  destruct (existsb (nisnan env) (mags e)) eqn:Hn.
  { cbn [ir_set_drivers] in H1. rewrite (iset_erf_ok env s e m Hm) in H1. injection H1 as <-.
    rewrite (ireset_nan env _ e) in H2 by (auto; reflexivity). discriminate. }
  pose proof (to_mags_length env e _ m Hm) as Hl.
  cbn [ir_set_drivers] in H1. rewrite (iset_erf_ok env s e m Hm) in H1. injection H1 as <-.
  set (t0 := iwith_erf env s (Some e) (Some m)) in *.
  rewrite (ireset_ok env t0 e m eq_refl eq_refl Hn) in H2. injection H2 as E2. symmetry in E2.
  assert (Hr : ir_erf_len env t0 = List.length m) by (cbn; lia).
  set (B := pir_thread env pu ops) in *. set (b := fun n => fst (ahead n B s2)).
  assert (G : s2 = iglue env s2 (b 0%nat)). { unfold b. destruct B; cbn [ahead fst]; destruct s2; reflexivity. }
  pose proof (two_threads env b B s2 (within_iparams env pu l) (fun n => eq_refl) sched (pir_thread env pu [IRun env]) 0%nat s2) as T.
  assert (Gx : play sched (iglue env s2 (b 0%nat), [pir_thread env pu [IRun env]; snd (ahead 0 B s2)]) = x).
  { rewrite <- G. unfold x. destruct B; reflexivity. }
  cbv zeta in T. rewrite Gx in T.
  assert (T' : forall r, ended x 0 r -> exists t, (forall k, (t k <= t (S k))%nat) /\ exists sA',
             fst (ifollow env b (pir_thread env pu [IRun env]) t 0 s2) = (sA', r) /\
             exists nB', fst x = iglue env sA' (b nB') /\ nth_error (snd x) 1 = Some (snd (ahead nB' B s2))).
  { intros r Hy. destruct (T r (ikeeps_run_thread env pu) Hy) as (t & T1 & _ & T2). exists t. split; [exact T1|exact T2]. }
  clear T. split.
  - intros Hy. destruct (T' _ Hy) as (t & T1 & sA & T2 & nB & T3 & T4). rewrite E2 in T2.
    destruct (ifollow_run_thread env pu b t0 m t sA eq_refl Hr T2) as (U & L & R & -> & I).
    exists m, (fun j i => ir_passed env pu ops (t (iwhen_read j i)) s2). split; [exact Hm|]. split; [split|split].
    + intros j i Hi. apply ir_passed_mono, (mono_le t T1). unfold iwhen_read. pose proof (ioffs_mono i Hi). lia.
    + intros j. apply ir_passed_mono, (mono_le t T1). unfold iwhen_read. cbn [ioffs nth]. lia.
    + intros j i. etransitivity; [apply ir_passed_le|]. unfold ops, ir_assigning. rewrite map_length. lia.
    + rewrite T3. eapply box_stepwise_inv; [|exact I]. intros j i. unfold b, B, ops. apply ir_thread_used.
  - intros Fin.
    assert (Hlen : List.length (snd x) = 2%nat) by (unfold x; apply (play_length sched (s2, [_; _]))).
    destruct (snd x) as [|p0 ps] eqn:Ep; [discriminate|].
    destruct (Fin p0) as (y & ->); [rewrite Ep; left; reflexivity|].
    destruct (T' y) as (t & _ & sA & T2 & nB & T3 & T4); [unfold ended; rewrite Ep; reflexivity|]. rewrite <- Ep in T4.
    destruct (Fin (snd (ahead nB B s2))) as (r & Er); [eapply nth_error_In, T4|].
    assert (EB : ahead nB B s2 = (ir_calls env pu ops s2, Done (Ok (ir_outcomes env pu ops s2)))).
    { destruct (le_lt_dec (len B s2) nB) as [L|L]; [rewrite ahead_len by exact L; unfold B; rewrite alone_ir_thread; reflexivity|].
      exfalso. clear -Er L. revert nB Er L. generalize s2 as z. induction B as [r'|w k IH]; intros z nB Er L; cbn [len] in L; [lia|].
      destruct nB; [cbn in Er; discriminate|]. cbn [ahead] in Er. eapply IH; [exact Er|lia]. }
    split.
    + rewrite T3. unfold b. rewrite EB. cbn [fst].
      assert (K : ir_part env None (ir_calls env pu ops s2) s2).
      { pose proof (within_alone (ir_part env) (ip_refl env) (ip_trans env) iparams B s2 s2 (within_iparams env pu l) (fun x _ => ip_refl env x s2)) as (_ & _ & K).
        unfold B in K. rewrite alone_ir_thread in K. apply K. intros N. apply N. reflexivity. }
      pose proof (ifollow_stays env b _ t 0 s2 (istays_run_thread env pu)) as S1. rewrite T2 in S1. cbn [fst] in S1.
      rewrite E2 in K at 2. rewrite E2 in S1. cbn in K. inversion S1. inversion K.
      apply (ireset_glue env _ _ e m); try assumption.
    + unfold ended. rewrite T4, EB. reflexivity.
Qed.

Lemma box_order_step r i : box_order r -> (i < 6)%nat -> forall j, (r j i <= r (S j) i)%nat.
Proof.
  intros [H1 H2] Hi j.
  assert (A : forall a c, (a <= c)%nat -> (c <= 5)%nat -> forall j, (r j a <= r j c)%nat).
  { intros a c L. induction L as [|c L IH]; intros Hc j'; [lia|]. specialize (IH ltac:(lia) j'). specialize (H1 j' c ltac:(lia)). lia. }
  pose proof (A i 5%nat ltac:(lia) ltac:(lia) j). pose proof (A 0%nat i ltac:(lia) ltac:(lia) (S j)). specialize (H2 j). lia.
Qed.

(** When one of q1, q2, d1 and d2 is assigned during a run, there is a step from which
    on the temperatures are computed with the new value, and with the old one before. *)
Theorem c68_impulse_response_one_assignment : forall (env : Env) parse_unit s e s1 s2 p v sched,
  ir_set_drivers env (EQ1 e) s = (s1, Ok tt) -> ir_reset env s1 = (s2, Ok tt) -> p <> Pdt ->
  let ops := ir_assigning env [(p, v)] in
  let x := play sched (s2, [pir_thread env parse_unit [IRun env]; pir_thread env parse_unit ops]) in
  ended x 0 (Ok [Ok []]) ->
  exists F k, to_mags env e u_Wm2 = Ok F /\
    box_stepwise env (fun j _ => if (j <? k)%nat then s2 else ir_calls env parse_unit ops s2) (entry env F) (List.length F) (fst x).
Proof.
  intros env pu s e s1 s2 p v sched H1 H2 Hp ops x Hy.
  destruct (c68_impulse_response_assign_during_run env pu s e s1 s2 [(p, v)] sched H1 H2) as ((F & r & HF & O & L & W) & _); [exact Hy|].
  fold ops x in W. exists F. cbn [List.length] in L.
  set (i0 := match p with Pq1 => 1%nat | Pd1 => 2%nat | Pq2 => 4%nat | _ => 5%nat end).
  destruct (switch_at (fun j => r j i0) (box_order_step r i0 O ltac:(unfold i0; destruct p; lia)) (fun j => L j i0) (List.length F)) as (k & Hk).
  exists k. split; [exact HF|]. unfold box_stepwise in W |- *. destruct W as (L1 & L2 & Z & W).
  split; [exact L1|]. split; [exact L2|]. split; [exact Z|].
  intros j Hj. specialize (W j Hj). specialize (Hk j ltac:(lia)). cbv zeta in W.
  assert (K : forall i, firstn (r j i) ops = [] \/ firstn (r j i) ops = ops).
  { intros i. specialize (L j i). destruct (r j i) as [|[|q]]; [left|right|lia]; reflexivity. }
  assert (K0 : forall (A : Type) (g : IR env -> A), g (ir_calls env pu ops s2) = g s2 ->
             forall i, g (ir_calls env pu (firstn (r j i) ops) s2) = g (if (j <? k)%nat then s2 else ir_calls env pu ops s2)).
  { intros A g E i. destruct (K i) as [-> | ->]; destruct (j <? k)%nat; cbn [ir_calls fold_left]; congruence. }
  assert (K1 : forall (A : Type) (g : IR env -> A),
             g (ir_calls env pu (firstn (r j i0) ops) s2) = g (if (j <? k)%nat then s2 else ir_calls env pu ops s2)).
  { intros A g. rewrite Hk. destruct (j <? k)%nat; reflexivity. }
  assert (U : forall z, ir_delta_t_mag env (ir_calls env pu ops z) = ir_delta_t_mag env z /\
                (p <> Pq1 -> ir_q1_mag env (ir_calls env pu ops z) = ir_q1_mag env z) /\
                (p <> Pq2 -> ir_q2_mag env (ir_calls env pu ops z) = ir_q2_mag env z) /\
                (p <> Pd1 -> ir_d1_mag env (ir_calls env pu ops z) = ir_d1_mag env z) /\
                (p <> Pd2 -> ir_d2_mag env (ir_calls env pu ops z) = ir_d2_mag env z)).
  { intros z. unfold ops, ir_calls, ir_assigning. destruct p; try (contradiction Hp; reflexivity); cbn [map fst snd fold_left ir_call];
      unfold ir_set_q1, ir_set_q2, ir_set_d1, ir_set_d2, ir_set_efficacy, mbind, mread, mmod, mret; destruct (assert_quantity env v _); cbn [fst snd];
      try (destruct (to_mag env _ _)); repeat split; try reflexivity; intros N; contradiction N; reflexivity. }
  destruct (U s2) as (U1 & U2 & U3 & U4 & U5).
  rewrite !(K0 _ (ir_delta_t_mag env) U1) in W.
  assert (V1 : ir_q1_mag env (ir_calls env pu (firstn (r j 1%nat) ops) s2) = ir_q1_mag env (if (j <? k)%nat then s2 else ir_calls env pu ops s2)).
  { destruct p; try (apply K0, U2; discriminate). apply (K1 _ (ir_q1_mag env)). }
  assert (V2 : ir_d1_mag env (ir_calls env pu (firstn (r j 2%nat) ops) s2) = ir_d1_mag env (if (j <? k)%nat then s2 else ir_calls env pu ops s2)).
  { destruct p; try (apply K0, U4; discriminate). apply (K1 _ (ir_d1_mag env)). }
  assert (V3 : ir_q2_mag env (ir_calls env pu (firstn (r j 4%nat) ops) s2) = ir_q2_mag env (if (j <? k)%nat then s2 else ir_calls env pu ops s2)).
  { destruct p; try (apply K0, U3; discriminate). apply (K1 _ (ir_q2_mag env)). }
  assert (V4 : ir_d2_mag env (ir_calls env pu (firstn (r j 5%nat) ops) s2) = ir_d2_mag env (if (j <? k)%nat then s2 else ir_calls env pu ops s2)).
  { destruct p; try (apply K0, U5; discriminate). apply (K1 _ (ir_d2_mag env)). }
  rewrite V1, V2, V3, V4 in W. exact W.
Qed.

(** ** Cases *)
Ltac vmrefl := match goal with |- _ = ?y => exact_no_check (eq_refl y) end.
Notation demo_ready := (fst (ir_reset demo (fst (ir_set_drivers demo (EQ1 demo_three) demo_ir)))).
Definition new_q1 : PyVal demo := PQ (mkQty demo 7 u_CWm2).
(** q1 assigned in the third step of a run. *)
Notation demo_during := (play (repeat 0%nat 31 ++ [1; 1]%nat ++ repeat 0%nat 30)
  (demo_ready, [pir_thread demo demo_parse [IRun demo]; pir_thread demo demo_parse (ir_assigning demo [(Pq1, new_q1)])])).
Example c68_impulse_response_during_case :
  snd (ir_set_drivers demo (EQ1 demo_three) demo_ir) = Ok tt /\
  snd (ir_reset demo (fst (ir_set_drivers demo (EQ1 demo_three) demo_ir))) = Ok tt /\
  ended demo_during 0 (Ok [Ok []]) /\ finished demo_during /\
  ir_temp1 demo (fst demo_during) = ([Some 0; Some (3 # 1090); Some (7792 # 59405)] : list (num demo)) /\
  ir_temp1 demo (fst (ir_run demo demo_ready)) = ([Some 0; Some (3 # 1090); Some (489 # 59405)] : list (num demo)).
Proof.
  split; [vmrefl|]. split; [vmrefl|]. split; [unfold ended; vmrefl|]. split.
  - apply (both_finished _ (Ok [Ok []]) (Ok [Ok []])). vmrefl.
  - split; vmrefl.
Qed.
