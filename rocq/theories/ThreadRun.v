(** A run in one thread while another assigns parameters. *)
From Coq Require Import List String QArith ZArith Bool Arith Lia.
From RecordUpdate Require Import RecordUpdate.
From Verif Require Import Arith Pint Base TwoLayer Impulse Scm Api Spec GenTL Threads SpecThreads ThreadsProof NonInterf FactsThreads.
Import ListNotations.

Section During.
Context (env : Env) (pu : string -> option (Qty env)).
Notation TL := (TL env).

(** The parameters of one object and the rest of another. *)
Definition glue (s b : TL) : TL :=
  mkTL env (tl_du env b) (tl_dl env b) (tl_lambda0 env b) (tl_a env b) (tl_efficacy env b)
    (tl_eta env b) (tl_delta_t env b) (tl_du_mag env b) (tl_dl_mag env b) (tl_lambda0_mag env b)
    (tl_a_mag env b) (tl_efficacy_mag env b) (tl_eta_mag env b) (tl_delta_t_mag env b)
    (tl_hcu_mag env b) (tl_hcl_mag env b) (tl_erf env s) (tl_erf_mag env s)
    (tl_temp_upper env s) (tl_temp_lower env s) (tl_rndt env s) (tl_idx env s).
Definition params (x : option tl_param) : Prop := x <> None.

(** A thread that does not change the parameters. *)
Inductive keeps {A} : Prog TL A -> Prop :=
| ke_done r : keeps (Done r)
| ke_act w k : (forall s x, params x -> tl_part env x (w s) s) -> (forall s, keeps (k s)) -> keeps (Act w k).
Lemma keeps_bind {A B} (p : Prog TL A) (f : A -> Prog TL B) : keeps p -> (forall a, keeps (f a)) -> keeps (pbind p f).
Proof. intros H Hf. induction H as [[a|e]|w k H1 H2 IH]; cbn; [apply Hf|constructor|constructor; assumption]. Qed.
Lemma keeps_catch {A B} (p : Prog TL A) (f : Res A -> Prog TL B) : keeps p -> (forall a, keeps (f a)) -> keeps (pcatch p f).
Proof. intros H Hf. induction H as [r|w k H1 H2 IH]; cbn; [apply Hf|constructor; assumption]. Qed.
Lemma keeps_read {A} (r : TL -> Res A) : keeps (pread r).
Proof. constructor; [intros; apply tp_refl|intros; constructor]. Qed.
Lemma keeps_get {A} (r : TL -> A) : keeps (pget r).
Proof. constructor; [intros; apply tp_refl|intros; constructor]. Qed.
Lemma keeps_atom {A} (m : Meth TL A) : (forall s x, params x -> tl_part env x (fst (m s)) s) -> keeps (patom m).
Proof. intros H. constructor; [exact H|intros; constructor]. Qed.
Ltac keep := repeat first [apply keeps_bind; [|intros ?] | apply keeps_read | apply keeps_get].
Lemma keeps_put_upper v : keeps (ptl_put_upper env v).
Proof. apply keeps_atom. intros s [p|] N; [|contradiction N; reflexivity]. cbv [mbind mread mmod]. destruct (put _ _ _ _); destruct p; reflexivity. Qed.
Lemma keeps_put_lower v : keeps (ptl_put_lower env v).
Proof. apply keeps_atom. intros s [p|] N; [|contradiction N; reflexivity]. cbv [mbind mread mmod]. destruct (put _ _ _ _); destruct p; reflexivity. Qed.
Lemma keeps_put_rndt v : keeps (ptl_put_rndt env v).
Proof. apply keeps_atom. intros s [p|] N; [|contradiction N; reflexivity]. cbv [mbind mread mmod]. destruct (put _ _ _ _); destruct p; reflexivity. Qed.
Lemma keeps_step : keeps (ptl_step env).
Proof.
  assert (N : keeps (ptl_next_upper env ;& ptl_next_lower env ;& ptl_next_rndt env)).
  { apply keeps_bind; [unfold ptl_next_upper; keep; apply keeps_put_upper|intros _].
    apply keeps_bind; [unfold ptl_next_lower; keep; apply keeps_put_lower|intros _].
    unfold ptl_next_rndt; keep; apply keeps_put_rndt. }
  apply keeps_bind.
  - unfold ptl_advance. apply keeps_bind; [apply keeps_get|]. intros [i|]; keep;
      (apply keeps_atom; intros s [[]|] Nx; first [reflexivity|contradiction Nx; reflexivity]).
  - intros _. apply keeps_bind; [apply keeps_get|]. intros [[|i]|]; try exact N.
    apply keeps_bind; [apply keeps_put_upper|intros _]. apply keeps_bind; [apply keeps_put_lower|intros _]. apply keeps_put_rndt.
Qed.
Lemma keeps_steps n : keeps (ptl_steps env n).
Proof. induction n; [constructor|]. apply keeps_bind; [apply keeps_step|intros _; assumption]. Qed.
Lemma keeps_run_thread : keeps (ptl_thread env pu [TRun env]).
Proof.
  unfold ptl_thread. cbn [pcalls ptl_call]. apply keeps_catch; [|intros r; apply keeps_catch; [constructor|intros [l|e]; constructor]].
  unfold pnone. apply keeps_bind; [|intros _; constructor]. unfold ptl_run. apply keeps_bind; [apply keeps_get|]. apply keeps_steps.
Qed.

(** What a thread does when the parameters are those of [b (t n)] at its [n]-th action. *)
Variable b : nat -> TL.
Fixpoint follow {A} (p : Prog TL A) (t : nat -> nat) (n : nat) (s : TL) : TL * Res A * nat :=
  match p with
  | Done r => (s, r, n)
  | Act w k => let s' := glue s (b (t n)) in follow (k s') t (S n) (glue (w s') s)
  end.
Lemma follow_bind {A B} (p : Prog TL A) (f : A -> Prog TL B) t n s :
  follow (pbind p f) t n s = match follow p t n s with
                             | (s', Ok a, n') => follow (f a) t n' s'
                             | (s', Err e, n') => (s', Err e, n')
                             end.
Proof. revert n s. induction p as [[a|e]|w k IH]; intros n s; cbn; try reflexivity. apply IH. Qed.
Lemma follow_catch {A B} (p : Prog TL A) (f : Res A -> Prog TL B) t n s :
  follow (pcatch p f) t n s = let '(s', r, n') := follow p t n s in follow (f r) t n' s'.
Proof. revert n s. induction p as [r|w k IH]; intros n s; cbn; try reflexivity. apply IH. Qed.
Lemma follow_shift {A} (p : Prog TL A) t t' n m s : (forall k, t (n + k)%nat = t' (m + k)%nat) ->
  fst (follow p t n s) = fst (follow p t' m s).
Proof.
  revert n m s. induction p as [r|w k IH]; intros n m s H; cbn; [reflexivity|].
  pose proof (H 0%nat) as H0. rewrite !Nat.add_0_r in H0. rewrite H0. apply IH. intros j. specialize (H (S j)).
  rewrite !Nat.add_succ_r in H. exact H.
Qed.

(** ** Following a run *)
Lemma glue_glue s c : glue (glue s c) s = s.
Proof. destruct s; reflexivity. Qed.
Lemma follow_get {A B} (r : TL -> A) (f : A -> Prog TL B) t n s :
  follow (pbind (pget r) f) t n s = follow (f (r (glue s (b (t n))))) t (S n) s.
Proof. cbn. rewrite glue_glue. reflexivity. Qed.
Lemma follow_read {A B} (r : TL -> Res A) (f : A -> Prog TL B) t n s a : r (glue s (b (t n))) = Ok a ->
  follow (pbind (pread r) f) t n s = follow (f a) t (S n) s.
Proof. intros H. unfold pread, patom, mread. cbn [pbind follow]. rewrite H. cbn [pbind fst snd]. rewrite glue_glue. reflexivity. Qed.
Lemma follow_write (w : TL -> TL) t n s s' : glue (w (glue s (b (t n)))) s = s' ->
  follow (pwrite w) t n s = (s', Ok tt, S n).
Proof. intros H. cbn. rewrite H. reflexivity. Qed.
Lemma follow_put_upper v t n s i U L R U' : lset U i v = Ok U' ->
  follow (ptl_put_upper env v) t n (with_run env s (Some i) U L R) = (with_run env s (Some i) U' L R, Ok tt, S n).
Proof. intros H. unfold ptl_put_upper, patom, mbind, mread, mmod, put. cbn [follow glue with_run tl_idx tl_temp_upper]. rewrite H. reflexivity. Qed.
Lemma follow_put_lower v t n s i U L R L' : lset L i v = Ok L' ->
  follow (ptl_put_lower env v) t n (with_run env s (Some i) U L R) = (with_run env s (Some i) U L' R, Ok tt, S n).
Proof. intros H. unfold ptl_put_lower, patom, mbind, mread, mmod, put. cbn [follow glue with_run tl_idx tl_temp_lower]. rewrite H. reflexivity. Qed.
Lemma follow_put_rndt v t n s i U L R R' : lset R i v = Ok R' ->
  follow (ptl_put_rndt env v) t n (with_run env s (Some i) U L R) = (with_run env s (Some i) U L R', Ok tt, S n).
Proof. intros H. unfold ptl_put_rndt, patom, mbind, mread, mmod, put. cbn [follow glue with_run tl_idx tl_rndt]. rewrite H. reflexivity. Qed.

(** The Euler steps with the numbers of [Q j i]. *)
Section Steps.
Variable (Q : nat -> nat -> TL) (F : nat -> num env).
Fixpoint gtraj (n : nat) : num env * num env :=
  match n with
  | O => (nQ env 0, nQ env 0)
  | S j => let p := gtraj j in
      (upper_step env (tl_delta_t_mag env (Q j 0%nat)) (tl_lambda0_mag env (Q j 1%nat)) (tl_a_mag env (Q j 2%nat))
         (tl_efficacy_mag env (Q j 3%nat)) (tl_eta_mag env (Q j 4%nat)) (tl_hcu_mag env (Q j 5%nat)) (fst p) (snd p) (F j),
       lower_step env (tl_delta_t_mag env (Q j 6%nat)) (tl_eta_mag env (Q j 7%nat)) (tl_hcl_mag env (Q j 8%nat)) (fst p) (snd p))
  end.
Definition gU n := fst (gtraj n).
Definition gL n := snd (gtraj n).
Definition gR n : num env :=
  match n with
  | O => nQ env 0
  | S j => uptake env (tl_delta_t_mag env (Q j 9%nat)) (tl_hcu_mag env (Q j 11%nat)) (tl_hcl_mag env (Q j 10%nat))
             (gU j) (gU (S j)) (gL j) (gL (S j))
  end.
End Steps.

(** Action of step [j] in which its [i]-th number is read. *)
Definition offs (i : nat) : nat := nth i [4; 8; 9; 10; 11; 12; 14; 17; 18; 20; 23; 26]%nat 27%nat.
Definition when_read (j i : nat) : nat := (7 + 28 * j + offs i)%nat.
Definition started (k : nat) : nat := match k with O => 1%nat | S j => (7 + 28 * j)%nat end.

Lemma follow_step s m k t : tl_erf_mag env s = Some m -> (k < List.length m)%nat ->
  let Q := fun j i => b (t (when_read j i)) in let n := List.length m in let F := at_ env m in
  follow (ptl_step env) t (started k)
    (with_run env s (idx_of k) (fill (nnan env) (gU Q F) k n) (fill (nnan env) (gL Q F) k n) (fill (nnan env) (gR Q F) k n))
  = (with_run env s (idx_of (S k)) (fill (nnan env) (gU Q F) (S k) n) (fill (nnan env) (gL Q F) (S k) n)
       (fill (nnan env) (gR Q F) (S k) n), Ok tt, started (S k)).
Proof.
  intros Hm Hk Q n F. subst n.
  assert (LU : forall f : nat -> num env, List.length (fill (nnan env) f k (List.length m)) = List.length m) by (intros; apply fill_length; lia).
  unfold ptl_step. rewrite follow_bind. unfold ptl_advance. destruct k as [|j].
  - cbn [idx_of started] in *. rewrite follow_get. cbn [glue with_run tl_idx].
    rewrite (follow_write _ _ _ _ (with_run env s (Some 0%nat) (fill (nnan env) (gU Q F) 0 (List.length m))
              (fill (nnan env) (gL Q F) 0 (List.length m)) (fill (nnan env) (gR Q F) 0 (List.length m)))) by reflexivity.
    rewrite follow_get. cbn [glue with_run tl_idx].
    rewrite follow_bind, (follow_put_upper _ _ _ _ _ _ _ _ (fill (nnan env) (gU Q F) 1 (List.length m)))
      by (rewrite lset_ok by (rewrite LU; lia); rewrite <- upd_fill by lia; reflexivity).
    rewrite follow_bind, (follow_put_lower _ _ _ _ _ _ _ _ (fill (nnan env) (gL Q F) 1 (List.length m)))
      by (rewrite lset_ok by (rewrite LU; lia); rewrite <- upd_fill by lia; reflexivity).
    rewrite (follow_put_rndt _ _ _ _ _ _ _ _ (fill (nnan env) (gR Q F) 1 (List.length m)))
      by (rewrite lset_ok by (rewrite LU; lia); rewrite <- upd_fill by lia; reflexivity).
    reflexivity.
  - cbn [idx_of] in *. rewrite follow_get. cbn [glue with_run tl_idx]. rewrite follow_get. cbn [glue with_run tl_idx option_map].
    set (o := started (S j)).
    rewrite (follow_write _ _ _ _ (with_run env s (Some (S j)) (fill (nnan env) (gU Q F) (S j) (List.length m))
              (fill (nnan env) (gL Q F) (S j) (List.length m)) (fill (nnan env) (gR Q F) (S j) (List.length m)))) by reflexivity.
    rewrite follow_get. cbn [glue with_run tl_idx].
    assert (Ho : forall i, when_read j i = (o + offs i)%nat) by (intros i; reflexivity).
    assert (G : forall f, lget (fill (nnan env) f (S j) (List.length m)) j = Ok (f j))
      by (intros f; apply lget_some, fill_nth_lt; lia).
    assert (G1 : forall f, lget (fill (nnan env) f (S (S j)) (List.length m)) j = Ok (f j))
      by (intros f; apply lget_some, fill_nth_lt; lia).
    assert (G2 : forall f, lget (fill (nnan env) f (S (S j)) (List.length m)) (S j) = Ok (f (S j)))
      by (intros f; apply lget_some, fill_nth_lt; lia).
    assert (Hf : lget m j = Ok (F j)).
    { apply lget_some. unfold F, at_. apply nth_error_nth'. lia. }
    assert (EQ : forall i, Q j i = b (t (o + offs i)%nat)) by (intros i; reflexivity).
    assert (FU : fill (nnan env) (gU Q F) (S (S j)) (List.length m) = upd (fill (nnan env) (gU Q F) (S j) (List.length m)) (S j) (gU Q F (S j)))
      by (symmetry; apply upd_fill; lia).
    assert (FL : fill (nnan env) (gL Q F) (S (S j)) (List.length m) = upd (fill (nnan env) (gL Q F) (S j) (List.length m)) (S j) (gL Q F (S j)))
      by (symmetry; apply upd_fill; lia).
    assert (FR : fill (nnan env) (gR Q F) (S (S j)) (List.length m) = upd (fill (nnan env) (gR Q F) (S j) (List.length m)) (S j) (gR Q F (S j)))
      by (symmetry; apply upd_fill; lia).
    assert (HU : gU Q F (S j) = upper_step env (tl_delta_t_mag env (Q j 0%nat)) (tl_lambda0_mag env (Q j 1%nat)) (tl_a_mag env (Q j 2%nat))
         (tl_efficacy_mag env (Q j 3%nat)) (tl_eta_mag env (Q j 4%nat)) (tl_hcu_mag env (Q j 5%nat)) (gU Q F j) (gL Q F j) (F j)) by reflexivity.
    assert (HL : gL Q F (S j) = lower_step env (tl_delta_t_mag env (Q j 6%nat)) (tl_eta_mag env (Q j 7%nat)) (tl_hcl_mag env (Q j 8%nat)) (gU Q F j) (gL Q F j)) by reflexivity.
    assert (HR : gR Q F (S j) = uptake env (tl_delta_t_mag env (Q j 9%nat)) (tl_hcu_mag env (Q j 11%nat)) (tl_hcl_mag env (Q j 10%nat))
             (gU Q F j) (gU Q F (S j)) (gL Q F j) (gL Q F (S j))) by reflexivity.
    replace (started (S (S j))) with (28 + o)%nat by (unfold o, started; lia).
    clearbody o. clear Ho. clearbody Q F.
    unfold ptl_next_upper. rewrite follow_bind.
    rewrite follow_get. rewrite (follow_read _ _ _ _ _ (gU Q F j)) by exact (G _).
    rewrite (follow_read _ _ _ _ _ (gL Q F j)) by exact (G _).
    rewrite (follow_read _ _ _ _ _ (F j)) by (unfold tl_erf_before; cbn [glue with_run tl_erf_mag tl_idx]; rewrite Hm; exact Hf).
    rewrite !follow_get. cbn [glue with_run tl_delta_t_mag tl_lambda0_mag tl_a_mag tl_efficacy_mag tl_eta_mag tl_hcu_mag].
    rewrite (follow_put_upper _ _ _ _ _ _ _ _ (fill (nnan env) (gU Q F) (S (S j)) (List.length m))).
    2:{ rewrite lset_ok by (rewrite LU; lia). rewrite FU, HU, !EQ. do 2 f_equal. cbn [offs nth].
        rewrite <- !(Nat.add_comm _ o). reflexivity. }
    unfold ptl_next_lower. rewrite follow_bind.
    rewrite follow_get. rewrite (follow_read _ _ _ _ _ (gL Q F j)) by exact (G _).
    rewrite (follow_read _ _ _ _ _ (gU Q F j)) by exact (G1 _).
    rewrite !follow_get. cbn [glue with_run tl_delta_t_mag tl_lambda0_mag tl_a_mag tl_efficacy_mag tl_eta_mag tl_hcu_mag tl_hcl_mag].
    rewrite (follow_put_lower _ _ _ _ _ _ _ _ (fill (nnan env) (gL Q F) (S (S j)) (List.length m))).
    2:{ rewrite lset_ok by (rewrite LU; lia). rewrite FL, HL, !EQ. do 2 f_equal. cbn [offs nth].
        rewrite <- !(Nat.add_comm _ o). reflexivity. }
    unfold ptl_next_rndt.
    rewrite follow_get. rewrite (follow_read _ _ _ _ _ (gL Q F (S j))) by exact (G2 _).
    rewrite (follow_read _ _ _ _ _ (gL Q F j)) by exact (G1 _).
    rewrite follow_get. rewrite (follow_read _ _ _ _ _ (gU Q F (S j))) by exact (G2 _).
    rewrite (follow_read _ _ _ _ _ (gU Q F j)) by exact (G1 _).
    rewrite follow_get. cbn [glue with_run tl_delta_t_mag tl_lambda0_mag tl_a_mag tl_efficacy_mag tl_eta_mag tl_hcu_mag tl_hcl_mag].
    rewrite (follow_put_rndt _ _ _ _ _ _ _ _ (fill (nnan env) (gR Q F) (S (S j)) (List.length m))).
    2:{ rewrite lset_ok by (rewrite LU; lia). rewrite FR, HR, !EQ. do 2 f_equal. cbn [offs nth].
        rewrite <- !(Nat.add_comm _ o). reflexivity. }
    reflexivity.
Qed.
Lemma follow_steps s m n' t : tl_erf_mag env s = Some m -> forall k, (k + n' <= List.length m)%nat ->
  let Q := fun j i => b (t (when_read j i)) in let n := List.length m in let F := at_ env m in
  follow (ptl_steps env n') t (started k)
    (with_run env s (idx_of k) (fill (nnan env) (gU Q F) k n) (fill (nnan env) (gL Q F) k n) (fill (nnan env) (gR Q F) k n))
  = (with_run env s (idx_of (k + n')) (fill (nnan env) (gU Q F) (k + n') n) (fill (nnan env) (gL Q F) (k + n') n)
       (fill (nnan env) (gR Q F) (k + n') n), Ok tt, started (k + n')).
Proof.
  intros Hm. induction n' as [|n' IH]; intros k Hk Q n F.
  - rewrite Nat.add_0_r. reflexivity.
  - cbn [ptl_steps]. rewrite follow_bind. unfold n, F, Q. rewrite follow_step by (auto; lia). 
    rewrite (IH (S k)) by lia. rewrite !Nat.add_succ_comm. reflexivity.
Qed.
Lemma follow_run_thread s m t : tl_erf_mag env s = Some m -> tl_erf_len env s = List.length m ->
  let Q := fun j i => b (t (when_read j i)) in let n := List.length m in let F := at_ env m in
  fst (follow (ptl_thread env pu [TRun env]) t 0
    (with_run env s None (repeat (nnan env) n) (repeat (nnan env) n) (repeat (nnan env) n)))
  = (with_run env s (idx_of n) (fill (nnan env) (gU Q F) n n) (fill (nnan env) (gL Q F) n n)
       (fill (nnan env) (gR Q F) n n), Ok [Ok []]).
Proof.
  intros Hm Hl Q n F. unfold ptl_thread. cbn [pcalls ptl_call]. rewrite follow_catch. unfold pnone. rewrite follow_bind.
  unfold ptl_run. rewrite follow_get.
  replace (tl_erf_len env (glue (with_run env s None (repeat (nnan env) n) (repeat (nnan env) n) (repeat (nnan env) n)) (b (t 0%nat))))
    with (List.length m) by (rewrite <- Hl; reflexivity).
  pose proof (follow_steps s m (List.length m) t Hm 0 ltac:(lia)) as E. cbv zeta in E. rewrite !fill_0 in E. cbn [started idx_of Nat.add] in E.
  unfold n at 1 2 3. rewrite E. reflexivity.
Qed.

(** ** The two threads *)
Section Two.
Context {A : Type}.
Variable (B : Prog TL A) (s2 : TL).
Hypothesis HB : within (tl_part env) params B.
Hypothesis Hb : forall n, b n = fst (ahead n B s2).

Lemma glue_part s s' x : params x -> tl_part env x (glue s s') s'.
Proof. intros N. destruct x as [[]|]; try reflexivity. contradiction N. reflexivity. Qed.
Lemma glue_none s s' : tl_part env None (glue s s') s.
Proof. reflexivity. Qed.
Lemma glue_keep (w : TL -> TL) s b0 : (forall s x, params x -> tl_part env x (w s) s) -> 
  w (glue s b0) = glue (glue (w (glue s b0)) s) b0.
Proof.
  intros H. apply (tp_all env). intros [p|].
  - eapply tp_trans; [apply H; discriminate|]. eapply tp_trans; [apply glue_part; discriminate|]. apply tp_sym, glue_part. discriminate.
  - reflexivity.
Qed.
Lemma within_ahead_B n : within (tl_part env) params (snd (ahead n B s2)).
Proof.
  pose proof (within_ahead (tl_part env) (tp_refl env) (tp_trans env) params n B s2 s2 HB (fun x _ => tp_refl env x s2)) as H.
  destruct (ahead n B s2). apply H.
Qed.

Lemma two_threads sched : forall (p : Prog TL A) nB sA r,
  keeps p ->
  let x := play sched (glue sA (b nB), [p; snd (ahead nB B s2)]) in
  ended x 0 r ->
  exists t, (forall k, (t k <= t (S k))%nat) /\ (nB <= t 0%nat)%nat /\
    exists sA', fst (follow p t 0 sA) = (sA', r) /\
      exists nB', fst x = glue sA' (b nB') /\ nth_error (snd x) 1 = Some (snd (ahead nB' B s2)).
Proof.
  induction sched as [|i sched IH]; intros p nB sA r K x E; subst x.
  - cbn in E. injection E as ->. exists (fun _ => nB). split; [reflexivity|]. split; [reflexivity|]. exists sA. split; [reflexivity|].
    exists nB. split; reflexivity.
  - cbn [play] in E |- *. unfold turn in E |- *. destruct i as [|[|i]].
    + cbn [nth_error] in *. destruct p as [r'|w k].
      * exact (IH (Done r') nB sA r K E).
      * cbn [firstn app skipn] in *. inversion K as [|w' k' H1 H2]; subst. rewrite (glue_keep w sA (b nB) H1) in E |- *.
        destruct (IH (k (glue sA (b nB))) nB (glue (w (glue sA (b nB))) sA) r (H2 _) E) as (t & T1 & T2 & sA' & F & R).
        exists (fun j => match j with O => nB | S j => t j end). split; [intros [|j]; [exact T2|apply T1]|]. split; [reflexivity|].
        exists sA'. split; [|exact R]. rewrite <- F. cbn [follow]. apply follow_shift. intros j. reflexivity.
    + cbn [nth_error] in *. pose proof (within_ahead_B nB) as W. pose proof (ahead_S nB B s2) as Es. pose proof (Hb nB) as E1.
      pose proof (Hb (S nB)) as E2. rewrite Es in E2. destruct (ahead nB B s2) as [sb q] eqn:Eq. cbn [fst snd] in *.
      assert (G : match q with Act w k => (w (glue sA (b nB)), [p; k (glue sA (b nB))]) | Done _ => (glue sA (b nB), [p; q]) end
                  = (glue sA (b (S nB)), [p; snd (ahead (S nB) B s2)])).
      { rewrite Es. destruct q as [r'|w k].
        - cbn [ahead fst snd]. rewrite E2, E1. reflexivity.
        - inversion W as [|w' k' H1 H2 H3]; subst.
          assert (Ag : agree (tl_part env) params (glue sA (b nB)) (b nB)) by (intros x Hx; apply glue_part, Hx).
          destruct (H2 _ _ Ag) as [P Q]. cbn [ahead]. cbn [ahead fst snd] in *. rewrite E2. rewrite Q. f_equal. apply (tp_all env). intros [y|].
          + eapply tp_trans; [apply P; discriminate|]. apply tp_sym, glue_part. discriminate.
          + eapply tp_trans; [apply H1; intros N; apply N; reflexivity|reflexivity]. }
      assert (E' : ended (play sched (glue sA (b (S nB)), [p; snd (ahead (S nB) B s2)])) 0 r).
      { rewrite <- G. destruct q; exact E. }
      destruct (IH p (S nB) sA r K E') as (t & T1 & T2 & sA' & F & R).
      exists t. split; [exact T1|]. split; [lia|]. exists sA'. split; [exact F|]. rewrite <- G in R. destruct q; exact R.
    + destruct i; exact (IH p nB sA r K E).
Qed.
End Two.
End During.
