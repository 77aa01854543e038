(** A run of an impulse-response model in one thread while another assigns parameters. *)
From Coq Require Import List String QArith ZArith Bool Arith Lia.
From RecordUpdate Require Import RecordUpdate.
From Verif Require Import Arith Pint Base TwoLayer Impulse Scm Api Spec GenTL GenIR Threads SpecThreads ThreadsProof NonInterf FactsThreads.
Import ListNotations.

Section During.
Context (env : Env) (pu : string -> option (Qty env)).
Notation IR := (IR env).

(** The parameters of one object and the rest of another. *)
Definition iglue (s b : IR) : IR :=
  mkIR env (ir_q1 env b) (ir_q2 env b) (ir_d1 env b) (ir_d2 env b) (ir_efficacy env b)
    (ir_delta_t env b) (ir_q1_mag env b) (ir_q2_mag env b) (ir_d1_mag env b) (ir_d2_mag env b)
    (ir_efficacy_mag env b) (ir_delta_t_mag env b) (ir_erf env s) (ir_erf_mag env s)
    (ir_temp1 env s) (ir_temp2 env s) (ir_rndt env s) (ir_idx env s).
Definition iparams (x : option ir_param) : Prop := x <> None.

(** A thread that does not change the parameters. *)
Inductive ikeeps {A} : Prog IR A -> Prop :=
| ke_done r : ikeeps (Done r)
| ke_act w k : (forall s x, iparams x -> ir_part env x (w s) s) -> (forall s, ikeeps (k s)) -> ikeeps (Act w k).
Lemma ikeeps_bind {A B} (p : Prog IR A) (f : A -> Prog IR B) : ikeeps p -> (forall a, ikeeps (f a)) -> ikeeps (pbind p f).
Proof. intros H Hf. induction H as [[a|e]|w k H1 H2 IH]; cbn; [apply Hf|constructor|constructor; assumption]. Qed.
Lemma ikeeps_catch {A B} (p : Prog IR A) (f : Res A -> Prog IR B) : ikeeps p -> (forall a, ikeeps (f a)) -> ikeeps (pcatch p f).
Proof. intros H Hf. induction H as [r|w k H1 H2 IH]; cbn; [apply Hf|constructor; assumption]. Qed.
Lemma ikeeps_read {A} (r : IR -> Res A) : ikeeps (pread r).
Proof. constructor; [intros; apply ip_refl|intros; constructor]. Qed.
Lemma ikeeps_get {A} (r : IR -> A) : ikeeps (pget r).
Proof. constructor; [intros; apply ip_refl|intros; constructor]. Qed.
Lemma ikeeps_atom {A} (m : Meth IR A) : (forall s x, iparams x -> ir_part env x (fst (m s)) s) -> ikeeps (patom m).
Proof. intros H. constructor; [exact H|intros; constructor]. Qed.
Ltac keep := repeat first [apply ikeeps_bind; [|intros ?] | apply ikeeps_read | apply ikeeps_get | exact (ke_done _)].
Lemma ikeeps_put_temp1 v : ikeeps (pir_put_temp1 env v).
Proof. apply ikeeps_atom. intros s [p|] N; [|contradiction N; reflexivity]. cbv [mbind mread mmod]. destruct (put _ _ _ _); destruct p; reflexivity. Qed.
Lemma ikeeps_put_temp2 v : ikeeps (pir_put_temp2 env v).
Proof. apply ikeeps_atom. intros s [p|] N; [|contradiction N; reflexivity]. cbv [mbind mread mmod]. destruct (put _ _ _ _); destruct p; reflexivity. Qed.
Lemma ikeeps_put_rndt v : ikeeps (pir_put_rndt env v).
Proof. apply ikeeps_atom. intros s [p|] N; [|contradiction N; reflexivity]. cbv [mbind mread mmod]. destruct (put _ _ _ _); destruct p; reflexivity. Qed.
Lemma ikeeps_val {A B} (r : Res A) (f : A -> Prog IR B) : (forall a, ikeeps (f a)) -> ikeeps (pbind (pval r) f).
Proof. intros H. apply ikeeps_bind; [constructor|exact H]. Qed.
Lemma ikeeps_step : ikeeps (pir_step env).
Proof.
  assert (N : ikeeps (pir_next_temp1 env ;& pir_next_temp2 env ;& pir_next_rndt env)).
  { apply ikeeps_bind; [unfold pir_next_temp1; keep; apply ikeeps_put_temp1|intros _].
    apply ikeeps_bind; [unfold pir_next_temp2; keep; apply ikeeps_put_temp2|intros _].
    unfold pir_next_rndt; keep; apply ikeeps_put_rndt. }
  apply ikeeps_bind.
  - unfold pir_advance. apply ikeeps_bind; [apply ikeeps_get|]. intros [i|].
    + apply ikeeps_bind; [apply ikeeps_get|]. intros j. apply ikeeps_atom; intros s [[]|] Nx; first [reflexivity|contradiction Nx; reflexivity].
    + apply ikeeps_atom; intros s [[]|] Nx; first [reflexivity|contradiction Nx; reflexivity].
  - intros _. apply ikeeps_bind; [apply ikeeps_get|]. intros [[|i]|]; try exact N.
    apply ikeeps_bind; [apply ikeeps_put_temp1|intros _]. apply ikeeps_bind; [apply ikeeps_put_temp2|intros _]. apply ikeeps_put_rndt.
Qed.
Lemma ikeeps_steps n : ikeeps (pir_steps env n).
Proof. induction n; [constructor|]. apply ikeeps_bind; [apply ikeeps_step|intros _; assumption]. Qed.
Lemma ikeeps_run_thread : ikeeps (pir_thread env pu [IRun env]).
Proof.
  unfold pir_thread. cbn [pcalls pir_call]. apply ikeeps_catch; [|intros r; apply ikeeps_catch; [constructor|intros [l|e]; constructor]].
  unfold pnone. apply ikeeps_bind; [|intros _; constructor]. unfold pir_run. apply ikeeps_bind; [apply ikeeps_get|]. apply ikeeps_steps.
Qed.

(** A thread that does not change the driver. *)
Definition drivers (s : IR) := (ir_erf env s, ir_erf_mag env s).
Inductive istays {A} : Prog IR A -> Prop :=
| st_done r : istays (Done r)
| st_act w k : (forall s, drivers (w s) = drivers s) -> (forall s, istays (k s)) -> istays (Act w k).
Lemma istays_bind {A B} (p : Prog IR A) (f : A -> Prog IR B) : istays p -> (forall a, istays (f a)) -> istays (pbind p f).
Proof. intros H Hf. induction H as [[a|e]|w k H1 H2 IH]; cbn; [apply Hf|constructor|constructor; assumption]. Qed.
Lemma istays_catch {A B} (p : Prog IR A) (f : Res A -> Prog IR B) : istays p -> (forall a, istays (f a)) -> istays (pcatch p f).
Proof. intros H Hf. induction H as [r|w k H1 H2 IH]; cbn; [apply Hf|constructor; assumption]. Qed.
Lemma istays_read {A} (r : IR -> Res A) : istays (pread r).
Proof. constructor; [intros; reflexivity|intros; constructor]. Qed.
Lemma istays_get {A} (r : IR -> A) : istays (pget r).
Proof. constructor; [intros; reflexivity|intros; constructor]. Qed.
Lemma istays_atom {A} (m : Meth IR A) : (forall s, drivers (fst (m s)) = drivers s) -> istays (patom m).
Proof. intros H. constructor; [exact H|intros; constructor]. Qed.
Ltac stay := repeat first [apply istays_bind; [|intros ?] | apply istays_read | apply istays_get | exact (st_done _)].
Lemma istays_put_temp1 v : istays (pir_put_temp1 env v).
Proof. apply istays_atom. intros s. cbv [mbind mread mmod]. destruct (put _ _ _ _); reflexivity. Qed.
Lemma istays_put_temp2 v : istays (pir_put_temp2 env v).
Proof. apply istays_atom. intros s. cbv [mbind mread mmod]. destruct (put _ _ _ _); reflexivity. Qed.
Lemma istays_put_rndt v : istays (pir_put_rndt env v).
Proof. apply istays_atom. intros s. cbv [mbind mread mmod]. destruct (put _ _ _ _); reflexivity. Qed.
Lemma istays_val {A B} (r : Res A) (f : A -> Prog IR B) : (forall a, istays (f a)) -> istays (pbind (pval r) f).
Proof. intros H. apply istays_bind; [constructor|exact H]. Qed.
Lemma istays_step : istays (pir_step env).
Proof.
  assert (N : istays (pir_next_temp1 env ;& pir_next_temp2 env ;& pir_next_rndt env)).
  { apply istays_bind; [unfold pir_next_temp1; stay; apply istays_put_temp1|intros _].
    apply istays_bind; [unfold pir_next_temp2; stay; apply istays_put_temp2|intros _].
    unfold pir_next_rndt; stay; apply istays_put_rndt. }
  apply istays_bind.
  - unfold pir_advance. apply istays_bind; [apply istays_get|]. intros [i|].
    + apply istays_bind; [apply istays_get|]. intros j. apply istays_atom; intros s; reflexivity.
    + apply istays_atom; intros s; reflexivity.
  - intros _. apply istays_bind; [apply istays_get|]. intros [[|i]|]; try exact N.
    apply istays_bind; [apply istays_put_temp1|intros _]. apply istays_bind; [apply istays_put_temp2|intros _]. apply istays_put_rndt.
Qed.
Lemma istays_steps n : istays (pir_steps env n).
Proof. induction n; [constructor|]. apply istays_bind; [apply istays_step|intros _; assumption]. Qed.
Lemma istays_run_thread : istays (pir_thread env pu [IRun env]).
Proof.
  unfold pir_thread. cbn [pcalls pir_call]. apply istays_catch; [|intros r; apply istays_catch; [constructor|intros [l|e]; constructor]].
  unfold pnone. apply istays_bind; [|intros _; constructor]. unfold pir_run. apply istays_bind; [apply istays_get|]. apply istays_steps.
Qed.

(** What a thread does when the parameters are those of [b (t n)] at its [n]-th action. *)
Variable b : nat -> IR.
Fixpoint ifollow {A} (p : Prog IR A) (t : nat -> nat) (n : nat) (s : IR) : IR * Res A * nat :=
  match p with
  | Done r => (s, r, n)
  | Act w k => let s' := iglue s (b (t n)) in ifollow (k s') t (S n) (iglue (w s') s)
  end.
Lemma ifollow_bind {A B} (p : Prog IR A) (f : A -> Prog IR B) t n s :
  ifollow (pbind p f) t n s = match ifollow p t n s with
                             | (s', Ok a, n') => ifollow (f a) t n' s'
                             | (s', Err e, n') => (s', Err e, n')
                             end.
Proof. revert n s. induction p as [[a|e]|w k IH]; intros n s; cbn; try reflexivity. apply IH. Qed.
Lemma ifollow_catch {A B} (p : Prog IR A) (f : Res A -> Prog IR B) t n s :
  ifollow (pcatch p f) t n s = let '(s', r, n') := ifollow p t n s in ifollow (f r) t n' s'.
Proof. revert n s. induction p as [r|w k IH]; intros n s; cbn; try reflexivity. apply IH. Qed.
Lemma ifollow_shift {A} (p : Prog IR A) t t' n m s : (forall k, t (n + k)%nat = t' (m + k)%nat) ->
  fst (ifollow p t n s) = fst (ifollow p t' m s).
Proof.
  revert n m s. induction p as [r|w k IH]; intros n m s H; cbn; [reflexivity|].
  pose proof (H 0%nat) as H0. rewrite !Nat.add_0_r in H0. rewrite H0. apply IH. intros j. specialize (H (S j)).
  rewrite !Nat.add_succ_r in H. exact H.
Qed.

(** ** Following a run *)
Lemma iglue_glue s c : iglue (iglue s c) s = s.
Proof. destruct s; reflexivity. Qed.
Lemma ifollow_get {A B} (r : IR -> A) (f : A -> Prog IR B) t n s :
  ifollow (pbind (pget r) f) t n s = ifollow (f (r (iglue s (b (t n))))) t (S n) s.
Proof. cbn. rewrite iglue_glue. reflexivity. Qed.
Lemma ifollow_read {A B} (r : IR -> Res A) (f : A -> Prog IR B) t n s a : r (iglue s (b (t n))) = Ok a ->
  ifollow (pbind (pread r) f) t n s = ifollow (f a) t (S n) s.
Proof. intros H. unfold pread, patom, mread. cbn [pbind ifollow]. rewrite H. cbn [pbind fst snd]. rewrite iglue_glue. reflexivity. Qed.
Lemma ifollow_stays {A} (p : Prog IR A) t n s : istays p -> drivers (fst (fst (ifollow p t n s))) = drivers s.
Proof.
  intros H. revert n s. induction H as [r|w k H1 H2 IH]; intros n s; [reflexivity|]. cbn [ifollow]. rewrite IH.
  transitivity (drivers (w (iglue s (b (t n))))); [reflexivity|]. rewrite H1. reflexivity.
Qed.
Lemma ifollow_read_any {A B} (r : IR -> Res A) (f : A -> Prog IR B) t n s :
  ifollow (pbind (pread r) f) t n s = match r (iglue s (b (t n))) with Ok a => ifollow (f a) t (S n) s | Err e => (s, Err e, S n) end.
Proof.
  unfold pread, patom, mread. cbn [pbind ifollow fst snd]. destruct (r (iglue s (b (t n)))); cbn [pbind ifollow]; rewrite iglue_glue; reflexivity.
Qed.
Lemma ifollow_val {A B} (r : Res A) (f : A -> Prog IR B) t n s :
  ifollow (pbind (pval r) f) t n s = match r with Ok a => ifollow (f a) t n s | Err e => (s, Err e, n) end.
Proof. destruct r; reflexivity. Qed.
Lemma ifollow_write (w : IR -> IR) t n s s' : iglue (w (iglue s (b (t n)))) s = s' ->
  ifollow (pwrite w) t n s = (s', Ok tt, S n).
Proof. intros H. cbn. rewrite H. reflexivity. Qed.
Lemma ifollow_put_temp1 v t n s i U L R : (i < List.length U)%nat ->
  ifollow (pir_put_temp1 env v) t n (iwith_run env s (Some i) U L R) = (iwith_run env s (Some i) (upd U i v) L R, Ok tt, S n).
Proof. intros H. unfold pir_put_temp1, patom, mbind, mread, mmod, put. cbn [ifollow iglue iwith_run ir_idx ir_temp1]. rewrite lset_ok by exact H. reflexivity. Qed.
Lemma ifollow_put_temp2 v t n s i U L R : (i < List.length L)%nat ->
  ifollow (pir_put_temp2 env v) t n (iwith_run env s (Some i) U L R) = (iwith_run env s (Some i) U (upd L i v) R, Ok tt, S n).
Proof. intros H. unfold pir_put_temp2, patom, mbind, mread, mmod, put. cbn [ifollow iglue iwith_run ir_idx ir_temp2]. rewrite lset_ok by exact H. reflexivity. Qed.
Lemma ifollow_put_rndt v t n s i U L R : (i < List.length R)%nat ->
  ifollow (pir_put_rndt env v) t n (iwith_run env s (Some i) U L R) = (iwith_run env s (Some i) U L (upd R i v), Ok tt, S n).
Proof. intros H. unfold pir_put_rndt, patom, mbind, mread, mmod, put. cbn [ifollow iglue iwith_run ir_idx ir_rndt]. rewrite lset_ok by exact H. reflexivity. Qed.

(** Action of step [j] in which its [i]-th number is read. *)
Definition ioffs (i : nat) : nat := nth i [4; 6; 7; 10; 12; 13]%nat 21%nat.
Definition iwhen_read (j i : nat) : nat := (7 + 22 * j + ioffs i)%nat.
Definition istarted (k : nat) : nat := match k with O => 1%nat | S j => (7 + 22 * j)%nat end.
Definition box_inv (Q : nat -> nat -> IR) (F : nat -> num env) (n k : nat) (U L : list (num env)) : Prop :=
  List.length U = n /\ List.length L = n /\
  ((0 < k)%nat -> entry env U 0 = nQ env 0 /\ entry env L 0 = nQ env 0) /\
  forall j, (S j < k)%nat ->
    entry env U (S j) = box_step env (ir_delta_t_mag env (Q j 0%nat)) (ir_q1_mag env (Q j 1%nat)) (ir_d1_mag env (Q j 2%nat)) (entry env U j) (F j) /\
    entry env L (S j) = box_step env (ir_delta_t_mag env (Q j 3%nat)) (ir_q2_mag env (Q j 4%nat)) (ir_d2_mag env (Q j 5%nat)) (entry env L j) (F j).
Lemma lget_entry l j : (j < List.length l)%nat -> lget l j = Ok (entry env l j).
Proof. intros H. apply lget_some. unfold entry. apply nth_error_nth'. exact H. Qed.
Lemma entry_upd l i v j : (i < List.length l)%nat -> entry env (upd l i v) j = if Nat.eqb i j then v else entry env l j.
Proof.
  intros H. unfold entry. rewrite <- !nth_default_eq. unfold nth_default. rewrite nth_error_upd. destruct (Nat.eqb i j); [|reflexivity].
  destruct (Nat.ltb_spec i (List.length l)); [reflexivity|lia].
Qed.
Lemma ifollow_step s m k t U L R s' n' : ir_erf_mag env s = Some m -> (k < List.length m)%nat ->
  let Q := fun j i => b (t (iwhen_read j i)) in let n := List.length m in let F := entry env m in
  box_inv Q F n k U L -> List.length R = n ->
  ifollow (pir_step env) t (istarted k) (iwith_run env s (idx_of k) U L R) = (s', Ok tt, n') ->
  exists U' L' R', n' = istarted (S k) /\ s' = iwith_run env s (Some k) U' L' R' /\ box_inv Q F n (S k) U' L' /\ List.length R' = n.
Proof.
  intros Hm Hk Q n F (LU & LL & Z & St) LR. subst n. unfold pir_step. rewrite ifollow_bind. unfold pir_advance. destruct k as [|j].
  - cbn [idx_of istarted] in *. rewrite ifollow_get. cbn [iglue iwith_run ir_idx].
    rewrite (ifollow_write _ _ _ _ (iwith_run env s (Some 0%nat) U L R)) by reflexivity.
    rewrite ifollow_get. cbn [iglue iwith_run ir_idx].
    rewrite ifollow_bind, ifollow_put_temp1 by lia. rewrite ifollow_bind, ifollow_put_temp2 by lia. rewrite ifollow_put_rndt by lia.
    intros E. injection E as <- <-. do 3 eexists. split; [reflexivity|]. split; [reflexivity|]. rewrite upd_length. split; [|exact LR].
    split; [rewrite upd_length; exact LU|]. split; [rewrite upd_length; exact LL|]. split; [|intros; lia].
    intros _. rewrite !entry_upd by lia. split; reflexivity.
  - cbn [idx_of] in *. rewrite ifollow_get. cbn [iglue iwith_run ir_idx]. rewrite ifollow_get. cbn [iglue iwith_run ir_idx option_map].
    set (o := istarted (S j)).
    rewrite (ifollow_write _ _ _ _ (iwith_run env s (Some (S j)) U L R)) by reflexivity.
    rewrite ifollow_get. cbn [iglue iwith_run ir_idx].
    assert (EQ : forall i, Q j i = b (t (ioffs i + o)%nat)) by (intros i; unfold Q, iwhen_read; rewrite (Nat.add_comm (ioffs i)); reflexivity).
    assert (GE : forall z U' L' R', ir_erf_before env (iglue (iwith_run env s (Some (S j)) U' L' R') z) = Ok (F j)).
    { intros z U' L' R'. unfold ir_erf_before. cbn [iglue iwith_run ir_erf_mag ir_idx]. rewrite Hm. cbn [before]. apply lget_entry. lia. }
    unfold pir_next_temp1. rewrite ifollow_bind, ifollow_get.
    rewrite (ifollow_read _ _ _ _ _ (entry env U j)) by (cbn [iglue iwith_run ir_temp1 ir_idx before]; apply lget_entry; lia).
    rewrite !ifollow_get. rewrite (ifollow_read _ _ _ _ _ (F j)) by apply GE.
    cbn [iglue iwith_run ir_delta_t_mag ir_q1_mag ir_d1_mag]. rewrite ifollow_val. unfold calculate_next_temp at 1.
    destruct (neqb env (ir_d1_mag env _) (nQ env 0)); [discriminate|]. rewrite ifollow_put_temp1 by lia.
    unfold pir_next_temp2. rewrite ifollow_bind, ifollow_get.
    rewrite (ifollow_read _ _ _ _ _ (entry env L j)) by (cbn [iglue iwith_run ir_temp2 ir_idx before]; apply lget_entry; lia).
    rewrite !ifollow_get. rewrite (ifollow_read _ _ _ _ _ (F j)) by apply GE.
    cbn [iglue iwith_run ir_delta_t_mag ir_q2_mag ir_d2_mag]. rewrite ifollow_val. unfold calculate_next_temp at 1.
    destruct (neqb env (ir_d2_mag env _) (nQ env 0)); [discriminate|]. rewrite ifollow_put_temp2 by lia.
    unfold pir_next_rndt. do 3 (rewrite ifollow_read_any; match goal with |- match ?r with _ => _ end = _ -> _ => destruct r; [|discriminate] end).
    rewrite ifollow_get, ifollow_read_any. match goal with |- match ?r with _ => _ end = _ -> _ => destruct r; [|discriminate] end.
    rewrite ifollow_put_rndt by lia. intros E. injection E as <- <-. do 3 eexists. split; [unfold o, istarted; lia|]. split; [reflexivity|].
    rewrite upd_length. split; [|exact LR]. split; [rewrite upd_length; exact LU|]. split; [rewrite upd_length; exact LL|].
    split; [intros _; rewrite !entry_upd by lia; cbn [Nat.eqb]; apply Z; lia|].
    intros j' Hj. rewrite !entry_upd by lia. destruct (Nat.eqb_spec (S j) j') as [N|_]; [lia|]. destruct (Nat.eqb_spec (S j) (S j')) as [N|N].
    + injection N as <-. rewrite !EQ. split; reflexivity.
    + apply St. lia.
Qed.
Lemma ifollow_steps s m n0 t : ir_erf_mag env s = Some m -> forall k U L R s' n', (k + n0 <= List.length m)%nat ->
  let Q := fun j i => b (t (iwhen_read j i)) in let n := List.length m in let F := entry env m in
  box_inv Q F n k U L -> List.length R = n ->
  ifollow (pir_steps env n0) t (istarted k) (iwith_run env s (idx_of k) U L R) = (s', Ok tt, n') ->
  exists U' L' R', s' = iwith_run env s (idx_of (k + n0)) U' L' R' /\ box_inv Q F n (k + n0) U' L'.
Proof.
  intros Hm. induction n0 as [|n0 IH]; intros k U L R s' n' Hk Q n F I LR E.
  - cbn in E. injection E as <- <-. rewrite Nat.add_0_r. do 3 eexists. split; [reflexivity|exact I].
  - cbn [pir_steps] in E. rewrite ifollow_bind in E.
    destruct (ifollow (pir_step env) t (istarted k) (iwith_run env s (idx_of k) U L R)) as [[s0 [[]|e]] n1] eqn:E0; [|discriminate].
    destruct (ifollow_step s m k t U L R s0 n1 Hm ltac:(lia) I LR E0) as (U' & L' & R' & -> & -> & I' & LR').
    rewrite <- Nat.add_succ_comm. eapply (IH (S k)); [lia|exact I'|exact LR'|exact E].
Qed.
Lemma ifollow_run_thread s m t sA : ir_erf_mag env s = Some m -> ir_erf_len env s = List.length m ->
  let Q := fun j i => b (t (iwhen_read j i)) in let n := List.length m in let F := entry env m in
  fst (ifollow (pir_thread env pu [IRun env]) t 0
    (iwith_run env s None (repeat (nnan env) n) (repeat (nnan env) n) (repeat (nnan env) n))) = (sA, Ok [Ok []]) ->
  exists U' L' R', sA = iwith_run env s (idx_of n) U' L' R' /\ box_inv Q F n n U' L'.
Proof.
  intros Hm Hl Q n F. unfold pir_thread. cbn [pcalls pir_call]. rewrite ifollow_catch. unfold pnone. rewrite ifollow_bind.
  unfold pir_run. rewrite ifollow_get.
  replace (ir_erf_len env (iglue (iwith_run env s None (repeat (nnan env) n) (repeat (nnan env) n) (repeat (nnan env) n)) (b (t 0%nat))))
    with (List.length m) by (rewrite <- Hl; reflexivity).
  destruct (ifollow (pir_steps env (List.length m)) t 1 (iwith_run env s None (repeat (nnan env) n) (repeat (nnan env) n) (repeat (nnan env) n)))
    as [[s0 [[]|e]] n1] eqn:E0; intros E; [|discriminate]. cbn in E. injection E as <-.
  apply (ifollow_steps s m (List.length m) t Hm 0 _ _ _ s0 n1) in E0; [exact E0|lia| |apply repeat_length].
  split; [apply repeat_length|]. split; [apply repeat_length|]. split; intros; lia.
Qed.

(** ** The two threads *)
Section Two.
Context {A : Type}.
Variable (B : Prog IR A) (s2 : IR).
Hypothesis HB : within (ir_part env) iparams B.
Hypothesis Hb : forall n, b n = fst (ahead n B s2).

Lemma iglue_part s s' x : iparams x -> ir_part env x (iglue s s') s'.
Proof. intros N. destruct x as [[]|]; try reflexivity. contradiction N. reflexivity. Qed.
Lemma iglue_none s s' : ir_part env None (iglue s s') s.
Proof. reflexivity. Qed.
Lemma iglue_keep (w : IR -> IR) s b0 : (forall s x, iparams x -> ir_part env x (w s) s) -> 
  w (iglue s b0) = iglue (iglue (w (iglue s b0)) s) b0.
Proof.
  intros H. apply (ip_all env). intros [p|].
  - eapply ip_trans; [apply H; discriminate|]. eapply ip_trans; [apply iglue_part; discriminate|]. apply ip_sym, iglue_part. discriminate.
  - reflexivity.
Qed.
Lemma within_ahead_B n : within (ir_part env) iparams (snd (ahead n B s2)).
Proof.
  pose proof (within_ahead (ir_part env) (ip_refl env) (ip_trans env) iparams n B s2 s2 HB (fun x _ => ip_refl env x s2)) as H.
  destruct (ahead n B s2). apply H.
Qed.

Lemma two_threads sched : forall (p : Prog IR A) nB sA r,
  ikeeps p ->
  let x := play sched (iglue sA (b nB), [p; snd (ahead nB B s2)]) in
  ended x 0 r ->
  exists t, (forall k, (t k <= t (S k))%nat) /\ (nB <= t 0%nat)%nat /\
    exists sA', fst (ifollow p t 0 sA) = (sA', r) /\
      exists nB', fst x = iglue sA' (b nB') /\ nth_error (snd x) 1 = Some (snd (ahead nB' B s2)).
Proof.
  induction sched as [|i sched IH]; intros p nB sA r K x E; subst x.
  - cbn in E. injection E as ->. exists (fun _ => nB). split; [reflexivity|]. split; [reflexivity|]. exists sA. split; [reflexivity|].
    exists nB. split; reflexivity.
  - cbn [play] in E |- *. unfold turn in E |- *. destruct i as [|[|i]].
    + cbn [nth_error] in *. destruct p as [r'|w k].
      * exact (IH (Done r') nB sA r K E).
      * cbn [firstn app skipn] in *. inversion K as [|w' k' H1 H2]; subst. rewrite (iglue_keep w sA (b nB) H1) in E |- *.
        destruct (IH (k (iglue sA (b nB))) nB (iglue (w (iglue sA (b nB))) sA) r (H2 _) E) as (t & T1 & T2 & sA' & F & R).
        exists (fun j => match j with O => nB | S j => t j end). split; [intros [|j]; [exact T2|apply T1]|]. split; [reflexivity|].
        exists sA'. split; [|exact R]. rewrite <- F. cbn [ifollow]. apply ifollow_shift. intros j. reflexivity.
    + cbn [nth_error] in *. pose proof (within_ahead_B nB) as W. pose proof (ahead_S nB B s2) as Es. pose proof (Hb nB) as E1.
      pose proof (Hb (S nB)) as E2. rewrite Es in E2. destruct (ahead nB B s2) as [sb q] eqn:Eq. cbn [fst snd] in *.
      assert (G : match q with Act w k => (w (iglue sA (b nB)), [p; k (iglue sA (b nB))]) | Done _ => (iglue sA (b nB), [p; q]) end
                  = (iglue sA (b (S nB)), [p; snd (ahead (S nB) B s2)])).
      { rewrite Es. destruct q as [r'|w k].
        - cbn [ahead fst snd]. rewrite E2, E1. reflexivity.
        - inversion W as [|w' k' H1 H2 H3]; subst.
          assert (Ag : agree (ir_part env) iparams (iglue sA (b nB)) (b nB)) by (intros x Hx; apply iglue_part, Hx).
          destruct (H2 _ _ Ag) as [P Q]. cbn [ahead]. cbn [ahead fst snd] in *. rewrite E2. rewrite Q. f_equal. apply (ip_all env). intros [y|].
          + eapply ip_trans; [apply P; discriminate|]. apply ip_sym, iglue_part. discriminate.
          + eapply ip_trans; [apply H1; intros N; apply N; reflexivity|reflexivity]. }
      assert (E' : ended (play sched (iglue sA (b (S nB)), [p; snd (ahead (S nB) B s2)])) 0 r).
      { rewrite <- G. destruct q; exact E. }
      destruct (IH p (S nB) sA r K E') as (t & T1 & T2 & sA' & F & R).
      exists t. split; [exact T1|]. split; [lia|]. exists sA'. split; [exact F|]. rewrite <- G in R. destruct q; exact R.
    + destruct i; exact (IH p nB sA r K E).
Qed.
End Two.
End During.
