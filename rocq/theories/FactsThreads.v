(** Property C68: threads. *)
From Coq Require Import List String QArith ZArith Bool Arith Lia.
From RecordUpdate Require Import RecordUpdate.
From Verif Require Import Arith Pint Base TwoLayer Impulse Scm Api Spec Threads SpecThreads ThreadsProof NonInterf.
Import ListNotations.

(** ** One thread alone *)

(** Without other threads, the actions of a thread are the calls of the model. *)
Theorem c68_alone : forall (env : Env) parse_unit,
  (forall ops s, alone (ptl_thread env parse_unit ops) s = (tl_calls env parse_unit ops s, Ok (tl_outcomes env parse_unit ops s))) /\
  (forall ops s, alone (pir_thread env parse_unit ops) s = (ir_calls env parse_unit ops s, Ok (ir_outcomes env parse_unit ops s))).
Proof. intros env pu. split; intros ops s; [apply alone_tl_thread|apply alone_ir_thread]. Qed.

(** ** Threads on different objects *)
Lemma lift_alone {W S A} (get : W -> S) put (p : Prog S A) m : (forall s m, get (put s m) = s) ->
  get (fst (alone (plift get put p) m)) = fst (alone p (get m)) /\ snd (alone (plift get put p) m) = snd (alone p (get m)).
Proof.
  intros H. revert m. induction p as [r|w k IH]; intros m; cbn; [auto|]. destruct (IH (get m) (put (w (get m)) m)) as [E1 E2].
  rewrite H in E1, E2. auto.
Qed.
Section Apart.
Context (env : Env) (pu : string -> option (Qty env)).
Definition same_obj (x : nat + nat) (m m' : Memory env) : Prop :=
  match x with inl i => fst m i = fst m' i | inr i => snd m i = snd m' i end.
Lemma within_lift_tl {A} i (p : Prog (TL env) A) :
  within same_obj (eq (inl i)) (plift (fun m : Memory env => fst m i) (fun s m => (at_put (fst m) i s, snd m)) p).
Proof.
  induction p as [r|w k IH]; cbn; constructor; try exact (fun m => IH (fst m i)).
  - intros m [j|j] N; cbn; [|reflexivity]. unfold at_put. destruct (Nat.eqb_spec i j); [subst; exfalso; apply N; reflexivity|reflexivity].
  - intros m m' E. specialize (E (inl i) eq_refl) as E'. cbn in E'. rewrite E'. split; [|reflexivity].
    intros x <-. cbn. unfold at_put. rewrite Nat.eqb_refl. reflexivity.
Qed.
Lemma within_lift_ir {A} i (p : Prog (IR env) A) :
  within same_obj (eq (inr i)) (plift (fun m : Memory env => snd m i) (fun s m => (fst m, at_put (snd m) i s)) p).
Proof.
  induction p as [r|w k IH]; cbn; constructor; try exact (fun m => IH (snd m i)).
  - intros m [j|j] N; cbn; [reflexivity|]. unfold at_put. destruct (Nat.eqb_spec i j); [subst; exfalso; apply N; reflexivity|reflexivity].
  - intros m m' E. specialize (E (inr i) eq_refl) as E'. cbn in E'. rewrite E'. split; [|reflexivity].
    intros x <-. cbn. unfold at_put. rewrite Nat.eqb_refl. reflexivity.
Qed.
Lemma within_worker w : within same_obj (eq (object_of env w)) (worker_thread env pu w).
Proof. destruct w; [apply within_lift_tl|apply within_lift_ir]. Qed.
Lemma workers_within ws : Forall2 (fun p D => within same_obj D p) (map (worker_thread env pu) ws) (map (fun w => eq (object_of env w)) ws).
Proof. induction ws; constructor; [apply within_worker|assumption]. Qed.
Lemma workers_disjoint ws : NoDup (map (object_of env) ws) ->
  forall i j D E x, i <> j -> nth_error (map (fun w => eq (object_of env w)) ws) i = Some D ->
    nth_error (map (fun w => eq (object_of env w)) ws) j = Some E -> D x -> E x -> False.
Proof.
  intros N i j D E x Hij Hi Hj Dx Ex. rewrite nth_error_map in Hi, Hj.
  destruct (nth_error ws i) as [wi|] eqn:Ei; [|discriminate]. destruct (nth_error ws j) as [wj|] eqn:Ej; [|discriminate].
  injection Hi as <-. injection Hj as <-. apply Hij. eapply (NoDup_nth_error (map (object_of env) ws)); [exact N| |].
  - rewrite map_length. eapply nth_error_Some_lt, Ei.
  - rewrite !nth_error_map, Ei, Ej. cbn. congruence.
Qed.
Lemma so_refl x m : same_obj x m m. Proof. destruct x; reflexivity. Qed.
Lemma so_sym x m m' : same_obj x m m' -> same_obj x m' m. Proof. destruct x; cbn; auto. Qed.
Lemma so_trans x m m' m'' : same_obj x m m' -> same_obj x m' m'' -> same_obj x m m''. Proof. destruct x; cbn; congruence. Qed.
End Apart.

(** Threads that work on different objects: whatever the order in which they act, when
    all have ended every object is what its thread alone would have made of it, every
    call has returned or raised what it would have, and other objects are unchanged. *)
Theorem c68_different_objects : forall (env : Env) parse_unit workers memory sched,
  NoDup (map (object_of env) workers) ->
  let x := play sched (memory, map (worker_thread env parse_unit) workers) in
  finished x ->
  (forall k i ops, nth_error workers k = Some (OnTL env i ops) ->
     fst (fst x) i = tl_calls env parse_unit ops (fst memory i) /\ ended x k (Ok (tl_outcomes env parse_unit ops (fst memory i)))) /\
  (forall k i ops, nth_error workers k = Some (OnIR env i ops) ->
     snd (fst x) i = ir_calls env parse_unit ops (snd memory i) /\ ended x k (Ok (ir_outcomes env parse_unit ops (snd memory i)))) /\
  (forall i, ~ In (inl i) (map (object_of env) workers) -> fst (fst x) i = fst memory i) /\
  (forall i, ~ In (inr i) (map (object_of env) workers) -> snd (fst x) i = snd memory i).
Proof.
  intros env pu ws m sched N x F. subst x.
  destruct (play_apart_ends (same_obj env) (so_refl env) (so_trans env) _ _ (workers_within env pu ws) (workers_disjoint env ws N) m sched F)
    as [P Q].
  assert (R : forall z, ~ In z (map (object_of env) ws) -> same_obj env z (fst (play sched (m, map (worker_thread env pu) ws))) m).
  { intros z Nz. apply Q. intros i D E. rewrite nth_error_map in E. destruct (nth_error ws i) as [w|] eqn:Ew; [|discriminate].
    injection E as <-. intros <-. apply Nz. apply in_map. eapply nth_error_In, Ew. }
  split; [|split; [|split; [exact (fun i => R (inl i))|exact (fun i => R (inr i))]]].
  - intros k i ops Hk. destruct (P k (worker_thread env pu (OnTL env i ops)) (eq (inl i))) as [P1 P2];
      [rewrite nth_error_map, Hk; reflexivity|rewrite nth_error_map, Hk; reflexivity|].
    cbn [worker_thread] in P1, P2. pose proof (P2 (inl i) eq_refl) as P3. cbn [same_obj] in P3.
    pose proof (lift_alone (fun m : Memory env => fst m i) (fun s m => (at_put (fst m) i s, snd m)) (ptl_thread env pu ops) m) as [L1 L2].
    { intros s m'. cbn. unfold at_put. rewrite Nat.eqb_refl. reflexivity. }
    rewrite alone_tl_thread in L1, L2. cbn [fst snd] in *. split; [etransitivity; [exact P3|exact L1]|]. rewrite L2 in P1. exact P1.
  - intros k i ops Hk. destruct (P k (worker_thread env pu (OnIR env i ops)) (eq (inr i))) as [P1 P2];
      [rewrite nth_error_map, Hk; reflexivity|rewrite nth_error_map, Hk; reflexivity|].
    cbn [worker_thread] in P1, P2. pose proof (P2 (inr i) eq_refl) as P3. cbn [same_obj] in P3.
    pose proof (lift_alone (fun m : Memory env => snd m i) (fun s m => (fst m, at_put (snd m) i s)) (pir_thread env pu ops) m) as [L1 L2].
    { intros s m'. cbn. unfold at_put. rewrite Nat.eqb_refl. reflexivity. }
    rewrite alone_ir_thread in L1, L2. cbn [fst snd] in *. split; [etransitivity; [exact P3|exact L1]|]. rewrite L2 in P1. exact P1.
Qed.
(** They do end: some number of turns each is enough, in any order. *)
Theorem c68_different_objects_end : forall (env : Env) parse_unit workers memory,
  NoDup (map (object_of env) workers) ->
  exists n, forall sched, turns_each (List.length workers) n sched ->
    finished (play sched (memory, map (worker_thread env parse_unit) workers)).
Proof.
  intros env pu ws m N.
  destruct (play_apart_turns (same_obj env) (so_refl env) (so_trans env) _ _ (workers_within env pu ws) (workers_disjoint env ws N) m) as (n & H).
  exists n. intros sched T. apply H. rewrite map_length. exact T.
Qed.

(** ** Threads that assign different parameters of one object *)
Section Assign.
Context (env : Env) (pu : string -> option (Qty env)).
Definition tl_part (x : option tl_param) (s s' : TL env) : Prop :=
  match x with
  | Some Pdu => (tl_du env s, tl_du_mag env s, tl_hcu_mag env s) = (tl_du env s', tl_du_mag env s', tl_hcu_mag env s')
  | Some Pdl => (tl_dl env s, tl_dl_mag env s, tl_hcl_mag env s) = (tl_dl env s', tl_dl_mag env s', tl_hcl_mag env s')
  | Some Plambda0 => (tl_lambda0 env s, tl_lambda0_mag env s) = (tl_lambda0 env s', tl_lambda0_mag env s')
  | Some Pa => (tl_a env s, tl_a_mag env s) = (tl_a env s', tl_a_mag env s')
  | Some Pefficacy => (tl_efficacy env s, tl_efficacy_mag env s) = (tl_efficacy env s', tl_efficacy_mag env s')
  | Some Peta => (tl_eta env s, tl_eta_mag env s) = (tl_eta env s', tl_eta_mag env s')
  | Some Pdelta_t => (tl_delta_t env s, tl_delta_t_mag env s) = (tl_delta_t env s', tl_delta_t_mag env s')
  | None => (tl_erf env s, tl_erf_mag env s, tl_temp_upper env s, tl_temp_lower env s, tl_rndt env s, tl_idx env s)
          = (tl_erf env s', tl_erf_mag env s', tl_temp_upper env s', tl_temp_lower env s', tl_rndt env s', tl_idx env s')
  end.
Lemma tp_refl x s : tl_part x s s. Proof. destruct x as [[]|]; reflexivity. Qed.
Lemma tp_sym x s s' : tl_part x s s' -> tl_part x s' s. Proof. destruct x as [[]|]; cbn [tl_part]; intros ->; reflexivity. Qed.
Lemma tp_trans x s s' s'' : tl_part x s s' -> tl_part x s' s'' -> tl_part x s s''.
Proof. destruct x as [[]|]; cbn [tl_part]; intros -> ->; reflexivity. Qed.
Lemma tp_all s s' : (forall x, tl_part x s s') -> s = s'.
Proof.
  intros H. pose proof (H None) as H0. pose proof (H (Some Pdu)) as H1. pose proof (H (Some Pdl)) as H2.
  pose proof (H (Some Plambda0)) as H3. pose proof (H (Some Pa)) as H4. pose proof (H (Some Pefficacy)) as H5.
  pose proof (H (Some Peta)) as H6. pose proof (H (Some Pdelta_t)) as H7. clear H.
  destruct s, s'. cbn in *. repeat match goal with E : (_, _) = (_, _) |- _ => inversion E; clear E end. subst. reflexivity.
Qed.
Lemma within_write (D : option tl_param -> Prop) (f : TL env -> TL env) :
  (forall s x, ~ D x -> tl_part x (f s) s) -> (forall s s', agree tl_part D s s' -> agree tl_part D (f s) (f s')) ->
  within tl_part D (pwrite f).
Proof. intros H1 H2. constructor; [exact H1|intros s s' E; split; [apply H2, E|reflexivity]|intros; constructor]. Qed.
Lemma within_read (D : option tl_param -> Prop) {A} (r : TL env -> Res A) :
  (forall s s', agree tl_part D s s' -> r s = r s') -> within tl_part D (pread r).
Proof.
  intros H. constructor; [intros; apply tp_refl|intros s s' E; split; [exact E|]|intros; constructor].
  cbn. rewrite (H s s' E). reflexivity.
Qed.
Ltac part_write :=
  apply within_write;
  [intros s [[]|] N; first [reflexivity | exfalso; apply N; reflexivity]
  |intros s s' E x <-; specialize (E _ eq_refl); cbn in E |- *; injection E as; cbn in *; congruence].
Lemma within_set p v : within tl_part (eq (Some p)) (ptl_call env pu (hd (TReset env) (tl_assigning env [(p, v)]))).
Proof.
  destruct p; cbn [tl_assigning map fst snd hd ptl_call]; unfold pnone; (apply within_bind; [|intros _; constructor]);
    (apply within_bind; [constructor|intros q; apply within_bind; [part_write|intros _]]);
    (apply within_bind; [constructor|intros m]); try part_write;
    (apply within_bind; [part_write|intros _]); (apply within_bind; [apply within_read|intros h; part_write]).
  - intros s s' E. specialize (E _ eq_refl). cbn in E. injection E as E1 E2 E3. unfold tl_heat_capacity_upper. rewrite E1. reflexivity.
  - intros s s' E. specialize (E _ eq_refl). cbn in E. injection E as E1 E2 E3. unfold tl_heat_capacity_lower. rewrite E1. reflexivity.
Qed.
Lemma tlp_dec (x y : option tl_param) : x = y \/ x <> y.
Proof. destruct x as [[]|], y as [[]|]; first [left; reflexivity|right; discriminate]. Qed.
Definition assigned (l : list (tl_param * PyVal env)) (x : option tl_param) : Prop := exists p, x = Some p /\ In p (map fst l).
Lemma assigned_dec l x : assigned l x \/ ~ assigned l x.
Proof.
  destruct x as [p|]; [|right; intros (p & E & _); discriminate].
  induction l as [|[q v] l IH]; [right; intros (r & _ & [])|].
  destruct (tlp_dec (Some q) (Some p)) as [E|E]; [left; exists p; split; [reflexivity|left; cbn; congruence]|].
  destruct IH as [(r & Er & Hr)|N]; [left; exists r; split; [exact Er|right; exact Hr]|].
  right. intros (r & Er & [Hr|Hr]); [cbn in Hr; congruence|apply N; exists r; auto].
Qed.
Lemma within_assigning l : within tl_part (assigned l) (ptl_thread env pu (tl_assigning env l)).
Proof.
  apply within_calls. intros o Ho. unfold tl_assigning in Ho. apply in_map_iff in Ho as ([p v] & <- & Hin).
  apply (within_weaken tl_part tp_sym tp_trans (eq (Some p))).
  - intros x <-. exists p. split; [reflexivity|]. apply (in_map fst) in Hin. exact Hin.
  - intros x. destruct (tlp_dec (Some p) x); auto.
  - exact (within_set p v).
Qed.
Lemma threads_within (ls : list (list (tl_param * PyVal env))) :
  Forall2 (fun p D => within tl_part D p) (map (fun l => ptl_thread env pu (tl_assigning env l)) ls) (map assigned ls).
Proof. induction ls; constructor; [apply within_assigning|assumption]. Qed.
Lemma threads_separate (ls : list (list (tl_param * PyVal env))) : separate ls ->
  forall i j D E x, i <> j -> nth_error (map assigned ls) i = Some D -> nth_error (map assigned ls) j = Some E -> D x -> E x -> False.
Proof.
  intros H i j D E x N Hi Hj. rewrite nth_error_map in Hi, Hj.
  destruct (nth_error ls i) as [li|] eqn:Ei; [|discriminate]. destruct (nth_error ls j) as [lj|] eqn:Ej; [|discriminate].
  injection Hi as <-. injection Hj as <-. intros (p & -> & Hp) (p' & E' & Hp'). injection E' as <-. exact (H i j li lj p N Ei Ej Hp Hp').
Qed.
Lemma in_turn_calls ls s : in_turn (map (ptl_thread env pu) ls) s = tl_calls env pu (List.concat ls) s.
Proof.
  revert s. induction ls as [|l ls IH]; intros s; [reflexivity|]. cbn [map List.concat]. unfold in_turn in *. cbn [fold_left].
  rewrite IH, alone_tl_thread. unfold tl_calls. rewrite fold_left_app. reflexivity.
Qed.
End Assign.

Section AssignIR.
Context (env : Env) (pu : string -> option (Qty env)).
Definition ir_part (x : option ir_param) (s s' : IR env) : Prop :=
  match x with
  | Some Pq1 => (ir_q1 env s, ir_q1_mag env s) = (ir_q1 env s', ir_q1_mag env s')
  | Some Pq2 => (ir_q2 env s, ir_q2_mag env s) = (ir_q2 env s', ir_q2_mag env s')
  | Some Pd1 => (ir_d1 env s, ir_d1_mag env s) = (ir_d1 env s', ir_d1_mag env s')
  | Some Pd2 => (ir_d2 env s, ir_d2_mag env s) = (ir_d2 env s', ir_d2_mag env s')
  | Some Peff => (ir_efficacy env s, ir_efficacy_mag env s) = (ir_efficacy env s', ir_efficacy_mag env s')
  | Some Pdt => (ir_delta_t env s, ir_delta_t_mag env s) = (ir_delta_t env s', ir_delta_t_mag env s')
  | None => (ir_erf env s, ir_erf_mag env s, ir_temp1 env s, ir_temp2 env s, ir_rndt env s, ir_idx env s)
          = (ir_erf env s', ir_erf_mag env s', ir_temp1 env s', ir_temp2 env s', ir_rndt env s', ir_idx env s')
  end.
Lemma ip_refl x s : ir_part x s s. Proof. destruct x as [[]|]; reflexivity. Qed.
Lemma ip_sym x s s' : ir_part x s s' -> ir_part x s' s. Proof. destruct x as [[]|]; cbn [ir_part]; intros ->; reflexivity. Qed.
Lemma ip_trans x s s' s'' : ir_part x s s' -> ir_part x s' s'' -> ir_part x s s''.
Proof. destruct x as [[]|]; cbn [ir_part]; intros -> ->; reflexivity. Qed.
Lemma ip_all s s' : (forall x, ir_part x s s') -> s = s'.
Proof.
  intros H. pose proof (H None). pose proof (H (Some Pq1)). pose proof (H (Some Pq2)). pose proof (H (Some Pd1)).
  pose proof (H (Some Pd2)). pose proof (H (Some Peff)). pose proof (H (Some Pdt)). clear H.
  destruct s, s'. cbn in *. repeat match goal with E : (_, _) = (_, _) |- _ => inversion E; clear E end. subst. reflexivity.
Qed.
Lemma within_write_ir (D : option ir_param -> Prop) (f : IR env -> IR env) :
  (forall s x, ~ D x -> ir_part x (f s) s) -> (forall s s', agree ir_part D s s' -> agree ir_part D (f s) (f s')) ->
  within ir_part D (pwrite f).
Proof. intros H1 H2. constructor; [exact H1|intros s s' E; split; [apply H2, E|reflexivity]|intros; constructor]. Qed.
Lemma within_read_ir (D : option ir_param -> Prop) {A} (r : IR env -> Res A) :
  (forall s s', agree ir_part D s s' -> r s = r s') -> within ir_part D (pread r).
Proof.
  intros H. constructor; [intros; apply ip_refl|intros s s' E; split; [exact E|]|intros; constructor].
  cbn. rewrite (H s s' E). reflexivity.
Qed.
Ltac part_write :=
  apply within_write_ir;
  [intros s [[]|] N; first [reflexivity | exfalso; apply N; reflexivity]
  |intros s s' E x <-; specialize (E _ eq_refl); cbn in E |- *; injection E as; cbn in *; congruence].
Lemma within_set_ir p v : within ir_part (eq (Some p)) (pir_call env pu (hd (IReset env) (ir_assigning env [(p, v)]))).
Proof.
  destruct p; cbn [ir_assigning map fst snd hd pir_call]; unfold pnone; (apply within_bind; [|intros _; constructor]);
    (apply within_bind; [constructor|intros q; apply within_bind; [part_write|intros _]]);
    (apply within_bind; [constructor|intros m]); part_write.
Qed.
Lemma irp_dec (x y : option ir_param) : x = y \/ x <> y.
Proof. destruct x as [[]|], y as [[]|]; first [left; reflexivity|right; discriminate]. Qed.
Definition ir_assigned (l : list (ir_param * PyVal env)) (x : option ir_param) : Prop := exists p, x = Some p /\ In p (map fst l).
Lemma ir_assigned_dec l x : ir_assigned l x \/ ~ ir_assigned l x.
Proof.
  destruct x as [p|]; [|right; intros (p & E & _); discriminate].
  induction l as [|[q v] l IH]; [right; intros (r & _ & [])|].
  destruct (irp_dec (Some q) (Some p)) as [E|E]; [left; exists p; split; [reflexivity|left; cbn; congruence]|].
  destruct IH as [(r & Er & Hr)|N]; [left; exists r; split; [exact Er|right; exact Hr]|].
  right. intros (r & Er & [Hr|Hr]); [cbn in Hr; congruence|apply N; exists r; auto].
Qed.
Lemma within_ir_assigning l : within ir_part (ir_assigned l) (pir_thread env pu (ir_assigning env l)).
Proof.
  apply within_calls. intros o Ho. unfold ir_assigning in Ho. apply in_map_iff in Ho as ([p v] & <- & Hin).
  apply (within_weaken ir_part ip_sym ip_trans (eq (Some p))).
  - intros x <-. exists p. split; [reflexivity|]. apply (in_map fst) in Hin. exact Hin.
  - intros x. destruct (irp_dec (Some p) x); auto.
  - exact (within_set_ir p v).
Qed.
Lemma threads_within_ir (ls : list (list (ir_param * PyVal env))) :
  Forall2 (fun p D => within ir_part D p) (map (fun l => pir_thread env pu (ir_assigning env l)) ls) (map ir_assigned ls).
Proof. induction ls; constructor; [apply within_ir_assigning|assumption]. Qed.
Lemma threads_separate_ir (ls : list (list (ir_param * PyVal env))) : separate ls ->
  forall i j D E x, i <> j -> nth_error (map ir_assigned ls) i = Some D -> nth_error (map ir_assigned ls) j = Some E -> D x -> E x -> False.
Proof.
  intros H i j D E x N Hi Hj. rewrite nth_error_map in Hi, Hj.
  destruct (nth_error ls i) as [li|] eqn:Ei; [|discriminate]. destruct (nth_error ls j) as [lj|] eqn:Ej; [|discriminate].
  injection Hi as <-. injection Hj as <-. intros (p & -> & Hp) (p' & E' & Hp'). injection E' as <-. exact (H i j li lj p N Ei Ej Hp Hp').
Qed.
Lemma in_turn_calls_ir ls s : in_turn (map (pir_thread env pu) ls) s = ir_calls env pu (List.concat ls) s.
Proof.
  revert s. induction ls as [|l ls IH]; intros s; [reflexivity|]. cbn [map List.concat]. unfold in_turn in *. cbn [fold_left].
  rewrite IH, alone_ir_thread. unfold ir_calls. rewrite fold_left_app. reflexivity.
Qed.
End AssignIR.

(** Threads that assign parameters, no two of them the same: whatever the order, at the
    end the object is that of one thread after the other, and every assignment has
    succeeded or raised as it would have. *)
Theorem c68_two_layer_parameters : forall (env : Env) parse_unit threads s sched,
  separate threads ->
  let x := play sched (s, map (fun l => ptl_thread env parse_unit (tl_assigning env l)) threads) in
  finished x ->
  fst x = tl_calls env parse_unit (List.concat (map (tl_assigning env) threads)) s /\
  forall i l, nth_error threads i = Some l -> ended x i (Ok (tl_outcomes env parse_unit (tl_assigning env l) s)).
Proof.
  intros env pu ls s sched Hs x F. subst x.
  destruct (play_in_turn (tl_part env) (tp_refl env) (tp_sym env) (tp_trans env) _ _ s sched (threads_within env pu ls)
              (threads_separate env ls Hs)) as [P Q].
  - intros i D x E. rewrite nth_error_map in E. destruct (nth_error ls i); [|discriminate]. injection E as <-. apply assigned_dec.
  - exact F.
  - split.
    + apply (tp_all env) in P. rewrite P. rewrite <- in_turn_calls, map_map. reflexivity.
    + intros i l Hl. specialize (Q i (ptl_thread env pu (tl_assigning env l))). rewrite alone_tl_thread in Q. apply Q.
      rewrite nth_error_map, Hl. reflexivity.
Qed.
Theorem c68_impulse_response_parameters : forall (env : Env) parse_unit threads s sched,
  separate threads ->
  let x := play sched (s, map (fun l => pir_thread env parse_unit (ir_assigning env l)) threads) in
  finished x ->
  fst x = ir_calls env parse_unit (List.concat (map (ir_assigning env) threads)) s /\
  forall i l, nth_error threads i = Some l -> ended x i (Ok (ir_outcomes env parse_unit (ir_assigning env l) s)).
Proof.
  intros env pu ls s sched Hs x F. subst x.
  destruct (play_in_turn (ir_part env) (ip_refl env) (ip_sym env) (ip_trans env) _ _ s sched (threads_within_ir env pu ls)
              (threads_separate_ir env ls Hs)) as [P Q].
  - intros i D x E. rewrite nth_error_map in E. destruct (nth_error ls i); [|discriminate]. injection E as <-. apply ir_assigned_dec.
  - exact F.
  - split.
    + apply (ip_all env) in P. rewrite P. rewrite <- in_turn_calls_ir, map_map. reflexivity.
    + intros i l Hl. specialize (Q i (pir_thread env pu (ir_assigning env l))). rewrite alone_ir_thread in Q. apply Q.
      rewrite nth_error_map, Hl. reflexivity.
Qed.
