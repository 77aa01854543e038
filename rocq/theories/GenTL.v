(** Proofs about [TwoLayerModel] that hold for every number system. *)
From Coq Require Import List String QArith Bool Arith Lia Lqa.
From RecordUpdate Require Import RecordUpdate.
From Verif Require Import Arith Pint Base TwoLayer Impulse Scm Api Spec.
Import ListNotations.

(** ** Lists *)
Lemma upd_length {A} (l : list A) i v : List.length (upd l i v) = List.length l.
Proof. revert i; induction l as [|x l IH]; intros [|i]; cbn; auto. Qed.

Lemma nth_error_upd {A} (l : list A) i j v :
  nth_error (upd l i v) j =
  if Nat.eqb i j then (if Nat.ltb i (List.length l) then Some v else None)
  else nth_error l j.
Proof.
  revert i j; induction l as [|x l IH]; intros i j.
  - cbn. destruct (Nat.eqb i j); destruct j; reflexivity.
  - destruct i as [|i], j as [|j]; cbn [upd nth_error Nat.eqb List.length]; try reflexivity.
    rewrite IH. reflexivity.
Qed.

Definition fill {A} (d : A) (f : nat -> A) (k n : nat) : list A :=
  map f (seq 0 k) ++ repeat d (n - k).

Lemma fill_length {A} (d : A) f k n : (k <= n)%nat -> List.length (fill d f k n) = n.
Proof. intros H. unfold fill. rewrite app_length, map_length, seq_length, repeat_length. lia. Qed.

Lemma fill_nth_lt {A} (d : A) f k n j : (j < k)%nat -> nth_error (fill d f k n) j = Some (f j).
Proof.
  intros H. unfold fill. rewrite nth_error_app1 by (rewrite map_length, seq_length; lia).
  rewrite nth_error_map, nth_error_nth' with (d := 0%nat) by (rewrite seq_length; lia).
  rewrite seq_nth by lia. reflexivity.
Qed.

Lemma fill_nth_ge {A} (d : A) f k n j : (k <= j < n)%nat -> nth_error (fill d f k n) j = Some d.
Proof.
  intros H. unfold fill. rewrite nth_error_app2; rewrite map_length, seq_length; [|lia].
  apply nth_error_repeat. lia.
Qed.

Lemma fill_0 {A} (d : A) f n : fill d f 0 n = repeat d n.
Proof. unfold fill; cbn. rewrite Nat.sub_0_r; reflexivity. Qed.

Lemma fill_full {A} (d : A) f n : fill d f n n = map f (seq 0 n).
Proof. unfold fill. rewrite Nat.sub_diag; cbn. apply app_nil_r. Qed.

Lemma nth_error_ext' {A} (l1 l2 : list A) :
  (forall i, nth_error l1 i = nth_error l2 i) -> l1 = l2.
Proof.
  revert l2; induction l1 as [|x l1 IH]; intros [|y l2] H.
  - reflexivity.
  - specialize (H 0%nat); discriminate.
  - specialize (H 0%nat); discriminate.
  - pose proof (H 0%nat) as H0; cbn in H0; injection H0 as ->.
    f_equal. apply IH. intros i. exact (H (S i)).
Qed.

Lemma upd_fill {A} (d : A) f k n :
  (k < n)%nat -> upd (fill d f k n) k (f k) = fill d f (S k) n.
Proof.
  intros H. apply nth_error_ext'. intros i. rewrite nth_error_upd.
  destruct (Nat.eqb_spec k i) as [->|Hne].
  - rewrite fill_length by lia. destruct (Nat.ltb_spec i n); [|lia].
    symmetry; apply fill_nth_lt; lia.
  - destruct (Nat.lt_ge_cases i k).
    + rewrite !fill_nth_lt by lia; reflexivity.
    + destruct (Nat.lt_ge_cases i n).
      * rewrite !fill_nth_ge by lia; reflexivity.
      * rewrite (proj2 (nth_error_None _ _)), (proj2 (nth_error_None _ _)); auto;
          rewrite fill_length; lia.
Qed.

Lemma map_const_repeat {A B} (d : B) (l : list A) : map (fun _ => d) l = repeat d (List.length l).
Proof. induction l; cbn; congruence. Qed.

Lemma lset_ok {A} (l : list A) i v : (i < List.length l)%nat -> lset l i v = Ok (upd l i v).
Proof. intros H. unfold lset. destruct (Nat.ltb_spec i (List.length l)); [reflexivity|lia]. Qed.

Lemma lset_err {A} (l : list A) i v : (List.length l <= i)%nat -> lset l i v = Err IndexError.
Proof. intros H. unfold lset. destruct (Nat.ltb_spec i (List.length l)); [lia|reflexivity]. Qed.

Lemma lget_some {A} (l : list A) i x : nth_error l i = Some x -> lget l i = Ok x.
Proof. unfold lget; intros ->; reflexivity. Qed.

(** ** Dimensions *)
Section Dim.
Variable env : Env.
Notation same_dim := (same_dim env).

Lemma dim_eqb_spec u v : dim_eqb env u v = true <-> same_dim u v.
Proof.
  unfold dim_eqb, same_dim. rewrite forallb_forall. split.
  - intros H k Hk. apply Qeq_bool_iff, H, in_seq. lia.
  - intros H k Hk. apply in_seq in Hk. apply Qeq_bool_iff, H. lia.
Qed.

Lemma dimx_app u v k : dimx env (u ++ v) k == dimx env u k + dimx env v k.
Proof.
  induction u as [|[s e] u IH]; cbn [dimx app].
  - ring.
  - rewrite IH. ring.
Qed.

Lemma dimx_upow u p k : dimx env (upow u p) k == p * dimx env u k.
Proof.
  induction u as [|[s e] u IH]; cbn [dimx upow map fst snd].
  - ring.
  - fold (upow u p). rewrite IH. ring.
Qed.

Lemma dimx_uinv u k : dimx env (uinv u) k == - dimx env u k.
Proof. unfold uinv. rewrite dimx_upow. ring. Qed.

Lemma dimx_umul u v k : dimx env (umul u v) k == dimx env u k + dimx env v k.
Proof. apply dimx_app. Qed.

Lemma dimx_udiv u v k : dimx env (udiv u v) k == dimx env u k - dimx env v k.
Proof. unfold udiv. rewrite dimx_umul, dimx_uinv. ring. Qed.

Lemma to_mag_ok_iff (q : Qty env) u : (exists m, to_mag env q u = Ok m) <-> same_dim (units q) u.
Proof.
  rewrite <- dim_eqb_spec. unfold to_mag, conv.
  destruct (dim_eqb env (units q) u); split; intros H; try discriminate; eauto.
  destruct H; discriminate.
Qed.

Lemma to_mag_err (q : Qty env) u : ~ same_dim (units q) u -> to_mag env q u = Err DimensionalityError.
Proof.
  intros H. unfold to_mag, conv. destruct (dim_eqb env (units q) u) eqn:E; [|reflexivity].
  apply dim_eqb_spec in E; contradiction.
Qed.

Lemma to_mags_ok_iff (q : QArr env) u : (exists m, to_mags env q u = Ok m) <-> same_dim (aunits q) u.
Proof.
  rewrite <- dim_eqb_spec. unfold to_mags.
  destruct (dim_eqb env (aunits q) u); split; intros H; try discriminate; eauto.
  destruct H; discriminate.
Qed.

Lemma to_mags_err (q : QArr env) u : ~ same_dim (aunits q) u -> to_mags env q u = Err DimensionalityError.
Proof.
  intros H. unfold to_mags. destruct (dim_eqb env (aunits q) u) eqn:E; [|reflexivity].
  apply dim_eqb_spec in E; contradiction.
Qed.

Lemma to_mags_length (q : QArr env) u m :
  to_mags env q u = Ok m -> List.length m = List.length (mags q).
Proof.
  unfold to_mags. destruct (dim_eqb env (aunits q) u); [|discriminate].
  destruct (units_eqb (aunits q) u); intros H; injection H as <-; [|rewrite map_length]; reflexivity.
Qed.

Lemma same_dim_dec u v : {same_dim u v} + {~ same_dim u v}.
Proof.
  destruct (dim_eqb env u v) eqn:E.
  - left. apply dim_eqb_spec, E.
  - right. intros H. apply dim_eqb_spec in H. congruence.
Qed.

Lemma heat_capacity_dim (q : Qty env) :
  same_dim (units q) u_m ->
  same_dim (units (qmul env (qmul env q (DENSITY_WATER env)) (HEAT_CAPACITY_WATER env))) u_JCm2.
Proof.
  intros H k Hk. specialize (H k Hk). cbn [qmul units DENSITY_WATER HEAT_CAPACITY_WATER mkQty].
  rewrite !dimx_umul, H. cbn [dimx u_m u_kgm3 u_JCkg u_JCm2]. ring.
Qed.

(** The check performed by every setter. *)
Lemma assert_quantity_spec (v : PyVal env) u :
  assert_quantity env v u =
  match v with
  | POther => Err TypeError
  | PQ q => if same_dim_dec (units q) u then Ok q else Err UnitError
  end.
Proof.
  destruct v as [q|]; [|reflexivity]. unfold assert_quantity.
  destruct (same_dim_dec (units q) u) as [H|H].
  - destruct (proj2 (to_mag_ok_iff q u) H) as [m ->]. reflexivity.
  - rewrite to_mag_err by assumption. reflexivity.
Qed.

Lemma assert_quantity_arr_spec (v : option (QArr env)) u :
  assert_quantity_arr env v u =
  match v with
  | None => Err TypeError
  | Some q => if same_dim_dec (aunits q) u then Ok q else Err UnitError
  end.
Proof.
  destruct v as [q|]; [|reflexivity]. unfold assert_quantity_arr.
  destruct (same_dim_dec (aunits q) u) as [H|H].
  - destruct (proj2 (to_mags_ok_iff q u) H) as [m ->]. reflexivity.
  - rewrite to_mags_err by assumption. reflexivity.
Qed.
End Dim.

(** ** The two-layer model *)
Section TLP.
Variable env : Env.
Notation num := (num env).
Notation TL := (TL env).

(** Symbolic evaluation of the little imperative language. *)
Ltac mstep := cbv [mbind mread mmod mret mraise] in *; cbn [bind] in *.

(** State with other run results. *)
Definition with_run (s : TL) (i : option nat) (U L R : list num) : TL :=
  mkTL env (tl_du env s) (tl_dl env s) (tl_lambda0 env s) (tl_a env s) (tl_efficacy env s)
    (tl_eta env s) (tl_delta_t env s) (tl_du_mag env s) (tl_dl_mag env s) (tl_lambda0_mag env s)
    (tl_a_mag env s) (tl_efficacy_mag env s) (tl_eta_mag env s) (tl_delta_t_mag env s)
    (tl_hcu_mag env s) (tl_hcl_mag env s) (tl_erf env s) (tl_erf_mag env s) U L R i.

Lemma with_run_same s : with_run s (tl_idx env s) (tl_temp_upper env s) (tl_temp_lower env s) (tl_rndt env s) = s.
Proof. destruct s; reflexivity. Qed.

Lemma with_run_run s i U L R i' U' L' R' :
  with_run (with_run s i U L R) i' U' L' R' = with_run s i' U' L' R'.
Proof. reflexivity. Qed.

(** The pure recurrence computed by a run. *)
Definition next_upper (s : TL) (tu tl f : num) : num :=
  calculate_next_temp_upper env (tl_delta_t_mag env s) tu tl f (tl_lambda0_mag env s)
    (tl_a_mag env s) (tl_efficacy_mag env s) (tl_eta_mag env s) (tl_hcu_mag env s).
Definition next_lower (s : TL) (tl tu : num) : num :=
  calculate_next_temp_lower env (tl_delta_t_mag env s) tl tu (tl_eta_mag env s) (tl_hcl_mag env s).
Definition next_rndt (s : TL) (tl' tl tu' tu : num) : num :=
  calculate_next_rndt env (tl_delta_t_mag env s) tl' tl (tl_hcl_mag env s) tu' tu (tl_hcu_mag env s).

Fixpoint traj (s : TL) (F : nat -> num) (n : nat) : num * num :=
  match n with
  | O => (nQ env 0, nQ env 0)
  | S j => let p := traj s F j in
           (next_upper s (fst p) (snd p) (F j), next_lower s (snd p) (fst p))
  end.
Definition trajU s F n := fst (traj s F n).
Definition trajL s F n := snd (traj s F n).
Definition trajR s F n : num :=
  match n with
  | O => nQ env 0
  | S j => next_rndt s (trajL s F (S j)) (trajL s F j) (trajU s F (S j)) (trajU s F j)
  end.

Definition at_ (m : list num) (i : nat) : num := nth i m (nnan env).

Lemma next_upper_with s i U L R : next_upper (with_run s i U L R) = next_upper s.
Proof. reflexivity. Qed.

Lemma traj_ext s F G n : (forall i, (i < n)%nat -> F i = G i) -> traj s F n = traj s G n.
Proof.
  induction n as [|n IH]; intros H; [reflexivity|].
  cbn [traj]. rewrite IH, (H n) by auto with arith. reflexivity.
Qed.

(** One step from a state in which the first [k] entries are filled. *)
Lemma step_fill s m k n F U L R :
  tl_erf_mag env s = Some m -> n = List.length m -> (k < n)%nat ->
  (forall i, (i < n)%nat -> F i = at_ m i) ->
  U = fill (nnan env) (trajU s F) k n ->
  L = fill (nnan env) (trajL s F) k n ->
  R = fill (nnan env) (trajR s F) k n ->
  tl_step env (with_run s (match k with O => None | S j => Some j end) U L R) =
  (with_run s (Some k) (fill (nnan env) (trajU s F) (S k) n)
     (fill (nnan env) (trajL s F) (S k) n) (fill (nnan env) (trajR s F) (S k) n), Ok tt).
Proof.
  intros Hm Hn Hk HF -> -> ->.
  assert (LU : forall f : nat -> num, List.length (fill (nnan env) f k n) = n)
    by (intros; apply fill_length; lia).
  assert (LU' : forall f : nat -> num, List.length (fill (nnan env) f (S k) n) = n)
    by (intros; apply fill_length; lia).
  unfold tl_step, tl_step_at, tl_put_upper, tl_put_lower, tl_put_rndt.
  destruct k as [|j].
  - mstep. cbn [with_run tl_idx tl_temp_upper tl_temp_lower tl_rndt set].
    rewrite lset_ok by (rewrite LU; lia).
    cbn [bind with_run tl_idx tl_temp_upper tl_temp_lower tl_rndt set].
    rewrite lset_ok by (rewrite LU; lia).
    cbn [bind with_run tl_idx tl_temp_upper tl_temp_lower tl_rndt set].
    rewrite lset_ok by (rewrite LU; lia).
    assert (E1 := upd_fill (nnan env) (trajU s F) 0 n Hk).
    assert (E2 := upd_fill (nnan env) (trajL s F) 0 n Hk).
    assert (E3 := upd_fill (nnan env) (trajR s F) 0 n Hk).
    change (trajU s F 0) with (nQ env 0) in E1.
    change (trajL s F 0) with (nQ env 0) in E2.
    change (trajR s F 0) with (nQ env 0) in E3.
    rewrite E1, E2, E3. reflexivity.
  - mstep. cbn [with_run tl_idx tl_temp_upper tl_temp_lower tl_rndt set].
    unfold tl_erf_at. cbn [tl_erf_mag with_run set].
    rewrite Hm.
    assert (Hf : lget m j = Ok (F j)).
    { rewrite HF by lia. apply lget_some. unfold at_. apply nth_error_nth'. lia. }
    rewrite Hf.
    rewrite !(lget_some _ _ _ (fill_nth_lt (nnan env) _ (S j) n j ltac:(lia))).
    cbn [bind]. rewrite lset_ok by (rewrite LU; lia).
    cbn [bind with_run tl_idx tl_temp_upper tl_temp_lower tl_rndt set
         tl_delta_t_mag tl_lambda0_mag tl_a_mag tl_efficacy_mag tl_eta_mag tl_hcu_mag tl_hcl_mag].
    change (calculate_next_temp_upper env (tl_delta_t_mag env s) (trajU s F j) (trajL s F j) (F j)
              (tl_lambda0_mag env s) (tl_a_mag env s) (tl_efficacy_mag env s) (tl_eta_mag env s)
              (tl_hcu_mag env s)) with (trajU s F (S j)).
    rewrite !upd_fill by lia.
    rewrite !(lget_some _ _ _ (fill_nth_lt (nnan env) _ (S j) n j ltac:(lia))).
    rewrite !(lget_some _ _ _ (fill_nth_lt (nnan env) _ (S (S j)) n j ltac:(lia))).
    cbn [bind]. rewrite lset_ok by (rewrite LU; lia).
    cbn [bind with_run tl_idx tl_temp_upper tl_temp_lower tl_rndt set
         tl_delta_t_mag tl_lambda0_mag tl_a_mag tl_efficacy_mag tl_eta_mag tl_hcu_mag tl_hcl_mag].
    change (calculate_next_temp_lower env (tl_delta_t_mag env s) (trajL s F j) (trajU s F j)
              (tl_eta_mag env s) (tl_hcl_mag env s)) with (trajL s F (S j)).
    rewrite !upd_fill by lia.
    rewrite !(lget_some _ _ _ (fill_nth_lt (nnan env) _ (S (S j)) n j ltac:(lia))).
    rewrite !(lget_some _ _ _ (fill_nth_lt (nnan env) _ (S (S j)) n (S j) ltac:(lia))).
    cbn [bind]. rewrite lset_ok by (rewrite LU; lia).
    cbn [bind with_run tl_idx tl_temp_upper tl_temp_lower tl_rndt set
         tl_delta_t_mag tl_lambda0_mag tl_a_mag tl_efficacy_mag tl_eta_mag tl_hcu_mag tl_hcl_mag].
    change (calculate_next_rndt env (tl_delta_t_mag env s) (trajL s F (S j)) (trajL s F j)
              (tl_hcl_mag env s) (trajU s F (S j)) (trajU s F j) (tl_hcu_mag env s))
      with (trajR s F (S j)).
    rewrite !upd_fill by lia. reflexivity.
Qed.

Lemma steps_app k1 k2 s :
  tl_steps env (k1 + k2) s = mbind (tl_steps env k1) (fun _ => tl_steps env k2) s.
Proof.
  revert s; induction k1 as [|k1 IH]; intros s; [reflexivity|].
  cbn [Nat.add tl_steps]. unfold mbind at 1 3. unfold mbind.
  destruct (tl_step env s) as [s' [[]|e]]; [|reflexivity].
  rewrite IH. reflexivity.
Qed.

Definition idx_of (k : nat) : option nat := match k with O => None | S j => Some j end.

(** The first [k] entries computed, the others NaN. *)
Definition filled (s : TL) (m : list num) (k : nat) : TL :=
  with_run s (idx_of k) (fill (nnan env) (trajU s (at_ m)) k (List.length m))
    (fill (nnan env) (trajL s (at_ m)) k (List.length m))
    (fill (nnan env) (trajR s (at_ m)) k (List.length m)).

Lemma step_filled s m k :
  tl_erf_mag env s = Some m -> (k < List.length m)%nat ->
  tl_step env (filled s m k) = (filled s m (S k), Ok tt).
Proof.
  intros Hm Hk. unfold filled.
  apply (step_fill s m k (List.length m) (at_ m)); auto.
Qed.

Lemma steps_filled s m j k :
  tl_erf_mag env s = Some m -> (j + k <= List.length m)%nat ->
  tl_steps env k (filled s m j) = (filled s m (j + k), Ok tt).
Proof.
  intros Hm. revert j; induction k as [|k IH]; intros j Hk.
  - rewrite Nat.add_0_r. reflexivity.
  - cbn [tl_steps]. unfold mbind. rewrite step_filled by (auto; lia).
    rewrite IH by lia. replace (S j + k)%nat with (j + S k)%nat by lia. reflexivity.
Qed.

(** A step past the end. *)
Lemma step_overrun s m :
  tl_erf_mag env s = Some m ->
  exists i, tl_step env (filled s m (List.length m)) =
            (with_run (filled s m (List.length m)) (Some i) (tl_temp_upper env (filled s m (List.length m)))
               (tl_temp_lower env (filled s m (List.length m))) (tl_rndt env (filled s m (List.length m))),
             Err IndexError).
Proof.
  intros Hm. remember (List.length m) as n eqn:Hn.
  unfold tl_step, tl_step_at, tl_put_upper, tl_put_lower, tl_put_rndt.
  destruct n as [|j].
  - exists 0%nat. destruct m; [|discriminate]. unfold filled, fill. cbn. reflexivity.
  - exists (S j). mstep. unfold filled. rewrite <- Hn.
    cbn [with_run tl_idx idx_of tl_temp_upper tl_temp_lower tl_rndt set].
    unfold tl_erf_at. cbn [tl_erf_mag with_run set].
    rewrite Hm.
    assert (Hf : lget m j = Ok (at_ m j)).
    { apply lget_some. unfold at_. apply nth_error_nth'. lia. }
    rewrite Hf.
    rewrite !(lget_some _ _ _ (fill_nth_lt (nnan env) _ (S j) (S j) j ltac:(lia))).
    cbn [bind]. rewrite lset_err by (rewrite fill_length; lia).
    reflexivity.
Qed.

(** ** Setters *)
Definition with_erf (s : TL) (e : option (QArr env)) (m : option (list num)) : TL :=
  mkTL env (tl_du env s) (tl_dl env s) (tl_lambda0 env s) (tl_a env s) (tl_efficacy env s)
    (tl_eta env s) (tl_delta_t env s) (tl_du_mag env s) (tl_dl_mag env s) (tl_lambda0_mag env s)
    (tl_a_mag env s) (tl_efficacy_mag env s) (tl_eta_mag env s) (tl_delta_t_mag env s)
    (tl_hcu_mag env s) (tl_hcl_mag env s) e m (tl_temp_upper env s) (tl_temp_lower env s)
    (tl_rndt env s) (tl_idx env s).

Lemma set_erf_ok s e m :
  to_mags env e u_Wm2 = Ok m ->
  tl_set_erf env (Some e) s = (with_erf s (Some e) (Some m), Ok tt).
Proof.
  intros H. unfold tl_set_erf. mstep. rewrite assert_quantity_arr_spec.
  destruct (same_dim_dec env (aunits e) u_Wm2) as [_|n].
  2:{ exfalso; apply n. apply to_mags_ok_iff. eauto. }
  rewrite H. reflexivity.
Qed.

Lemma set_erf_err s e :
  ~ same_dim env (aunits e) u_Wm2 ->
  tl_set_erf env (Some e) s = (s, Err UnitError).
Proof.
  intros H. unfold tl_set_erf. mstep. rewrite assert_quantity_arr_spec.
  destruct (same_dim_dec env (aunits e) u_Wm2); [contradiction|reflexivity].
Qed.

Lemma reset_ok s e m :
  tl_erf env s = Some e -> tl_erf_mag env s = Some m ->
  existsb (nisnan env) (mags e) = false ->
  tl_reset env s = (with_run s None (repeat (nnan env) (List.length m)) (repeat (nnan env) (List.length m))
                     (repeat (nnan env) (List.length m)), Ok tt).
Proof.
  intros He Hm Hn. unfold tl_reset. mstep. rewrite He, Hn. mstep. cbn [tl_erf_mag set].
  rewrite Hm, map_const_repeat. destruct s; reflexivity.
Qed.

Lemma reset_nan s e :
  tl_erf env s = Some e -> existsb (nisnan env) (mags e) = true ->
  tl_reset env s = (s, Err ModelStateError).
Proof. intros He Hn. unfold tl_reset. mstep. rewrite He, Hn. reflexivity. Qed.

Lemma reset_none s : tl_erf env s = None -> tl_reset env s = (s, Err ModelStateError).
Proof. intros He. unfold tl_reset. mstep. rewrite He. reflexivity. Qed.

Lemma traj_indep s s' F :
  (forall tu tl f, next_upper s tu tl f = next_upper s' tu tl f) ->
  (forall tl tu, next_lower s tl tu = next_lower s' tl tu) ->
  forall n, traj s F n = traj s' F n.
Proof.
  intros H1 H2 n; induction n as [|n IH]; [reflexivity|].
  cbn [traj]. rewrite IH, H1, H2. reflexivity.
Qed.

Lemma trajU_with s s' F n : (forall k, traj s F k = traj s' F k) -> trajU s F n = trajU s' F n.
Proof. intros H. unfold trajU; rewrite H; reflexivity. Qed.

Lemma fill_ext {A} (d : A) f g k n : (forall i, f i = g i) -> fill d f k n = fill d g k n.
Proof. intros H. unfold fill. f_equal. apply map_ext, H. Qed.

(** The result does not depend on earlier drivers and results. *)
Lemma filled_forget s e e1 m1 m i U L R k :
  filled (with_erf (with_run (with_erf s e m1) i U L R) e1 (Some m)) m k =
  filled (with_erf s e1 (Some m)) m k.
Proof.
  assert (T : forall F n, traj (with_erf (with_run (with_erf s e m1) i U L R) e1 (Some m)) F n =
                        traj (with_erf s e1 (Some m)) F n).
  { intros F n. apply traj_indep; reflexivity. }
  unfold filled.
  rewrite (fill_ext (nnan env) (trajU (with_erf (with_run (with_erf s e m1) i U L R) e1 (Some m)) (at_ m))
             (trajU (with_erf s e1 (Some m)) (at_ m))).
  2:{ intros j. unfold trajU. rewrite T. reflexivity. }
  rewrite (fill_ext (nnan env) (trajL (with_erf (with_run (with_erf s e m1) i U L R) e1 (Some m)) (at_ m))
             (trajL (with_erf s e1 (Some m)) (at_ m))).
  2:{ intros j. unfold trajL. rewrite T. reflexivity. }
  rewrite (fill_ext (nnan env) (trajR (with_erf (with_run (with_erf s e m1) i U L R) e1 (Some m)) (at_ m))
             (trajR (with_erf s e1 (Some m)) (at_ m))).
  2:{ intros [|j]; cbn [trajR]; [reflexivity|]. unfold trajU, trajL. rewrite !T. reflexivity. }
  reflexivity.
Qed.

(** After [set_drivers] and [reset]. *)
Lemma set_reset_ok s e m :
  to_mags env e u_Wm2 = Ok m -> existsb (nisnan env) (mags e) = false ->
  mbind (tl_set_drivers env (EQ1 e)) (fun _ => tl_reset env) s =
  (filled (with_erf s (Some e) (Some m)) m 0, Ok tt).
Proof.
  intros Hm Hn. unfold mbind. cbn [tl_set_drivers]. rewrite (set_erf_ok s e m Hm).
  rewrite (reset_ok _ e m) by (auto; reflexivity).
  unfold filled. rewrite !fill_0. reflexivity.
Qed.

Lemma drive_ok s e m :
  to_mags env e u_Wm2 = Ok m -> existsb (nisnan env) (mags e) = false ->
  tl_drive env e s = (filled (with_erf s (Some e) (Some m)) m (List.length m), Ok tt).
Proof.
  intros Hm Hn. unfold tl_drive.
  change (mbind (tl_set_drivers env (EQ1 e)) (fun _ => mbind (tl_reset env) (fun _ => tl_run env)) s)
    with (match tl_set_drivers env (EQ1 e) s with
          | (s', Ok _) => mbind (tl_reset env) (fun _ => tl_run env) s'
          | (s', Err e) => (s', Err e) end).
  pose proof (set_reset_ok s e m Hm Hn) as H. unfold mbind in H.
  unfold mbind. destruct (tl_set_drivers env (EQ1 e) s) as [s1 [u|x]]; [|discriminate].
  rewrite H. unfold tl_run.
  replace (tl_erf_len env _) with (List.length m).
  2:{ cbn. apply to_mags_length in Hm. exact Hm. }
  rewrite steps_filled; [reflexivity|reflexivity|lia].
Qed.

Lemma drive_nan s e m :
  to_mags env e u_Wm2 = Ok m -> existsb (nisnan env) (mags e) = true ->
  tl_drive env e s = (with_erf s (Some e) (Some m), Err ModelStateError).
Proof.
  intros Hm Hn. unfold tl_drive, mbind. cbn [tl_set_drivers]. rewrite (set_erf_ok s e m Hm).
  rewrite (reset_nan _ e) by (auto; reflexivity). reflexivity.
Qed.

Lemma drive_unit s e :
  ~ same_dim env (aunits e) u_Wm2 -> tl_drive env e s = (s, Err UnitError).
Proof.
  intros H. unfold tl_drive, mbind. cbn [tl_set_drivers]. rewrite set_erf_err by assumption. reflexivity.
Qed.

End TLP.
