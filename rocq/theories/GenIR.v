(** Proofs about [ImpulseResponseModel] that hold for every number system. *)
From Coq Require Import List String QArith ZArith Bool Arith Lia.
From RecordUpdate Require Import RecordUpdate.
From Verif Require Import Arith Pint Base TwoLayer Impulse Scm Api Spec GenTL.
Import ListNotations.

Lemma units_eqb_refl u : units_eqb u u = true.
Proof. unfold units_eqb. apply forallb_forall. intros s _. apply Qeq_bool_iff. reflexivity. Qed.
Lemma dim_eqb_refl env u : dim_eqb env u u = true.
Proof. unfold dim_eqb. apply forallb_forall. intros s _. apply Qeq_bool_iff. reflexivity. Qed.

Section IRP.
Variable env : Env.
Notation num := (num env).
Notation IR := (IR env).

Ltac mstep := cbv [mbind mread mmod mret mraise] in *; cbn [bind] in *.

Definition iwith_run (s : IR) (i : option nat) (U L R : list num) : IR :=
  mkIR env (ir_q1 env s) (ir_q2 env s) (ir_d1 env s) (ir_d2 env s) (ir_efficacy env s)
    (ir_delta_t env s) (ir_q1_mag env s) (ir_q2_mag env s) (ir_d1_mag env s) (ir_d2_mag env s)
    (ir_efficacy_mag env s) (ir_delta_t_mag env s) (ir_erf env s) (ir_erf_mag env s) U L R i.

(** One box, with a non-zero timescale. *)
Definition box (dt q d t f : num) : num :=
  nadd env (nmul env t (nexp env (ndiv env (nneg env dt) d)))
    (nmul env (nmul env f q) (nsub env (nQ env 1) (nexp env (ndiv env (nneg env dt) d)))).

Lemma calc_temp_ok dt t q d f : neqb env d (nQ env 0) = false ->
  calculate_next_temp env dt t q d f = Ok (box dt q d t f).
Proof. intros H. unfold calculate_next_temp. rewrite H. reflexivity. Qed.

Lemma calc_temp_err dt t q d f : neqb env d (nQ env 0) = true ->
  calculate_next_temp env dt t q d f = Err ZeroDivisionError.
Proof. intros H. unfold calculate_next_temp. rewrite H. reflexivity. Qed.

(** The numbers entering the heat uptake: lambda0, and for an efficacy other
    than one eta, 1-phi1, 1-phi2. *)
Definition heat_pars (s : IR) (eff : num) : Res (num * option (num * num * num)) :=
  do p <- ir_get_two_layer_parameters env s;
  if neqb env eff (nQ env 1) then Ok (mag (tlp_lambda0 env p), None)
  else
    do gh <- geoffroy env (tlp_du env p) (tlp_dl env p) (tlp_lambda0 env p) (tlp_efficacy env p) (tlp_eta env p);
    do omp1 <- rsub env (nQ env 1) (g_phi1 gh);
    do omp2 <- rsub env (nQ env 1) (g_phi2 gh);
    if units_eqb (units (tlp_eta env p) ++ u_dC) u_Wm2
    then Ok (mag (tlp_lambda0 env p), Some (mag (tlp_eta env p), mag omp1, mag omp2))
    else Err AssertionError.

Definition heat (hp : num * option (num * num * num)) (eff t1 t2 f : num) : num :=
  let base := nsub env f (nmul env (fst hp) (nadd env t1 t2)) in
  match snd hp with
  | None => nsub env base (nmul env (nQ env 0) (nQ env 1))
  | Some (eta, o1, o2) =>
      nsub env base
        (nmul env (nmul env (nsub env eff (nQ env 1)) eta)
           (nadd env (nmul env o1 (nmul env t1 (nQ env 1))) (nmul env o2 (nmul env t2 (nQ env 1)))))
  end.

Lemma rsub_units c (q q' : Qty env) : rsub env c q = Ok q' -> units q' = [].
Proof.
  unfold rsub. destruct (to_mag env q []) as [m|e]; [|discriminate].
  cbn. intros [= <-]. reflexivity.
Qed.

Lemma next_rndt_heat s t1 t2 f eff :
  ir_calculate_next_rndt env s t1 t2 f eff = (do hp <- heat_pars s eff; Ok (heat hp eff t1 t2 f)).
Proof.
  unfold ir_calculate_next_rndt, heat_pars.
  destruct (ir_get_two_layer_parameters env s) as [p|e]; [|reflexivity]. cbn [bind].
  destruct (neqb env eff (nQ env 1)); [reflexivity|].
  destruct (geoffroy env _ _ _ _ _) as [gh|e]; [|reflexivity]. cbn [bind].
  destruct (rsub env (nQ env 1) (g_phi1 gh)) as [o1|e] eqn:E1; [|reflexivity]. cbn [bind].
  destruct (rsub env (nQ env 1) (g_phi2 gh)) as [o2|e] eqn:E2; [|reflexivity]. cbn [bind].
  apply rsub_units in E1, E2.
  unfold qadd, addsub. cbn [qmul units qscale mkQty umul].
  unfold umul. rewrite E1, E2. rewrite dim_eqb_refl, units_eqb_refl. cbn [negb].
  cbn [bind units qmul qscale mag].
  cbn [app mkQty]. destruct (units_eqb (units (tlp_eta env p) ++ u_dC) u_Wm2); reflexivity.
Qed.

(** ** Pure recurrences *)
Fixpoint irT (dt q d : num) (F : nat -> num) (n : nat) : num :=
  match n with
  | O => nQ env 0
  | S j => box dt q d (irT dt q d F j) (F j)
  end.
Definition irR hp eff (T1 T2 F : nat -> num) (n : nat) : num :=
  match n with
  | O => nQ env 0
  | S j => heat hp eff (T1 j) (T2 j) (F j)
  end.

Definition iT1 (s : IR) F := irT (ir_delta_t_mag env s) (ir_q1_mag env s) (ir_d1_mag env s) F.
Definition iT2 (s : IR) F := irT (ir_delta_t_mag env s) (ir_q2_mag env s) (ir_d2_mag env s) F.
Definition iR (s : IR) hp F := irR hp (ir_efficacy_mag env s) (iT1 s F) (iT2 s F) F.

Definition iat (m : list num) (i : nat) : num := nth i m (nnan env).

Definition ifilled (s : IR) hp (m : list num) (k : nat) : IR :=
  iwith_run s (idx_of k) (fill (nnan env) (iT1 s (iat m)) k (List.length m))
    (fill (nnan env) (iT2 s (iat m)) k (List.length m))
    (fill (nnan env) (iR s hp (iat m)) k (List.length m)).

(** What prevents steps after the first: nothing, or an exception. *)
Definition step_status (s : IR) : Res (num * option (num * num * num)) :=
  if neqb env (ir_d1_mag env s) (nQ env 0) then Err ZeroDivisionError
  else if neqb env (ir_d2_mag env s) (nQ env 0) then Err ZeroDivisionError
  else heat_pars s (ir_efficacy_mag env s).

Lemma istep_first s hp m :
  (0 < List.length m)%nat -> ir_step env (ifilled s hp m 0) = (ifilled s hp m 1, Ok tt).
Proof.
  intros Hk. set (n := List.length m) in *.
  assert (LU : forall f : nat -> num, List.length (fill (nnan env) f 0 n) = n)
    by (intros; apply fill_length; lia).
  unfold ir_step, ir_step_at, ir_put_temp1, ir_put_temp2, ir_put_rndt, ifilled. fold n.
  mstep. cbn [iwith_run ir_idx idx_of ir_temp1 ir_temp2 ir_rndt set].
  rewrite lset_ok by (rewrite LU; lia).
  cbn [bind iwith_run ir_idx ir_temp1 ir_temp2 ir_rndt set].
  rewrite lset_ok by (rewrite LU; lia).
  cbn [bind iwith_run ir_idx ir_temp1 ir_temp2 ir_rndt set].
  rewrite lset_ok by (rewrite LU; lia).
  assert (E1 := upd_fill (nnan env) (iT1 s (iat m)) 0 n Hk).
  assert (E2 := upd_fill (nnan env) (iT2 s (iat m)) 0 n Hk).
  assert (E3 := upd_fill (nnan env) (iR s hp (iat m)) 0 n Hk).
  change (iT1 s (iat m) 0) with (nQ env 0) in E1.
  change (iT2 s (iat m) 0) with (nQ env 0) in E2.
  change (iR s hp (iat m) 0) with (nQ env 0) in E3.
  rewrite E1, E2, E3. reflexivity.
Qed.

Lemma tlp_frame s i U L R : ir_get_two_layer_parameters env (iwith_run s i U L R) = ir_get_two_layer_parameters env s.
Proof. reflexivity. Qed.
Lemma heat_pars_frame s i U L R eff : heat_pars (iwith_run s i U L R) eff = heat_pars s eff.
Proof. reflexivity. Qed.

Lemma istep_next s hp m j :
  ir_erf_mag env s = Some m -> (S j < List.length m)%nat -> step_status s = Ok hp ->
  ir_step env (ifilled s hp m (S j)) = (ifilled s hp m (S (S j)), Ok tt).
Proof.
  intros Hm Hk Hst. set (n := List.length m) in *.
  assert (LU : forall f : nat -> num, List.length (fill (nnan env) f (S j) n) = n)
    by (intros; apply fill_length; lia).
  assert (LU' : forall f : nat -> num, List.length (fill (nnan env) f (S (S j)) n) = n)
    by (intros; apply fill_length; lia).
  unfold step_status in Hst.
  destruct (neqb env (ir_d1_mag env s) (nQ env 0)) eqn:D1; [discriminate|].
  destruct (neqb env (ir_d2_mag env s) (nQ env 0)) eqn:D2; [discriminate|].
  unfold ir_step, ir_step_at, ir_put_temp1, ir_put_temp2, ir_put_rndt, ifilled. fold n.
  mstep. cbn [iwith_run ir_idx idx_of ir_temp1 ir_temp2 ir_rndt set].
  unfold ir_erf_at. cbn [ir_erf_mag iwith_run set]. rewrite Hm.
  assert (Hf : lget m j = Ok (iat m j)).
  { apply lget_some. unfold iat. apply nth_error_nth'. fold n; lia. }
  rewrite Hf.
  rewrite ?(lget_some _ _ _ (fill_nth_lt (nnan env) _ (S j) n j ltac:(lia))).
  cbn [bind]. rewrite (calc_temp_ok _ _ _ _ _ D1).
  cbn [bind]. rewrite lset_ok by (rewrite LU; lia).
  cbn [bind iwith_run ir_idx ir_temp1 ir_temp2 ir_rndt set
       ir_delta_t_mag ir_q1_mag ir_q2_mag ir_d1_mag ir_d2_mag ir_efficacy_mag ir_erf_mag].
  change (box (ir_delta_t_mag env s) (ir_q1_mag env s) (ir_d1_mag env s) (iT1 s (iat m) j) (iat m j))
    with (iT1 s (iat m) (S j)).
  rewrite !upd_fill by (fold n; lia).
  rewrite ?(lget_some _ _ _ (fill_nth_lt (nnan env) _ (S j) n j ltac:(lia))).
  rewrite ?(lget_some _ _ _ (fill_nth_lt (nnan env) _ (S (S j)) n j ltac:(lia))).
  rewrite ?Hm, ?Hf. cbn [bind]. rewrite (calc_temp_ok _ _ _ _ _ D2).
  cbn [bind]. rewrite lset_ok by (rewrite LU; lia).
  cbn [bind iwith_run ir_idx ir_temp1 ir_temp2 ir_rndt set
       ir_delta_t_mag ir_q1_mag ir_q2_mag ir_d1_mag ir_d2_mag ir_efficacy_mag ir_erf_mag].
  change (box (ir_delta_t_mag env s) (ir_q2_mag env s) (ir_d2_mag env s) (iT2 s (iat m) j) (iat m j))
    with (iT2 s (iat m) (S j)).
  rewrite !upd_fill by (fold n; lia).
  rewrite ?(lget_some _ _ _ (fill_nth_lt (nnan env) _ (S (S j)) n j ltac:(lia))).
  rewrite ?Hm, ?Hf. cbn [bind]. rewrite next_rndt_heat.
  match goal with |- context [heat_pars ?s1 ?e1] => change (heat_pars s1 e1) with (heat_pars s e1) end.
  rewrite Hst. cbn [bind]. rewrite lset_ok by (rewrite LU; lia).
  change (heat hp (ir_efficacy_mag env s) (iT1 s (iat m) j) (iT2 s (iat m) j) (iat m j))
    with (iR s hp (iat m) (S j)).
  rewrite !upd_fill by (fold n; lia). reflexivity.
Qed.

(** A step after the first when something prevents it: the exception is that
    of [step_status], and only entry [S j] of the temperatures can have been
    written. *)
Lemma istep_error s hp m j e :
  ir_erf_mag env s = Some m -> (S j < List.length m)%nat -> step_status s = Err e ->
  snd (ir_step env (ifilled s hp m (S j))) = Err e.
Proof.
  intros Hm Hk Hst. set (n := List.length m) in *.
  assert (LU : forall f : nat -> num, List.length (fill (nnan env) f (S j) n) = n)
    by (intros; apply fill_length; lia).
  unfold step_status in Hst.
  unfold ir_step, ir_step_at, ir_put_temp1, ir_put_temp2, ir_put_rndt, ifilled. fold n.
  mstep. cbn [iwith_run ir_idx idx_of ir_temp1 ir_temp2 ir_rndt set].
  unfold ir_erf_at. cbn [ir_erf_mag iwith_run set]. rewrite Hm.
  assert (Hf : lget m j = Ok (iat m j)).
  { apply lget_some. unfold iat. apply nth_error_nth'. fold n; lia. }
  rewrite Hf.
  rewrite ?(lget_some _ _ _ (fill_nth_lt (nnan env) _ (S j) n j ltac:(lia))).
  cbn [bind].
  destruct (neqb env (ir_d1_mag env s) (nQ env 0)) eqn:D1.
  { rewrite (calc_temp_err _ _ _ _ _ D1). cbn. congruence. }
  rewrite (calc_temp_ok _ _ _ _ _ D1).
  cbn [bind]. rewrite lset_ok by (rewrite LU; lia).
  cbn [bind iwith_run ir_idx ir_temp1 ir_temp2 ir_rndt set
       ir_delta_t_mag ir_q1_mag ir_q2_mag ir_d1_mag ir_d2_mag ir_efficacy_mag ir_erf_mag].
  change (box (ir_delta_t_mag env s) (ir_q1_mag env s) (ir_d1_mag env s) (iT1 s (iat m) j) (iat m j))
    with (iT1 s (iat m) (S j)).
  rewrite !upd_fill by (fold n; lia).
  rewrite ?(lget_some _ _ _ (fill_nth_lt (nnan env) _ (S j) n j ltac:(lia))).
  rewrite ?(lget_some _ _ _ (fill_nth_lt (nnan env) _ (S (S j)) n j ltac:(lia))).
  rewrite ?Hm, ?Hf. cbn [bind].
  destruct (neqb env (ir_d2_mag env s) (nQ env 0)) eqn:D2.
  { rewrite (calc_temp_err _ _ _ _ _ D2). cbn. congruence. }
  rewrite (calc_temp_ok _ _ _ _ _ D2).
  cbn [bind]. rewrite lset_ok by (rewrite LU; lia).
  cbn [bind iwith_run ir_idx ir_temp1 ir_temp2 ir_rndt set
       ir_delta_t_mag ir_q1_mag ir_q2_mag ir_d1_mag ir_d2_mag ir_efficacy_mag ir_erf_mag].
  change (box (ir_delta_t_mag env s) (ir_q2_mag env s) (ir_d2_mag env s) (iT2 s (iat m) j) (iat m j))
    with (iT2 s (iat m) (S j)).
  rewrite !upd_fill by (fold n; lia).
  rewrite ?(lget_some _ _ _ (fill_nth_lt (nnan env) _ (S (S j)) n j ltac:(lia))).
  rewrite ?Hm, ?Hf. cbn [bind]. rewrite next_rndt_heat.
  match goal with |- context [heat_pars ?s1 ?e1] => change (heat_pars s1 e1) with (heat_pars s e1) end.
  rewrite Hst. reflexivity.
Qed.

Lemma istep_overrun s hp m :
  ir_erf_mag env s = Some m -> (List.length m < 2)%nat \/ step_status s = Ok hp ->
  exists i e, ir_step env (ifilled s hp m (List.length m)) =
            (iwith_run (ifilled s hp m (List.length m)) (Some i) (ir_temp1 env (ifilled s hp m (List.length m)))
               (ir_temp2 env (ifilled s hp m (List.length m))) (ir_rndt env (ifilled s hp m (List.length m))),
             Err e) /\ (e = IndexError \/ e = ZeroDivisionError /\ List.length m = 1%nat /\
                        neqb env (ir_d1_mag env s) (nQ env 0) = true).
Proof.
  intros Hm Hst. remember (List.length m) as n eqn:Hn.
  unfold ir_step, ir_step_at, ir_put_temp1, ir_put_temp2, ir_put_rndt.
  destruct n as [|j].
  - exists 0%nat, IndexError. destruct m; [|discriminate]. unfold ifilled, fill. cbn. auto.
  - exists (S j). mstep. unfold ifilled. rewrite <- Hn.
    cbn [iwith_run ir_idx idx_of ir_temp1 ir_temp2 ir_rndt set].
    unfold ir_erf_at. cbn [ir_erf_mag iwith_run set]. rewrite Hm.
    assert (Hf : lget m j = Ok (iat m j)).
    { apply lget_some. unfold iat. apply nth_error_nth'. lia. }
    rewrite Hf.
    rewrite ?(lget_some _ _ _ (fill_nth_lt (nnan env) _ (S j) (S j) j ltac:(lia))).
    cbn [bind]. 
    destruct (neqb env (ir_d1_mag env s) (nQ env 0)) eqn:D1.
    + exists ZeroDivisionError. rewrite (calc_temp_err _ _ _ _ _ D1).
      split; [reflexivity|]. right. split; [reflexivity|]. split; [|reflexivity].
      destruct Hst as [Hst|Hst]; [lia|]. unfold step_status in Hst. rewrite D1 in Hst. discriminate.
    + exists IndexError. rewrite (calc_temp_ok _ _ _ _ _ D1). cbn [bind].
      rewrite lset_err by (rewrite fill_length; lia).
      split; [reflexivity|auto].
Qed.

Lemma isteps_filled s hp m k : forall j,
  ir_erf_mag env s = Some m -> (j + k <= List.length m)%nat ->
  (j + k <= 1)%nat \/ step_status s = Ok hp ->
  ir_steps env k (ifilled s hp m j) = (ifilled s hp m (j + k), Ok tt).
Proof.
  induction k as [|k IH]; intros j Hm Hk Hst.
  - rewrite Nat.add_0_r. reflexivity.
  - cbn [ir_steps]. unfold mbind.
    assert (E : ir_step env (ifilled s hp m j) = (ifilled s hp m (S j), Ok tt)).
    { destruct j as [|j]; [apply istep_first; lia|].
      destruct Hst as [Hst|Hst]; [lia|]. apply istep_next; auto; lia. }
    rewrite E, IH; auto; try lia. 2:{ destruct Hst; [left; lia|auto]. }
    replace (S j + k)%nat with (j + S k)%nat by lia. reflexivity.
Qed.

(** ** Setters *)
Definition iwith_erf (s : IR) (e : option (QArr env)) (m : option (list num)) : IR :=
  mkIR env (ir_q1 env s) (ir_q2 env s) (ir_d1 env s) (ir_d2 env s) (ir_efficacy env s)
    (ir_delta_t env s) (ir_q1_mag env s) (ir_q2_mag env s) (ir_d1_mag env s) (ir_d2_mag env s)
    (ir_efficacy_mag env s) (ir_delta_t_mag env s) e m (ir_temp1 env s) (ir_temp2 env s)
    (ir_rndt env s) (ir_idx env s).

Lemma iset_erf_ok s e m :
  to_mags env e u_Wm2 = Ok m ->
  ir_set_erf env (Some e) s = (iwith_erf s (Some e) (Some m), Ok tt).
Proof.
  intros H. unfold ir_set_erf. mstep. rewrite assert_quantity_arr_spec.
  destruct (same_dim_dec env (aunits e) u_Wm2) as [_|n].
  2:{ exfalso; apply n. apply to_mags_ok_iff. eauto. }
  rewrite H. reflexivity.
Qed.

Lemma iset_erf_err s e :
  ~ same_dim env (aunits e) u_Wm2 ->
  ir_set_erf env (Some e) s = (s, Err UnitError).
Proof.
  intros H. unfold ir_set_erf. mstep. rewrite assert_quantity_arr_spec.
  destruct (same_dim_dec env (aunits e) u_Wm2); [contradiction|reflexivity].
Qed.

Lemma ireset_ok s e m :
  ir_erf env s = Some e -> ir_erf_mag env s = Some m ->
  existsb (nisnan env) (mags e) = false ->
  ir_reset env s = (iwith_run s None (repeat (nnan env) (List.length m)) (repeat (nnan env) (List.length m))
                     (repeat (nnan env) (List.length m)), Ok tt).
Proof.
  intros He Hm Hn. unfold ir_reset. mstep. rewrite He, Hn. mstep. cbn [ir_erf_mag set].
  rewrite Hm, map_const_repeat. destruct s; reflexivity.
Qed.

Lemma ireset_nan s e :
  ir_erf env s = Some e -> existsb (nisnan env) (mags e) = true ->
  ir_reset env s = (s, Err ModelStateError).
Proof. intros He Hn. unfold ir_reset. mstep. rewrite He, Hn. reflexivity. Qed.

Lemma ireset_none s : ir_erf env s = None -> ir_reset env s = (s, Err ModelStateError).
Proof. intros He. unfold ir_reset. mstep. rewrite He. reflexivity. Qed.

Lemma iset_reset_ok s e m hp :
  to_mags env e u_Wm2 = Ok m -> existsb (nisnan env) (mags e) = false ->
  mbind (ir_set_drivers env (EQ1 e)) (fun _ => ir_reset env) s =
  (ifilled (iwith_erf s (Some e) (Some m)) hp m 0, Ok tt).
Proof.
  intros Hm Hn. unfold mbind. cbn [ir_set_drivers]. rewrite (iset_erf_ok s e m Hm).
  rewrite (ireset_ok _ e m) by (auto; reflexivity).
  unfold ifilled. rewrite !fill_0. reflexivity.
Qed.

Lemma idrive_run s e m hp :
  to_mags env e u_Wm2 = Ok m -> existsb (nisnan env) (mags e) = false ->
  ir_drive env e s = ir_steps env (List.length m) (ifilled (iwith_erf s (Some e) (Some m)) hp m 0).
Proof.
  intros Hm Hn. unfold ir_drive.
  pose proof (iset_reset_ok s e m hp Hm Hn) as H. unfold mbind in H.
  unfold mbind. destruct (ir_set_drivers env (EQ1 e) s) as [s1 [u|x]]; [|discriminate].
  rewrite H. unfold ir_run.
  replace (ir_erf_len env _) with (List.length m); [reflexivity|].
  cbn. apply to_mags_length in Hm. exact Hm.
Qed.

Lemma idrive_ok s e m hp :
  to_mags env e u_Wm2 = Ok m -> existsb (nisnan env) (mags e) = false ->
  (List.length m <= 1)%nat \/ step_status s = Ok hp ->
  ir_drive env e s = (ifilled (iwith_erf s (Some e) (Some m)) hp m (List.length m), Ok tt).
Proof.
  intros Hm Hn Hst. rewrite (idrive_run s e m hp Hm Hn).
  rewrite isteps_filled; auto.
Qed.

Lemma idrive_err s e m x :
  to_mags env e u_Wm2 = Ok m -> existsb (nisnan env) (mags e) = false ->
  (2 <= List.length m)%nat -> step_status s = Err x ->
  snd (ir_drive env e s) = Err x.
Proof.
  intros Hm Hn Hl Hst.
  set (hp := (nnan env, @None (num * num * num))).
  rewrite (idrive_run s e m hp Hm Hn).
  destruct m as [|f0 [|f1 m]]; cbn [List.length] in Hl; try lia.
  cbn [List.length ir_steps]. unfold mbind at 1. rewrite istep_first by (cbn; lia).
  unfold mbind.
  pose proof (istep_error (iwith_erf s (Some e) (Some (f0 :: f1 :: m))) hp (f0 :: f1 :: m) 0 x
               eq_refl ltac:(cbn; lia) Hst) as H.
  destruct (ir_step env _) as [s' [u|y]]; [discriminate|exact H].
Qed.

Lemma idrive_nan s e m :
  to_mags env e u_Wm2 = Ok m -> existsb (nisnan env) (mags e) = true ->
  ir_drive env e s = (iwith_erf s (Some e) (Some m), Err ModelStateError).
Proof.
  intros Hm Hn. unfold ir_drive, mbind. cbn [ir_set_drivers]. rewrite (iset_erf_ok s e m Hm).
  rewrite (ireset_nan _ e) by (auto; reflexivity). reflexivity.
Qed.

Lemma idrive_unit s e :
  ~ same_dim env (aunits e) u_Wm2 -> ir_drive env e s = (s, Err UnitError).
Proof.
  intros H. unfold ir_drive, mbind. cbn [ir_set_drivers]. rewrite iset_erf_err by assumption. reflexivity.
Qed.

(** Outcome of a drive. *)
Lemma idrive_outcome s e :
  match snd (ir_drive env e s) with
  | Ok _ => exists m hp, to_mags env e u_Wm2 = Ok m /\ existsb (nisnan env) (mags e) = false /\
      ((List.length m <= 1)%nat \/ step_status s = Ok hp) /\
      ir_drive env e s = (ifilled (iwith_erf s (Some e) (Some m)) hp m (List.length m), Ok tt)
  | Err x =>
      (x = UnitError /\ ~ same_dim env (aunits e) u_Wm2) \/
      (x = ModelStateError /\ existsb (nisnan env) (mags e) = true) \/
      ((2 <= List.length (mags e))%nat /\ step_status s = Err x)
  end.
Proof.
  destruct (same_dim_dec env (aunits e) u_Wm2) as [H|H].
  2:{ rewrite idrive_unit by assumption. cbn. auto. }
  apply to_mags_ok_iff in H as [m Hm].
  destruct (existsb (nisnan env) (mags e)) eqn:Hn.
  { rewrite (idrive_nan s e m Hm Hn). cbn. auto. }
  destruct (le_lt_dec (List.length m) 1) as [Hl|Hl].
  { set (hp := (nnan env, @None (num * num * num))).
    rewrite (idrive_ok s e m hp Hm Hn (or_introl Hl)). cbn [snd]. exists m, hp. auto. }
  destruct (step_status s) as [hp|x] eqn:Hst.
  - rewrite (idrive_ok s e m hp Hm Hn (or_intror Hst)). cbn [snd]. exists m, hp. auto.
  - rewrite (idrive_err s e m x Hm Hn Hl Hst). right. right. split; [|reflexivity].
    rewrite <- (to_mags_length env e _ m Hm). exact Hl.
Qed.
End IRP.
