(** Properties C01-C09: runs, histories, setters. *)
From Coq Require Import List String QArith ZArith Bool Arith Lia.
From Verif Require Import Arith Pint Base TwoLayer Impulse Scm Api Spec Demo
  GenTL GenTLHist GenIR GenIRHist GenScm GenMeta GenRun GenRunInst.
Import ListNotations.
Local Open Scope list_scope.

Lemma nan_free_existsb (env : Env) (e : QArr env) : nan_free env e <-> existsb (nisnan env) (mags e) = false.
Proof.
  unfold nan_free. split.
  - intros H. destruct (existsb _ _) eqn:E; [|reflexivity].
    apply existsb_exists in E as (x & Hi & Hx). rewrite (H x Hi) in Hx. discriminate.
  - intros H x Hi. destruct (nisnan env x) eqn:E; [|reflexivity].
    assert (existsb (nisnan env) (mags e) = true) by (apply existsb_exists; eauto). congruence.
Qed.

Lemma map_seq_nth {A} (f : nat -> A) n i : (i < n)%nat -> nth_error (map f (seq 0 n)) i = Some (f i).
Proof.
  intros H. rewrite <- (fill_full (f 0%nat)). apply fill_nth_lt, H.
Qed.
Lemma at_nth (env : Env) (m : list (num env)) i f : nth_error m i = Some f -> at_ env m i = f.
Proof. intros H. unfold at_. apply nth_error_nth. exact H. Qed.
Lemma iat_nth (env : Env) (m : list (num env)) i f : nth_error m i = Some f -> iat env m i = f.
Proof. intros H. unfold iat. apply nth_error_nth. exact H. Qed.

Lemma filled_series (env : Env) s m :
  tl_series env (tl_delta_t_mag env s) (tl_lambda0_mag env s) (tl_a_mag env s) (tl_efficacy_mag env s)
    (tl_eta_mag env s) (tl_hcu_mag env s) (tl_hcl_mag env s) m
    (tl_temp_upper env (filled env s m (List.length m)))
    (tl_temp_lower env (filled env s m (List.length m)))
    (tl_rndt env (filled env s m (List.length m))).
Proof.
  unfold filled, with_run. cbn [tl_temp_upper tl_temp_lower tl_rndt]. rewrite !fill_full.
  unfold tl_series. rewrite !map_length, seq_length. repeat split; auto.
  - destruct m; [contradiction|reflexivity].
  - destruct m; [contradiction|reflexivity].
  - destruct m; [contradiction|reflexivity].
  - rewrite map_seq_nth by lia.
    rewrite map_seq_nth in H1, H2 by lia. injection H1 as <-. injection H2 as <-.
    unfold trajU, trajL. cbn [traj]. rewrite (at_nth env m i f H0). reflexivity.
  - rewrite map_seq_nth by lia.
    rewrite map_seq_nth in H1, H2 by lia. injection H1 as <-. injection H2 as <-.
    reflexivity.
  - rewrite map_seq_nth by lia.
    rewrite map_seq_nth in H1, H2 by lia. injection H1 as <-. injection H2 as <-.
    unfold trajR, trajU, trajL. cbn [traj]. rewrite (at_nth env m i f H0). reflexivity.
Qed.

(** ** C01 *)
Theorem c01_two_layer_shape : forall (env : Env) (s : TL env) (e : QArr env) (F : list (num env)),
  to_mags env e u_Wm2 = Ok F -> nan_free env e ->
  exists s' U L R,
    tl_drive env e s = (s', Ok tt) /\
    tl_outputs env s' =
      [("Surface Temperature|Upper"%string, "delta_degC"%string, U);
       ("Surface Temperature|Lower"%string, "delta_degC"%string, L);
       ("Heat Uptake"%string, "W/m^2"%string, R)] /\
    List.length F = List.length (mags e) /\
    tl_series env (tl_delta_t_mag env s) (tl_lambda0_mag env s) (tl_a_mag env s)
      (tl_efficacy_mag env s) (tl_eta_mag env s) (tl_hcu_mag env s) (tl_hcl_mag env s) F U L R.
Proof.
  intros env s e F HF Hn. apply nan_free_existsb in Hn.
  eexists _, _, _, _. split; [apply (drive_ok env s e F HF Hn)|]. split; [reflexivity|].
  split; [exact (to_mags_length env e _ F HF)|].
  exact (filled_series env (with_erf env s (Some e) (Some F)) F).
Qed.

Lemma zip_add_nth (env : Env) l1 : forall l2 i t1 t2, nth_error l1 i = Some t1 -> nth_error l2 i = Some t2 ->
  nth_error (zip_add env l1 l2) i = Some (nadd env t1 t2).
Proof.
  induction l1 as [|x l1 IH]; intros l2 i t1 t2 H1 H2; [destruct i; discriminate|].
  destruct l2 as [|y l2]; [destruct i; discriminate|].
  destruct i as [|i]; cbn in *; [congruence|]. apply IH; assumption.
Qed.

Lemma step_status_inv (env : Env) s hp : step_status env s = Ok hp ->
  neqb env (ir_d1_mag env s) (nQ env 0) = false /\ neqb env (ir_d2_mag env s) (nQ env 0) = false /\
  heat_pars env s (ir_efficacy_mag env s) = Ok hp.
Proof.
  unfold step_status. destruct (neqb env (ir_d1_mag env s) _); [discriminate|].
  destruct (neqb env (ir_d2_mag env s) _); [discriminate|]. auto.
Qed.

Lemma heat_pars_erf (env : Env) s e m eff : heat_pars env (iwith_erf env s e m) eff = heat_pars env s eff.
Proof. reflexivity. Qed.

Lemma ifilled_series (env : Env) s hp m :
  (List.length m <= 1)%nat \/ step_status env s = Ok hp ->
  ir_series env s m (ir_temp1 env (ifilled env s hp m (List.length m)))
    (ir_temp2 env (ifilled env s hp m (List.length m)))
    (zip_add env (ir_temp1 env (ifilled env s hp m (List.length m)))
                 (ir_temp2 env (ifilled env s hp m (List.length m))))
    (ir_rndt env (ifilled env s hp m (List.length m))).
Proof.
  intros Hs.
  unfold ifilled, iwith_run. cbn [ir_temp1 ir_temp2 ir_rndt]. rewrite !fill_full.
  unfold ir_series. rewrite zip_add_length by (rewrite !map_length; reflexivity).
  rewrite !map_length, seq_length.
  repeat (split; [first [reflexivity | intros Hm; destruct m; [contradiction|repeat split; reflexivity]
                        | intros i t1 t2; apply zip_add_nth]|]).
  intros i f t1 t2 Hi H0 H1 H2. destruct Hs as [Hs|Hs]; [lia|].
  apply step_status_inv in Hs as (D1 & D2 & Hp).
  rewrite map_seq_nth in H1, H2 by lia. injection H1 as <-. injection H2 as <-.
  rewrite !map_seq_nth by lia.
  split; [|split].
  - eexists. split; [apply calc_temp_ok, D1|]. unfold iT1. cbn [irT]. rewrite (iat_nth env m i f H0). reflexivity.
  - eexists. split; [apply calc_temp_ok, D2|]. unfold iT2. cbn [irT]. rewrite (iat_nth env m i f H0). reflexivity.
  - eexists. split; [rewrite next_rndt_heat, Hp; reflexivity|]. unfold iR, irR.
    rewrite (iat_nth env m i f H0). reflexivity.
Qed.

Theorem c01_impulse_response_shape : forall (env : Env) (s s' : IR env) (e : QArr env),
  ir_drive env e s = (s', Ok tt) ->
  exists F T1 T2 T R,
    to_mags env e u_Wm2 = Ok F /\ List.length F = List.length (mags e) /\
    ir_outputs env s' =
      [("Surface Temperature|Box 1"%string, "delta_degC"%string, T1);
       ("Surface Temperature|Box 2"%string, "delta_degC"%string, T2);
       ("Surface Temperature"%string, "delta_degC"%string, T);
       ("Heat Uptake"%string, "W/m^2"%string, R)] /\
    ir_series env s F T1 T2 T R.
Proof.
  intros env s s' e H. pose proof (idrive_outcome env s e) as K. rewrite H in K. cbn [snd] in K.
  destruct K as (m & hp & Hm & Hn & Hs & Hd).
  injection Hd as ->.
  eexists m, _, _, _, _. split; [exact Hm|]. split; [exact (to_mags_length env e _ m Hm)|].
  split; [reflexivity|].
  exact (ifilled_series env (iwith_erf env s (Some e) (Some m)) hp m Hs).
Qed.

(** When an impulse-response run succeeds. *)
Theorem c01_impulse_response_success : forall (env : Env) (s : IR env) (e : QArr env) (F : list (num env)) lambda0,
  to_mags env e u_Wm2 = Ok F -> nan_free env e ->
  neqb env (ir_d1_mag env s) (nQ env 0) = false -> neqb env (ir_d2_mag env s) (nQ env 0) = false ->
  ir_get_two_layer_parameters env s = Ok lambda0 ->
  neqb env (ir_efficacy_mag env s) (nQ env 1) = true ->
  exists s', ir_drive env e s = (s', Ok tt).
Proof.
  intros env s e F p HF Hn D1 D2 Hp He. apply nan_free_existsb in Hn.
  eexists. apply (idrive_ok env s e F (mag (tlp_lambda0 env p), None) HF Hn). right.
  unfold step_status, heat_pars. rewrite D1, D2, Hp, He. reflexivity.
Qed.

(** A concrete case: model with du in kilometres, efficacy 1.3, four drivers. *)
Example c01_shape_ex :
  to_mags demo demo_erf u_Wm2 = Ok (mags demo_erf) /\ nan_free demo demo_erf /\
  List.length (mags demo_erf) = 4%nat /\
  snd (ir_drive demo demo_erf demo_ir) = Ok tt /\
  nth_error (tl_temp_upper demo (fst (tl_drive demo demo_erf demo_tl))) 0 = Some (Some 0) /\
  nth_error (tl_temp_upper demo (fst (tl_drive demo demo_erf demo_tl))) 3 <> Some (Some 0).
Proof.
  assert (N : nan_free demo demo_erf).
  { intros x [<-|[<-|[<-|[<-|[]]]]]; reflexivity. }
  split; [reflexivity|]. split; [exact N|]. split; [reflexivity|].
  split; [vm_compute; reflexivity|]. split; [vm_compute; reflexivity|vm_compute; discriminate].
Qed.

(** ** C02 *)
Lemma agree_fill (env : Env) f g k n i :
  (forall j, (j <= i)%nat -> f j = g j) ->
  agree_upto env i (fill (nnan env) f k n) (fill (nnan env) g k n).
Proof.
  intros H j Hj. destruct (Nat.lt_ge_cases j k).
  - rewrite !fill_nth_lt by assumption. rewrite H by lia. reflexivity.
  - destruct (Nat.lt_ge_cases j n).
    + rewrite !fill_nth_ge by lia. reflexivity.
    + unfold fill. rewrite !nth_error_app2 by (rewrite map_length, seq_length; lia).
      rewrite !map_length. reflexivity.
Qed.

Lemma at_agree (env : Env) i m m' : agree_before env i m m' ->
  forall j, (j < i)%nat -> at_ env m j = at_ env m' j.
Proof.
  intros H j Hj. specialize (H j Hj). unfold at_.
  destruct (nth_error m j) eqn:E.
  - rewrite (nth_error_nth m j _ E). symmetry. apply nth_error_nth. congruence.
  - symmetry in H. apply nth_error_None in E, H. rewrite !nth_overflow by assumption. reflexivity.
Qed.
Lemma iat_agree (env : Env) i m m' : agree_before env i m m' ->
  forall j, (j < i)%nat -> iat env m j = iat env m' j.
Proof. exact (at_agree env i m m'). Qed.

Theorem c02_two_layer_causality : forall (env : Env) (s : TL env) (e e' : QArr env) (F F' : list (num env)) i,
  to_mags env e u_Wm2 = Ok F -> to_mags env e' u_Wm2 = Ok F' ->
  nan_free env e -> nan_free env e' ->
  List.length F = List.length F' -> agree_before env i F F' ->
  outputs_agree_upto env i (tl_outputs env (fst (tl_drive env e s)))
                           (tl_outputs env (fst (tl_drive env e' s))).
Proof.
  intros env s e e' F F' i HF HF' Hn Hn' Hl Ha. apply nan_free_existsb in Hn, Hn'.
  rewrite (drive_ok env s e F HF Hn), (drive_ok env s e' F' HF' Hn'). cbn [fst].
  assert (T : forall j, (j <= i)%nat ->
    traj env (with_erf env s (Some e) (Some F)) (at_ env F) j =
    traj env (with_erf env s (Some e') (Some F')) (at_ env F') j).
  { intros j Hj. rewrite (traj_ext env _ (at_ env F) (at_ env F') j).
    - apply traj_indep; reflexivity.
    - intros k Hk. apply (at_agree env i F F' Ha). lia. }
  unfold tl_outputs, filled, with_run. cbn [tl_temp_upper tl_temp_lower tl_rndt].
  repeat constructor; cbn [snd fst]; rewrite <- Hl; apply agree_fill; intros j Hj.
  - unfold trajU. rewrite T by assumption. reflexivity.
  - unfold trajL. rewrite T by assumption. reflexivity.
  - destruct j as [|j]; [reflexivity|]. unfold trajR, trajU, trajL. rewrite !T by lia. reflexivity.
Qed.

Lemma irT_ext (env : Env) dt q d F G n : (forall i, (i < n)%nat -> F i = G i) -> irT env dt q d F n = irT env dt q d G n.
Proof.
  induction n as [|n IH]; intros H; [reflexivity|]. cbn [irT]. rewrite IH by (intros; apply H; lia).
  rewrite H by lia. reflexivity.
Qed.

Lemma zip_agree (env : Env) i a b a' b' : agree_upto env i a a' -> agree_upto env i b b' ->
  agree_upto env i (zip_add env a b) (zip_add env a' b').
Proof.
  revert b a' b' i. induction a as [|x a IH]; intros b a' b' i Ha Hb j Hj.
  - pose proof (Ha 0%nat ltac:(lia)) as H0. destruct a'; [reflexivity|discriminate].
  - pose proof (Ha 0%nat ltac:(lia)) as H0. destruct a' as [|x' a']; [discriminate|]. cbn in H0. injection H0 as <-.
    pose proof (Hb 0%nat ltac:(lia)) as H1.
    destruct b as [|y b], b' as [|y' b']; try discriminate; [reflexivity|]. cbn in H1. injection H1 as <-.
    destruct j as [|j]; [reflexivity|]. cbn.
    destruct i as [|i]; [lia|]. apply (IH b a' b' i).
    + intros k Hk. apply (Ha (S k)). lia.
    + intros k Hk. apply (Hb (S k)). lia.
    + lia.
Qed.

Theorem c02_impulse_response_causality : forall (env : Env) (s : IR env) (e e' : QArr env) (F F' : list (num env)) i,
  to_mags env e u_Wm2 = Ok F -> to_mags env e' u_Wm2 = Ok F' ->
  snd (ir_drive env e s) = Ok tt -> snd (ir_drive env e' s) = Ok tt ->
  List.length F = List.length F' -> agree_before env i F F' ->
  outputs_agree_upto env i (ir_outputs env (fst (ir_drive env e s)))
                           (ir_outputs env (fst (ir_drive env e' s))).
Proof.
  intros env s e e' F F' i HF HF' He He' Hl Ha.
  pose proof (idrive_outcome env s e) as K. rewrite He in K. destruct K as (m & hp & Hm & _ & Hs & Hd).
  pose proof (idrive_outcome env s e') as K. rewrite He' in K. destruct K as (m' & hp' & Hm' & _ & Hs' & Hd').
  rewrite HF in Hm. injection Hm as <-. rewrite HF' in Hm'. injection Hm' as <-.
  rewrite Hd, Hd'. cbn [fst].
  unfold ir_outputs, ifilled, iwith_run. cbn [ir_temp1 ir_temp2 ir_rndt].
  assert (E1 : forall j, (j <= i)%nat -> iT1 env (iwith_erf env s (Some e) (Some F)) (iat env F) j =
                                         iT1 env (iwith_erf env s (Some e') (Some F')) (iat env F') j).
  { intros j Hj. unfold iT1. cbn. apply irT_ext. intros k Hk. apply (iat_agree env i F F' Ha). lia. }
  assert (E2 : forall j, (j <= i)%nat -> iT2 env (iwith_erf env s (Some e) (Some F)) (iat env F) j =
                                         iT2 env (iwith_erf env s (Some e') (Some F')) (iat env F') j).
  { intros j Hj. unfold iT2. cbn. apply irT_ext. intros k Hk. apply (iat_agree env i F F' Ha). lia. }
  repeat constructor; cbn [snd fst]; rewrite <- Hl.
  - apply agree_fill, E1.
  - apply agree_fill, E2.
  - apply zip_agree; apply agree_fill; [exact E1|exact E2].
  - destruct (Nat.le_gt_cases (List.length F) 1) as [Hle|Hgt].
    + intros j Hj. destruct F as [|f0 [|? ?]]; cbn in Hle; try lia; reflexivity.
    + destruct Hs as [Hs|Hs]; [lia|]. destruct Hs' as [Hs'|Hs']; [lia|].
      rewrite Hs in Hs'. injection Hs' as <-.
      apply agree_fill. intros [|j] Hj; [reflexivity|]. unfold iR, irR.
      rewrite E1, E2 by lia. rewrite (iat_agree env i F F' Ha) by lia. reflexivity.
Qed.

(** The last driver value is inert. *)
Theorem c02_last_driver_inert : forall (env : Env) (s : TL env) (r : IR env) (l : list (num env)) (x y : num env),
  nan_free env (mkQA (l ++ [x]) u_Wm2) -> nan_free env (mkQA (l ++ [y]) u_Wm2) ->
  tl_outputs env (fst (tl_drive env (mkQA (l ++ [x]) u_Wm2) s)) =
  tl_outputs env (fst (tl_drive env (mkQA (l ++ [y]) u_Wm2) s)) /\
  (snd (ir_drive env (mkQA (l ++ [x]) u_Wm2) r) = Ok tt ->
   snd (ir_drive env (mkQA (l ++ [y]) u_Wm2) r) = Ok tt ->
   ir_outputs env (fst (ir_drive env (mkQA (l ++ [x]) u_Wm2) r)) =
   ir_outputs env (fst (ir_drive env (mkQA (l ++ [y]) u_Wm2) r))).
Proof.
  intros env s r l x y Hx Hy.
  assert (TM : forall z, to_mags env (mkQA (l ++ [z]) u_Wm2) u_Wm2 = Ok (l ++ [z])).
  { intros z. unfold to_mags. cbn [aunits mags]. rewrite dim_eqb_refl, units_eqb_refl. reflexivity. }
  assert (AB : agree_before env (List.length l) (l ++ [x]) (l ++ [y])).
  { intros j Hj. rewrite !nth_error_app1 by assumption. reflexivity. }
  assert (LL : List.length (l ++ [x]) = List.length (l ++ [y])) by (rewrite !app_length; reflexivity).
  assert (FIN : forall o o', outputs_agree_upto env (List.length l) o o' ->
    (forall z, In z o -> List.length (snd z) = List.length (l ++ [x])) ->
    (forall z, In z o' -> List.length (snd z) = List.length (l ++ [x])) -> o = o').
  { intros o o' H. induction H as [|a b o o' [Hab Hv] H IH]; intros L1 L2; [reflexivity|].
    f_equal.
    - destruct a as [a va], b as [b vb]; cbn [fst snd] in *. subst b. f_equal.
      apply nth_error_ext'. intros j. destruct (Nat.le_gt_cases j (List.length l)) as [Hj|Hj]; [apply Hv, Hj|].
      pose proof (L1 _ (or_introl eq_refl)) as La. pose proof (L2 _ (or_introl eq_refl)) as Lb. cbn in La, Lb.
      rewrite app_length in La, Lb. cbn in La, Lb.
      rewrite (proj2 (nth_error_None va j)) by lia. rewrite (proj2 (nth_error_None vb j)) by lia. reflexivity.
    - apply IH; intros z Hz; [apply L1|apply L2]; right; exact Hz. }
  split.
  - apply FIN.
    + apply (c02_two_layer_causality env s _ _ (l ++ [x]) (l ++ [y])); auto.
    + destruct (c01_two_layer_shape env s _ _ (TM x) Hx) as (s' & U & L & R & -> & EO & _ & HU & HL & HR & _).
      cbn [fst]; rewrite EO.
      intros z [<-|[<-|[<-|[]]]]; cbn [snd]; assumption.
    + destruct (c01_two_layer_shape env s _ _ (TM y) Hy) as (s' & U & L & R & -> & EO & _ & HU & HL & HR & _).
      cbn [fst]; rewrite EO.
      rewrite LL. intros z [<-|[<-|[<-|[]]]]; cbn [snd]; assumption.
  - intros Ox Oy. apply FIN.
    + apply (c02_impulse_response_causality env r _ _ (l ++ [x]) (l ++ [y])); auto.
    + destruct (ir_drive env (mkQA (l ++ [x]) u_Wm2) r) as [s' o] eqn:E. cbn in Ox; subst o.
      destruct (c01_impulse_response_shape env r s' _ E) as (F & T1 & T2 & T & R & HF & _ & EO & H1 & H2 & H3 & H4 & _).
      cbn [fst]; rewrite EO.
      rewrite TM in HF. injection HF as <-.
      intros z [<-|[<-|[<-|[<-|[]]]]]; cbn [snd]; assumption.
    + destruct (ir_drive env (mkQA (l ++ [y]) u_Wm2) r) as [s' o] eqn:E. cbn in Oy; subst o.
      destruct (c01_impulse_response_shape env r s' _ E) as (F & T1 & T2 & T & R & HF & _ & EO & H1 & H2 & H3 & H4 & _).
      cbn [fst]; rewrite EO.
      rewrite TM in HF. injection HF as <-.
      rewrite LL. intros z [<-|[<-|[<-|[<-|[]]]]]; cbn [snd]; assumption.
Qed.

Example c02_causality_ex :
  agree_before demo 2 (mags demo_erf) [Some 0; Some 1; Some 7; Some 8] /\
  nth_error (tl_temp_upper demo (fst (tl_drive demo demo_erf demo_tl))) 3 <>
  nth_error (tl_temp_upper demo (fst (tl_drive demo (mkQA (env := demo) [Some 0; Some 1; Some 7; Some 8] u_Wm2) demo_tl))) 3.
Proof.
  split; [|vm_compute; discriminate].
  intros j Hj. destruct j as [|[|j]]; [reflexivity|reflexivity|lia].
Qed.

(** ** C03 *)
Theorem c03_two_layer_history : forall (env : Env) parse_unit (s1 s2 : TL env) (e : QArr env),
  tl_reachable env parse_unit s1 -> tl_reachable env parse_unit s2 ->
  (forall p, tl_param_get env p s1 = tl_param_get env p s2) ->
  snd (tl_drive env e s1) = snd (tl_drive env e s2) /\
  (snd (tl_drive env e s1) = Ok tt ->
   tl_outputs env (fst (tl_drive env e s1)) = tl_outputs env (fst (tl_drive env e s2))).
Proof.
  intros env pu s1 s2 e H1 H2 Hv. apply tl_reachable_coherent in H1, H2.
  destruct (tl_drive_indep env s1 s2 e H1 H2 Hv) as [A B]. split; [exact A|].
  intros H. rewrite (B H). reflexivity.
Qed.

(** ... in particular they are those of a newly constructed model. *)
Theorem c03_two_layer_fresh : forall (env : Env) parse_unit (s : TL env) (e : QArr env),
  tl_reachable env parse_unit s ->
  exists s0, tl_new env (tl_args_of env s) = Ok s0 /\
    snd (tl_drive env e s) = snd (tl_drive env e s0) /\
    (snd (tl_drive env e s) = Ok tt ->
     tl_outputs env (fst (tl_drive env e s)) = tl_outputs env (fst (tl_drive env e s0))).
Proof.
  intros env pu s e H. apply tl_reachable_coherent in H.
  destruct (tl_rebuild env s H) as (s0 & Hs0 & E). exists s0. split; [exact Hs0|].
  assert (C0 : tl_coherent env s0) by (eapply tl_new_coherent; eassumption).
  assert (V : tl_same_visible env s s0) by (subst s0; intros []; reflexivity).
  destruct (tl_drive_indep env s s0 e H C0 V) as [A B]. split; [exact A|].
  intros K. rewrite (B K). reflexivity.
Qed.

Theorem c03_impulse_response_history : forall (env : Env) parse_unit (s1 s2 : IR env) (e : QArr env),
  ir_reachable env parse_unit s1 -> ir_reachable env parse_unit s2 ->
  (forall p, ir_param_get env p s1 = ir_param_get env p s2) ->
  snd (ir_drive env e s1) = snd (ir_drive env e s2) /\
  (snd (ir_drive env e s1) = Ok tt ->
   ir_outputs env (fst (ir_drive env e s1)) = ir_outputs env (fst (ir_drive env e s2))).
Proof.
  intros env pu s1 s2 e H1 H2 Hv. apply ir_reachable_coherent in H1, H2.
  destruct (ir_drive_indep env s1 s2 e H1 H2 Hv) as [A B]. split; [exact A|].
  intros H. rewrite (B H). reflexivity.
Qed.

(** Two histories, one with a failed assignment, a run and a re-assignment, that
    end with the same visible parameters. *)
Example c03_history_ex :
  let s2 := tl_calls demo demo_parse
              [TSetEta demo (PQ (mkQty demo 1 u_m)); TSetDrivers demo (EQ1 demo_erf); TReset demo; TRun demo;
               TStep demo; TSetEta demo (PQ (mkQty demo 2 u_Wm2C)); TSetEta demo (PQ (tl_eta demo demo_tl))] demo_tl in
  tl_reachable demo demo_parse demo_tl /\ tl_reachable demo demo_parse s2 /\ s2 <> demo_tl /\
  forall p, tl_param_get demo p demo_tl = tl_param_get demo p s2.
Proof.
  cbv zeta. split; [exists demo_args, demo_tl, []; split; [exact demo_tl_new|reflexivity]|].
  split; [eexists demo_args, demo_tl, _; split; [exact demo_tl_new|reflexivity]|].
  split.
  - intros H. apply (f_equal (fun s => tl_idx demo s)) in H. vm_compute in H. discriminate.
  - intros []; vm_compute; reflexivity.
Qed.

(** ** C04 *)
(** Series [part] has the first [k] entries of [full] and NaN after them. *)
Lemma fill_partial {A} (d : A) f k n : (k <= n)%nat ->
  List.length (fill d f k n) = n /\
  (forall j, (j < k)%nat -> nth_error (fill d f k n) j = nth_error (fill d f n n) j) /\
  (forall j, (k <= j < n)%nat -> nth_error (fill d f k n) j = Some d).
Proof.
  intros H. split; [apply fill_length, H|]. split.
  - intros j Hj. rewrite !fill_nth_lt by lia. reflexivity.
  - intros j Hj. apply fill_nth_ge, Hj.
Qed.

Theorem c04_two_layer_steps : forall (env : Env) (s : TL env) (e : QArr env) (F : list (num env)),
  to_mags env e u_Wm2 = Ok F -> nan_free env e ->
  exists s0, (tl_set_drivers env (EQ1 e) ;; tl_reset env) s = (s0, Ok tt) /\
    tl_run env s0 = tl_steps env (List.length (mags e)) s0 /\
    snd (tl_run env s0) = Ok tt /\
    forall k, (k <= List.length (mags e))%nat ->
      snd (tl_steps env k s0) = Ok tt /\
      Forall2 (fun part full => fst part = fst full /\
                 partial_series env k (List.length (mags e)) (snd part) (snd full))
        (tl_outputs env (fst (tl_steps env k s0))) (tl_outputs env (fst (tl_run env s0))).
Proof.
  intros env s e F HF Hn. apply nan_free_existsb in Hn.
  exists (filled env (with_erf env s (Some e) (Some F)) F 0).
  pose proof (to_mags_length env e _ F HF) as HL.
  split; [exact (set_reset_ok env s e F HF Hn)|]. split; [reflexivity|].
  assert (R : tl_run env (filled env (with_erf env s (Some e) (Some F)) F 0) =
              (filled env (with_erf env s (Some e) (Some F)) F (List.length F), Ok tt)).
  { unfold tl_run, tl_erf_len. cbn [filled with_run with_erf tl_erf]. rewrite <- HL.
    apply (steps_filled env _ F 0); [reflexivity|lia]. }
  rewrite R. split; [reflexivity|]. intros k Hk. rewrite <- HL in *.
  rewrite (steps_filled env (with_erf env s (Some e) (Some F)) F 0 k eq_refl) by lia. cbn [snd fst Nat.add].
  split; [reflexivity|].
  unfold tl_outputs, filled, with_run. cbn [tl_temp_upper tl_temp_lower tl_rndt].
  repeat constructor; cbn [snd]; apply fill_partial; lia.
Qed.

Theorem c04_impulse_response_steps : forall (env : Env) (s s0 : IR env) (e : QArr env),
  (ir_set_drivers env (EQ1 e) ;; ir_reset env) s = (s0, Ok tt) ->
  ir_run env s0 = ir_steps env (List.length (mags e)) s0 /\
  (snd (ir_run env s0) = Ok tt ->
   forall k, (k <= List.length (mags e))%nat ->
     snd (ir_steps env k s0) = Ok tt /\
     partial_series env k (List.length (mags e)) (ir_temp1 env (fst (ir_steps env k s0))) (ir_temp1 env (fst (ir_run env s0))) /\
     partial_series env k (List.length (mags e)) (ir_temp2 env (fst (ir_steps env k s0))) (ir_temp2 env (fst (ir_run env s0))) /\
     partial_series env k (List.length (mags e)) (ir_rndt env (fst (ir_steps env k s0))) (ir_rndt env (fst (ir_run env s0)))).
Proof.
  intros env s s0 e H.
  assert (D : ir_drive env e s = ir_run env s0).
  { unfold ir_drive. revert H. cbv [mbind].
    destruct (ir_set_drivers env (EQ1 e) s) as [s1 [[]|x]]; [|discriminate].
    intros ->. reflexivity. }
  assert (HF : exists F, to_mags env e u_Wm2 = Ok F).
  { apply to_mags_ok_iff. destruct (same_dim_dec env (aunits e) u_Wm2) as [Hd|Hd]; [exact Hd|].
    revert H. cbv [mbind]. cbn [ir_set_drivers]. rewrite (iset_erf_err env s e Hd). discriminate. }
  destruct HF as [F HF]. pose proof (to_mags_length env e _ F HF) as HL.
  destruct (existsb (nisnan env) (mags e)) eqn:Hn.
  { revert H. cbv [mbind]. cbn [ir_set_drivers]. rewrite (iset_erf_ok env s e F HF).
    rewrite (ireset_nan env (iwith_erf env s (Some e) (Some F)) e eq_refl Hn). discriminate. }
  assert (E0 : forall hp, s0 = ifilled env (iwith_erf env s (Some e) (Some F)) hp F 0).
  { intros hp. pose proof (iset_reset_ok env s e F hp HF Hn) as K. rewrite H in K. congruence. }
  split.
  - rewrite (E0 (nQ env 0, None)). reflexivity.
  - intros Hr. rewrite <- D in Hr |- *. pose proof (idrive_outcome env s e) as K. rewrite Hr in K.
    destruct K as (m & hp & Hm & _ & Hs & Hd). rewrite HF in Hm. injection Hm as <-.
    rewrite Hd. rewrite <- HL. intros k Hk. rewrite (E0 hp).
    rewrite (isteps_filled env (iwith_erf env s (Some e) (Some F)) hp F k 0); [|reflexivity|lia|].
    2:{ destruct Hs as [Hs|Hs]; [left; lia|right; exact Hs]. }
    cbn [snd fst Nat.add]. split; [reflexivity|].
    unfold ifilled, iwith_run. cbn [ir_temp1 ir_temp2 ir_rndt].
    repeat split; apply fill_partial; lia.
Qed.

(** Stepping past the end of the series. *)
Theorem c04_two_layer_overrun : forall (env : Env) (s : TL env) i m,
  tl_idx env s = Some i -> tl_erf_mag env s = Some m ->
  (List.length (tl_temp_upper env s) <= S i)%nat ->
  snd (tl_step env s) = Err IndexError /\
  tl_outputs env (fst (tl_step env s)) = tl_outputs env s /\
  tl_only_results env s (fst (tl_step env s)).
Proof.
  intros env s i m Hi Hm HU. unfold tl_step. cbv [mbind mread mmod]. cbv [RecordSet.set].
  cbn [tl_idx]. rewrite Hi. cbn [tl_step_at]. cbv [mbind mread mmod]. cbn [tl_temp_upper tl_temp_lower tl_erf_mag].
  unfold lget. cbn [tl_temp_upper tl_temp_lower].
  destruct (nth_error (tl_temp_upper env s) i) as [tu|]; cbn [bind].
  2:{ repeat split; intros []; reflexivity. }
  destruct (nth_error (tl_temp_lower env s) i) as [tl|]; cbn [bind].
  2:{ repeat split; intros []; reflexivity. }
  unfold tl_erf_at. cbn [tl_erf_mag]. rewrite Hm. unfold lget.
  destruct (nth_error m i) as [f|]; cbn [bind].
  2:{ repeat split; intros []; reflexivity. }
  unfold tl_put_upper. cbv [mbind mread mmod]. cbn [tl_temp_upper].
  rewrite lset_err by (cbn; exact HU). repeat split; intros []; reflexivity.
Qed.

Theorem c04_impulse_response_overrun : forall (env : Env) (s : IR env) i m,
  ir_idx env s = Some i -> ir_erf_mag env s = Some m ->
  (List.length (ir_temp1 env s) <= S i)%nat ->
  (snd (ir_step env s) = Err IndexError \/
   (snd (ir_step env s) = Err ZeroDivisionError /\ neqb env (ir_d1_mag env s) (nQ env 0) = true)) /\
  ir_outputs env (fst (ir_step env s)) = ir_outputs env s /\
  ir_only_results env s (fst (ir_step env s)).
Proof.
  intros env s i m Hi Hm HU. unfold ir_step. cbv [mbind mread mmod]. cbv [RecordSet.set]. cbn [ir_idx]. rewrite Hi.
  cbn [ir_step_at]. cbv [mbind mread mmod]. unfold lget. cbn [ir_temp1].
  destruct (nth_error (ir_temp1 env s) i) as [t1|]; cbn [bind].
  2:{ repeat split; try (intros []; reflexivity); left; reflexivity. }
  unfold ir_erf_at. cbn [ir_erf_mag]. rewrite Hm. unfold lget.
  destruct (nth_error m i) as [f|]; cbn [bind].
  2:{ repeat split; try (intros []; reflexivity); left; reflexivity. }
  cbn [ir_delta_t_mag ir_q1_mag ir_d1_mag].
  destruct (neqb env (ir_d1_mag env s) (nQ env 0)) eqn:E.
  - rewrite calc_temp_err by exact E. repeat split; try (intros []; reflexivity); right; split; reflexivity.
  - rewrite calc_temp_ok by exact E.
    unfold ir_put_temp1. cbv [mbind mread mmod]. cbn [ir_temp1].
    rewrite lset_err by (cbn; exact HU). repeat split; try (intros []; reflexivity); left; reflexivity.
Qed.

(** No step changes an entry that was already computed. *)
Lemma upd_before {A} (l : list A) k v j : j <> k -> nth_error (upd l k v) j = nth_error l j.
Proof. intros H. rewrite nth_error_upd. destruct (Nat.eqb_spec k j); [congruence|reflexivity]. Qed.

Definition tl_keeps (env : Env) (k : nat) (m : Meth (TL env) unit) : Prop :=
  forall s j, j <> k ->
    nth_error (tl_temp_upper env (fst (m s))) j = nth_error (tl_temp_upper env s) j /\
    nth_error (tl_temp_lower env (fst (m s))) j = nth_error (tl_temp_lower env s) j /\
    nth_error (tl_rndt env (fst (m s))) j = nth_error (tl_rndt env s) j.
Lemma tl_keeps_bind (env : Env) {A} k (r : TL env -> Res A) f :
  (forall a, tl_keeps env k (f a)) -> tl_keeps env k (mbind (mread r) f).
Proof. intros H s j Hj. cbv [mbind mread]. destruct (r s); [apply H, Hj|auto]. Qed.
Lemma tl_keeps_seq (env : Env) k m f : tl_keeps env k m -> tl_keeps env k f -> tl_keeps env k (m ;; f).
Proof.
  intros H1 H2 s j Hj. cbv [mbind]. pose proof (H1 s j Hj) as K. destruct (m s) as [s1 [[]|x]]; cbn [fst] in *; [|exact K].
  destruct (H2 s1 j Hj) as (A & B & C), K as (D & E & G). rewrite A, B, C. auto.
Qed.
Lemma tl_keeps_put (env : Env) k v :
  tl_keeps env k (tl_put_upper env k v) /\ tl_keeps env k (tl_put_lower env k v) /\ tl_keeps env k (tl_put_rndt env k v).
Proof.
  repeat split; unfold tl_put_upper, tl_put_lower, tl_put_rndt; cbv [mbind mread mmod]; unfold lset;
    destruct (Nat.ltb _ _); cbv [RecordSet.set]; cbn; auto; apply upd_before; assumption.
Qed.
Lemma tl_keeps_step_at (env : Env) k : tl_keeps env k (tl_step_at env k).
Proof.
  destruct k as [|k]; cbn [tl_step_at].
  - apply tl_keeps_seq; [apply tl_keeps_put|]. apply tl_keeps_seq; apply tl_keeps_put.
  - apply tl_keeps_bind; intros a. apply tl_keeps_seq; [apply tl_keeps_put|].
    apply tl_keeps_bind; intros b. apply tl_keeps_seq; [apply tl_keeps_put|].
    apply tl_keeps_bind; intros c. apply tl_keeps_put.
Qed.

Theorem c04_two_layer_keeps_earlier : forall (env : Env) (s : TL env) i j,
  tl_idx env s = Some i -> (j <= i)%nat ->
  nth_error (tl_temp_upper env (fst (tl_step env s))) j = nth_error (tl_temp_upper env s) j /\
  nth_error (tl_temp_lower env (fst (tl_step env s))) j = nth_error (tl_temp_lower env s) j /\
  nth_error (tl_rndt env (fst (tl_step env s))) j = nth_error (tl_rndt env s) j.
Proof.
  intros env s i j Hi Hj. unfold tl_step. cbv [mbind mread mmod]. cbv [RecordSet.set]. cbn [tl_idx]. rewrite Hi.
  match goal with |- context [tl_step_at env (S i) ?s0] =>
    exact (tl_keeps_step_at env (S i) s0 j ltac:(lia)) end.
Qed.

Definition ir_keeps (env : Env) (k : nat) (m : Meth (IR env) unit) : Prop :=
  forall s j, j <> k ->
    nth_error (ir_temp1 env (fst (m s))) j = nth_error (ir_temp1 env s) j /\
    nth_error (ir_temp2 env (fst (m s))) j = nth_error (ir_temp2 env s) j /\
    nth_error (ir_rndt env (fst (m s))) j = nth_error (ir_rndt env s) j.
Lemma ir_keeps_bind (env : Env) {A} k (r : IR env -> Res A) f :
  (forall a, ir_keeps env k (f a)) -> ir_keeps env k (mbind (mread r) f).
Proof. intros H s j Hj. cbv [mbind mread]. destruct (r s); [apply H, Hj|auto]. Qed.
Lemma ir_keeps_seq (env : Env) k m f : ir_keeps env k m -> ir_keeps env k f -> ir_keeps env k (m ;; f).
Proof.
  intros H1 H2 s j Hj. cbv [mbind]. pose proof (H1 s j Hj) as K. destruct (m s) as [s1 [[]|x]]; cbn [fst] in *; [|exact K].
  destruct (H2 s1 j Hj) as (A & B & C), K as (D & E & G). rewrite A, B, C. auto.
Qed.
Lemma ir_keeps_put (env : Env) k v :
  ir_keeps env k (ir_put_temp1 env k v) /\ ir_keeps env k (ir_put_temp2 env k v) /\ ir_keeps env k (ir_put_rndt env k v).
Proof.
  repeat split; unfold ir_put_temp1, ir_put_temp2, ir_put_rndt; cbv [mbind mread mmod]; unfold lset;
    destruct (Nat.ltb _ _); cbv [RecordSet.set]; cbn; auto; apply upd_before; assumption.
Qed.
Lemma ir_keeps_step_at (env : Env) k : ir_keeps env k (ir_step_at env k).
Proof.
  destruct k as [|k]; cbn [ir_step_at].
  - apply ir_keeps_seq; [apply ir_keeps_put|]. apply ir_keeps_seq; apply ir_keeps_put.
  - apply ir_keeps_bind; intros a. apply ir_keeps_seq; [apply ir_keeps_put|].
    apply ir_keeps_bind; intros b. apply ir_keeps_seq; [apply ir_keeps_put|].
    apply ir_keeps_bind; intros c. apply ir_keeps_put.
Qed.
Theorem c04_impulse_response_keeps_earlier : forall (env : Env) (s : IR env) i j,
  ir_idx env s = Some i -> (j <= i)%nat ->
  nth_error (ir_temp1 env (fst (ir_step env s))) j = nth_error (ir_temp1 env s) j /\
  nth_error (ir_temp2 env (fst (ir_step env s))) j = nth_error (ir_temp2 env s) j /\
  nth_error (ir_rndt env (fst (ir_step env s))) j = nth_error (ir_rndt env s) j.
Proof.
  intros env s i j Hi Hj. unfold ir_step. cbv [mbind mread mmod]. cbv [RecordSet.set]. cbn [ir_idx]. rewrite Hi.
  match goal with |- context [ir_step_at env (S i) ?s0] =>
    exact (ir_keeps_step_at env (S i) s0 j ltac:(lia)) end.
Qed.

Example c04_overrun_ex :
  let s := fst (tl_drive demo demo_erf demo_tl) in
  tl_idx demo s = Some 3%nat /\ tl_erf_mag demo s = Some (mags demo_erf) /\
  List.length (tl_temp_upper demo s) = 4%nat /\ snd (tl_step demo s) = Err IndexError.
Proof. vm_compute. repeat split. Qed.

(** ** C05 *)
Theorem c05_two_layer_no_stale_values : forall (env : Env) parse_unit (s : TL env),
  tl_reachable env parse_unit s -> tl_coherent env s.
Proof. intros env pu s H. exact (tl_reachable_coherent env pu s H). Qed.

Theorem c05_impulse_response_no_stale_values : forall (env : Env) parse_unit (s : IR env),
  ir_reachable env parse_unit s -> ir_coherent env s.
Proof. intros env pu s H. exact (ir_reachable_coherent env pu s H). Qed.

(** ** C06 *)
Theorem c06_two_layer_setters : forall (env : Env) (s : TL env) p (v : PyVal env),
  match v with
  | POther => tl_param_set env p v s = (s, Err TypeError)
  | PQ q =>
      (~ same_dim env (units q) (tl_param_unit p) -> tl_param_set env p v s = (s, Err UnitError)) /\
      (same_dim env (units q) (tl_param_unit p) ->
       exists s', tl_param_set env p v s = (s', Ok tt) /\ tl_param_get env p s' = q /\
         (forall p', p' <> p -> tl_param_get env p' s' = tl_param_get env p' s) /\
         tl_erf env s' = tl_erf env s /\ tl_outputs env s' = tl_outputs env s /\
         tl_idx env s' = tl_idx env s)
  end.
Proof.
  intros env s p [q|].
  - split.
    + intros H. exact (tl_set_fail env p s (PQ q) H).
    + intros H. destruct (tl_set_succ env p s q H) as (s' & A & B & C & D & E & G & I & J & K & _).
      exists s'. repeat split; auto. unfold tl_outputs. rewrite G, I, J. reflexivity.
  - exact (tl_set_fail env p s POther I).
Qed.

Theorem c06_impulse_response_setters : forall (env : Env) (s : IR env) p (v : PyVal env),
  match v with
  | POther => ir_param_set env p v s = (s, Err TypeError)
  | PQ q =>
      (~ same_dim env (units q) (ir_param_unit p) -> ir_param_set env p v s = (s, Err UnitError)) /\
      (same_dim env (units q) (ir_param_unit p) ->
       exists s', ir_param_set env p v s = (s', Ok tt) /\ ir_param_get env p s' = q /\
         (forall p', p' <> p -> ir_param_get env p' s' = ir_param_get env p' s) /\
         ir_erf env s' = ir_erf env s /\ ir_outputs env s' = ir_outputs env s /\
         ir_idx env s' = ir_idx env s)
  end.
Proof.
  intros env s p [q|].
  - split.
    + intros H. exact (ir_set_fail env p s (PQ q) H).
    + intros H. destruct (ir_set_succ env p s q H) as (s' & A & B & C & D & E & G & I & J & K & _).
      exists s'. repeat split; auto. unfold ir_outputs. rewrite G, I, J. reflexivity.
  - exact (ir_set_fail env p s POther I).
Qed.

(** [set_drivers] and assignment to [erf]. *)
Theorem c06_set_drivers : forall (env : Env) (s : TL env) (r : IR env) (e : ErfArg env),
  match e with
  | ENoShape => tl_set_drivers env e s = (s, Err AttributeError) /\ ir_set_drivers env e r = (r, Err AttributeError)
  | EQnot1 _ | EArrNot1 => tl_set_drivers env e s = (s, Err AssertionError) /\ ir_set_drivers env e r = (r, Err AssertionError)
  | EArr1 => tl_set_drivers env e s = (s, Err TypeError) /\ ir_set_drivers env e r = (r, Err TypeError)
  | EQ1 q =>
      (~ same_dim env (aunits q) u_Wm2 ->
         tl_set_drivers env e s = (s, Err UnitError) /\ ir_set_drivers env e r = (r, Err UnitError)) /\
      (same_dim env (aunits q) u_Wm2 ->
         (exists s', tl_set_drivers env e s = (s', Ok tt) /\ tl_erf env s' = Some q /\
            (forall p, tl_param_get env p s' = tl_param_get env p s) /\
            tl_outputs env s' = tl_outputs env s /\ tl_idx env s' = tl_idx env s) /\
         (exists r', ir_set_drivers env e r = (r', Ok tt) /\ ir_erf env r' = Some q /\
            (forall p, ir_param_get env p r' = ir_param_get env p r) /\
            ir_outputs env r' = ir_outputs env r /\ ir_idx env r' = ir_idx env r))
  end.
Proof.
  intros env s r [q|u| | |]; try (split; reflexivity). split.
  - intros H. split; [apply set_erf_err, H|apply iset_erf_err, H].
  - intros H. apply to_mags_ok_iff in H as [m Hm]. split.
    + exists (with_erf env s (Some q) (Some m)). split; [exact (set_erf_ok env s q m Hm)|].
      repeat split; intros []; reflexivity.
    + exists (iwith_erf env r (Some q) (Some m)). split; [exact (iset_erf_ok env r q m Hm)|].
      repeat split; intros []; reflexivity.
Qed.

(** Construction succeeds exactly when every argument would be accepted by the
    corresponding setter. *)
Theorem c06_two_layer_construction : forall (env : Env) (g : TLArgs env),
  ((exists s, tl_new env g = Ok s) <-> forall p, good_arg env (tl_arg env g p) (tl_param_unit p)) /\
  forall s, tl_new env g = Ok s -> forall p, tl_arg env g p = PQ (tl_param_get env p s).
Proof.
  intros env g. split; [split|].
  - intros [s H]. exact (tl_new_inv env g s H).
  - intros H. destruct (tl_new_ok env g H) as (s & Hs & _). eauto.
  - intros s H. pose proof (tl_new_inv env g s H) as K.
    destruct (tl_new_ok env g K) as (s' & Hs & _ & V & _). rewrite H in Hs. injection Hs as <-. exact V.
Qed.

Example c06_setters_ex :
  same_dim demo [("kilometer"%string, 1)] (tl_param_unit Pdu) /\
  ~ same_dim demo u_s (tl_param_unit Pdu).
Proof.
  split.
  - apply dim_eqb_spec. reflexivity.
  - intros H. apply dim_eqb_spec in H. discriminate.
Qed.

(** ** C07 *)
Theorem c07_two_layer_reset : forall (env : Env) parse_unit (s : TL env),
  tl_reachable env parse_unit s ->
  match tl_erf env s with
  | None => tl_reset env s = (s, Err ModelStateError)
  | Some e =>
      (~ nan_free env e -> tl_reset env s = (s, Err ModelStateError)) /\
      (nan_free env e ->
       exists s', tl_reset env s = (s', Ok tt) /\ tl_only_results env s s' /\ tl_idx env s' = None /\
         forall o, In o (tl_outputs env s') -> snd o = repeat (nnan env) (List.length (mags e)))
  end.
Proof.
  intros env pu s H. apply tl_reachable_coherent in H. pose proof (tc_erf env s H) as Hm.
  destruct (tl_erf env s) as [e|] eqn:He; [|apply reset_none, He].
  destruct (tl_erf_mag env s) as [m|] eqn:Em; [|contradiction]. split.
  - intros Hn. apply (reset_nan env s e He). destruct (existsb _ _) eqn:E; [reflexivity|].
    exfalso. apply Hn, nan_free_existsb, E.
  - intros Hn. apply nan_free_existsb in Hn. eexists. split; [exact (reset_ok env s e m He Em Hn)|].
    rewrite <- (to_mags_length env e _ m Hm).
    split; [split; [intros []; reflexivity|reflexivity]|]. split; [reflexivity|].
    intros o [<-|[<-|[<-|[]]]]; reflexivity.
Qed.

Theorem c07_impulse_response_reset : forall (env : Env) parse_unit (s : IR env),
  ir_reachable env parse_unit s ->
  match ir_erf env s with
  | None => ir_reset env s = (s, Err ModelStateError)
  | Some e =>
      (~ nan_free env e -> ir_reset env s = (s, Err ModelStateError)) /\
      (nan_free env e ->
       exists s', ir_reset env s = (s', Ok tt) /\ ir_only_results env s s' /\ ir_idx env s' = None /\
         ir_temp1 env s' = repeat (nnan env) (List.length (mags e)) /\
         ir_temp2 env s' = repeat (nnan env) (List.length (mags e)) /\
         ir_rndt env s' = repeat (nnan env) (List.length (mags e)))
  end.
Proof.
  intros env pu s H. apply ir_reachable_coherent in H. pose proof (ic_erf env s H) as Hm.
  destruct (ir_erf env s) as [e|] eqn:He; [|apply ireset_none, He].
  destruct (ir_erf_mag env s) as [m|] eqn:Em; [|contradiction]. split.
  - intros Hn. apply (ireset_nan env s e He). destruct (existsb _ _) eqn:E; [reflexivity|].
    exfalso. apply Hn, nan_free_existsb, E.
  - intros Hn. apply nan_free_existsb in Hn. eexists. split; [exact (ireset_ok env s e m He Em Hn)|].
    rewrite <- (to_mags_length env e _ m Hm).
    split; [split; [intros []; reflexivity|reflexivity]|]. repeat split; reflexivity.
Qed.

Example c07_reset_ex :
  let s := fst (tl_set_drivers demo (EQ1 (mkQA (env := demo) [Some 1; None; Some 2] u_Wm2)) demo_tl) in
  tl_reachable demo demo_parse s /\ tl_erf demo s <> None /\ snd (tl_reset demo s) = Err ModelStateError /\
  snd (tl_reset demo (fst (tl_set_drivers demo (EQ1 demo_erf) s))) = Ok tt.
Proof.
  split; [exists demo_args, demo_tl, [TSetDrivers demo (EQ1 (mkQA (env := demo) [Some 1; None; Some 2] u_Wm2))];
          split; [exact demo_tl_new|reflexivity]|].
  split; [discriminate|]. split; vm_compute; reflexivity.
Qed.

(** ** C08 *)
Theorem c08_two_layer_uncomputed_are_nan : forall (env : Env) parse_unit (s : TL env),
  tl_reachable env parse_unit s -> tl_nan_inv env s.
Proof. intros env pu s H. exact (proj2 (tl_reachable_inv env pu s H)). Qed.

Theorem c08_impulse_response_uncomputed_are_nan : forall (env : Env) parse_unit (s : IR env),
  ir_reachable env parse_unit s -> ir_nan_inv env s.
Proof. intros env pu s H. exact (proj2 (ir_reachable_inv env pu s H)). Qed.

Example c08_partial_run_ex :
  let s := tl_calls demo demo_parse [TSetDrivers demo (EQ1 demo_erf); TReset demo; TRun demo;
             TSetDrivers demo (EQ1 demo_erf); TReset demo; TStep demo; TStep demo; TStep demo] demo_tl in
  tl_reachable demo demo_parse s /\ tl_idx demo s = Some 2%nat /\
  nth_error (tl_temp_upper demo s) 3 = Some None /\ nth_error (tl_temp_upper demo s) 2 <> Some None.
Proof.
  split; [eexists demo_args, demo_tl, _; split; [exact demo_tl_new|reflexivity]|].
  split; [vm_compute; reflexivity|]. split; [vm_compute; reflexivity|vm_compute; discriminate].
Qed.

(** ** C09 *)
Theorem c09_two_layer_run_without_drivers : forall (env : Env) (g : TLArgs env) (s : TL env),
  tl_new env g = Ok s ->
  tl_reset env s = (s, Err ModelStateError) /\
  snd (tl_run env s) = Ok tt /\
  (forall o, In o (tl_outputs env (fst (tl_run env s))) -> snd o = [nQ env 0]) /\
  snd (tl_run env (fst (tl_run env s))) = Err AttributeError.
Proof.
  intros env g s H. pose proof (tl_new_inv env g s H) as K.
  destruct (tl_new_ok env g K) as (s' & Hs & C & _ & He & Hi & HU & HL & HR).
  rewrite H in Hs. injection Hs as <-. pose proof (tc_erf env s C) as Hm. rewrite He in Hm.
  destruct (tl_erf_mag env s) eqn:Em; [contradiction|].
  split; [exact (reset_none env s He)|].
  destruct s; cbn in He, Hi, HU, HL, HR, Em. subst.
  split; [reflexivity|]. split; [|reflexivity].
  intros o [<-|[<-|[<-|[]]]]; reflexivity.
Qed.

Theorem c09_impulse_response_run_without_drivers : forall (env : Env) (g : IRArgs env) (s : IR env),
  ir_new env g = Ok s ->
  ir_reset env s = (s, Err ModelStateError) /\
  snd (ir_run env s) = Ok tt /\
  ir_temp1 env (fst (ir_run env s)) = [nQ env 0] /\ ir_temp2 env (fst (ir_run env s)) = [nQ env 0] /\
  ir_rndt env (fst (ir_run env s)) = [nQ env 0] /\
  snd (ir_run env (fst (ir_run env s))) = Err AttributeError.
Proof.
  intros env g s H. destruct (ir_new_inv env g s H) as [K (d1 & d2 & E1 & E2 & Hge)].
  destruct (ir_new_ok env g d1 d2 K E1 E2 Hge) as (s' & Hs & C & _ & He & Hi & HU & HL & HR).
  rewrite H in Hs. injection Hs as <-. pose proof (ic_erf env s C) as Hm. rewrite He in Hm.
  destruct (ir_erf_mag env s) eqn:Em; [contradiction|].
  split; [exact (ireset_none env s He)|].
  destruct s; cbn in He, Hi, HU, HL, HR, Em. subst.
  repeat split; reflexivity.
Qed.
