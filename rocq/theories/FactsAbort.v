(** Properties C30, C31: when the heat uptake aborts a run, and the order of the
    timescales. *)
From Coq Require Import List String QArith Reals Qreals Bool Arith Lqa Lra Lia Psatz.
From Verif Require Import Arith Pint Base TwoLayer Impulse Scm Api Spec Exact SpecReal
  GenTL GenTLHist GenIR GenIRHist GenMeta RealUnits RealTL RealGeo RealConv RealIR RealTrace RealModels RealEuler RealBox RealEquiv
  FactsRun FactsTL FactsTL2 FactsIR FactsConv FactsEquiv FactsUnits.
Import ListNotations.
Local Open Scope R_scope.

(** ** C30 *)
Definition na {A} (r : Res A) : Prop := r <> Err AssertionError.
Lemma na_ok {A} (a : A) : na (Ok a). Proof. discriminate. Qed.
Lemma na_bind {A B} (r : Res A) (f : A -> Res B) : na r -> (forall a, na (f a)) -> na (bind r f).
Proof. destruct r as [a|e]; cbn; intros H K; [apply K|]. intros Q. apply H. congruence. Qed.
Lemma na_addsub (env : Env) op (p q : Qty env) : na (addsub env op p q).
Proof.
  unfold addsub. destruct (negb _); [discriminate|]. destruct (units_eqb _ _); [discriminate|].
  assert (T : forall (q : Qty env) u, na (to_mag env q u)) by (intros q0 u; unfold to_mag, conv; destruct (dim_eqb _ _ _); discriminate).
  destruct (_ && _); apply na_bind; auto using na_ok.
Qed.
Lemma na_qdiv (env : Env) (p q : Qty env) : na (qdiv env p q).
Proof. unfold qdiv. destruct (neqb _ _ _); discriminate. Qed.
Lemma na_tlp (env : Env) s : na (ir_get_two_layer_parameters env s).
Proof.
  unfold ir_get_two_layer_parameters, rdiv.
  repeat first [apply na_ok | apply na_addsub | apply na_qdiv | apply na_bind; [|intro]].
Qed.

(** With an efficacy of 1 no run raises AssertionError, in any number system. *)
Theorem c30_efficacy_one_never_asserts : forall (env : Env) parse_unit (s : IR env) m e,
  ir_reachable env parse_unit s -> to_mag env (ir_efficacy env s) u_none = Ok m -> neqb env m (nQ env 1) = true ->
  snd (ir_drive env e s) <> Err AssertionError.
Proof.
  intros env pu s m e Hr Hm H1 Q. pose proof (idrive_outcome env s e) as K. rewrite Q in K.
  destruct K as [[K _]|[[K _]|[_ K]]]; try discriminate.
  pose proof (ic_efficacy env s (ir_reachable_coherent env pu s Hr)) as C. rewrite Hm in C. injection C as C.
  revert K. unfold step_status, heat_pars. rewrite <- C.
  destruct (neqb env (ir_d1_mag env s) _); [intros K; discriminate K|]. destruct (neqb env (ir_d2_mag env s) _); [intros K; discriminate K|].
  destruct (ir_get_two_layer_parameters env s) as [r|x] eqn:E; cbn [bind].
  - rewrite H1. intros K. discriminate K.
  - intros K. injection K as ->. exact (na_tlp env s E).
Qed.

Definition boxes_positive (p : IRP) : Prop :=
  0 < p_q1 p /\ 0 < p_q2 p /\ 0 < p_d1 p /\ 0 < p_d2 p /\ p_d1 p <> p_d2 p /\ 0 < p_ieps p.

Lemma status_drive reg parse s p e F : ir_setup reg parse s p e F -> (2 <= npoints e)%nat ->
  match step_status (xenv reg) s with
  | Ok _ => snd (ir_drive (xenv reg) e s) = Ok tt
  | Err x => snd (ir_drive (xenv reg) e s) = Err x
  end.
Proof.
  intros (Hr & Hv & HF) Hn. pose proof (is_series_to_mags reg e F _ HF) as Hm.
  pose proof (is_series_nan_free reg e F _ HF) as Hnan. apply nan_free_existsb in Hnan.
  destruct (step_status (xenv reg) s) as [hp|x] eqn:Hst.
  - rewrite (idrive_ok (xenv reg) s e _ hp Hm Hnan (or_intror Hst)). reflexivity.
  - apply (idrive_err (xenv reg) s e _ x Hm Hnan); [|exact Hst]. rewrite map_length, seq_length. exact Hn.
Qed.

Lemma status_positive reg parse s p : ir_reachable (xenv reg) parse s -> ir_values reg s p -> boxes_positive p -> p_ieps p <> 1 ->
  exists r, ir_get_two_layer_parameters (xenv reg) s = Ok r /\
    (units_eqb (units (tlp_eta (xenv reg) r) ++ u_dC) u_Wm2 = true -> exists hp, step_status (xenv reg) s = Ok hp) /\
    (units_eqb (units (tlp_eta (xenv reg) r) ++ u_dC) u_Wm2 = false -> step_status (xenv reg) s = Err AssertionError).
Proof.
  intros Hr Hv (P1 & P2 & P3 & P4 & Pd & P5) He.
  destruct (status_eff reg parse s p Hr Hv) as (r & g & Hi & _ & _ & _ & Hst); try assumption; try lra.
  { pose proof (pos_mul _ _ P1 P4). pose proof (pos_mul _ _ P2 P3). lra. }
  exists r. split; [exact Hi|]. rewrite Hst. split; intros ->; eauto.
Qed.

Lemma same_delta_dec u v : {forall x, String.prefix "delta_" x = true -> (expo u x == expo v x)%Q} + {has_delta (udiv u v) = true}.
Proof.
  destruct (has_delta (udiv u v)) eqn:E; [right; reflexivity|left]. apply delta_free_false in E.
  intros x Hx. specialize (E x Hx). rewrite expo_div in E. Lqa.lra.
Qed.
Lemma sdC_delta : String.prefix "delta_" sdC = true. Proof. reflexivity. Qed.
Lemma CWm2_delta : (expo u_CWm2 sdC == 1)%Q. Proof. reflexivity. Qed.

(** Which runs with an efficacy other than 1 abort: parameters positive, the
    timescales and the efficacy given in units without "delta_" symbols.  [U1],
    [U2], [D1], [D2], [Ue] are the units of q1, q2, d1, d2 and the efficacy. *)
Theorem c30_which_units_abort : forall reg parse s p e F,
  ir_setup reg parse s p e F -> (2 <= npoints e)%nat ->
  0 < p_q1 p -> 0 < p_q2 p -> 0 < p_d1 p -> 0 < p_d2 p -> p_d1 p <> p_d2 p -> 0 < p_ieps p -> p_ieps p <> 1 ->
  plain_timescales s ->
  let U1 := units (ir_q1 (xenv reg) s) in let U2 := units (ir_q2 (xenv reg) s) in
  let D1 := units (ir_d1 (xenv reg) s) in let D2 := units (ir_d2 (xenv reg) s) in
  let Ue := units (ir_efficacy (xenv reg) s) in
  let cancels :=
    (same_delta U1 U2 /\ units_eqb (umul U2 Ue) u_CWm2 = true) \/
    (~ same_delta U1 U2 /\ ~ no_delta U2 /\ units_eqb (umul (umul U1 Ue) (udiv D2 D1)) u_CWm2 = true) in
  (cancels -> snd (ir_drive (xenv reg) e s) = Ok tt) /\
  (~ cancels -> snd (ir_drive (xenv reg) e s) = Err AssertionError).
Proof.
  intros reg parse s p e F HS Hn P1 P2 P3 P4 Pd P5 He (L1 & L2 & L3) U1 U2 D1 D2 Ue cancels.
  pose proof HS as (Hr & Hv & _).
  destruct (status_positive reg parse s p Hr Hv (conj P1 (conj P2 (conj P3 (conj P4 (conj Pd P5))))) He) as (r & Hi & HO & HE).
  pose proof (status_drive reg parse s p e F HS Hn) as HD.
  assert (Key : (cancels -> units_eqb (units (tlp_eta (xenv reg) r) ++ u_dC) u_Wm2 = true) /\
                (~ cancels -> units_eqb (units (tlp_eta (xenv reg) r) ++ u_dC) u_Wm2 = false)).
  2:{ destruct Key as (K1 & K2). split; intros K.
      - destruct (HO (K1 K)) as (hp & E). rewrite E in HD. exact HD.
      - rewrite (HE (K2 K)) in HD. exact HD. }
  clear HO HE HD HS.
  assert (Test : forall U, (forall x, (expo (units (tlp_eta (xenv reg) r)) x == - expo U x)%Q) ->
    units_eqb (units (tlp_eta (xenv reg) r) ++ u_dC) u_Wm2 = units_eqb U u_CWm2).
  { intros U HU. apply eq_iff_eq_true. rewrite <- (ueq_eqb U). apply eta_unit_test. intros x. rewrite (HU x). unfold uinv. rewrite expo_pow. ring. }
  assert (Plain : forall U, delta_free U -> units_eqb U u_CWm2 = false).
  { intros U HU. destruct (units_eqb U u_CWm2) eqn:E; [|reflexivity]. apply ueq_eqb in E. specialize (E sdC). specialize (HU sdC sdC_delta).
    rewrite CWm2_delta in E. Lqa.lra. }
  unfold cancels. clear cancels.
  destruct (same_delta_dec U1 U2) as [HA|HA].
  - rewrite (Test (umul U2 Ue)) by (intros x; rewrite expo_mul; apply (eta_unit_same (xenv reg) s r L1 L2 Hi HA)).
    split; intros K.
    + destruct K as [(_ & K)|(K & _)]; [exact K|contradiction].
    + destruct (units_eqb (umul U2 Ue) u_CWm2) eqn:E; [|reflexivity]. elim K. left. split; [exact HA|reflexivity].
  - assert (NS : ~ same_delta U1 U2).
    { intros K. assert (delta_free (udiv U1 U2)) by (intros x Hx; rewrite expo_div, (K x Hx); ring).
      apply delta_free_false in H. congruence. }
    assert (HA' : has_delta (udiv U2 U1) = true).
    { apply has_delta_spec in HA as (x & Hx & Hn'). apply has_delta_spec. exists x. split; [exact Hx|].
      rewrite expo_div in *. intros K. apply Hn'. Lqa.lra. }
    destruct (has_delta U2) eqn:E2.
    + assert (N2 : ~ no_delta U2) by (intros K; apply delta_free_false in K; congruence).
      rewrite (Test (umul (umul U1 Ue) (udiv D2 D1))).
      2:{ intros x. rewrite !expo_mul, expo_div. rewrite (eta_unit_right (xenv reg) s r L1 L2 Hi HA' (or_intror E2)). fold U1 D1 D2 Ue. ring. }
      split; intros K.
      * destruct K as [(K & _)|(_ & _ & K)]; [contradiction|exact K].
      * destruct (units_eqb (umul (umul U1 Ue) (udiv D2 D1)) u_CWm2) eqn:E; [|reflexivity]. elim K. right. auto.
    + assert (N2 : no_delta U2) by (apply delta_free_false; exact E2).
      assert (E1 : has_delta U1 = true).
      { rewrite <- HA. apply has_delta_ext. intros x Hx. rewrite expo_div, (N2 x Hx). ring. }
      rewrite (Test (umul (umul U2 Ue) (udiv D1 D2))).
      2:{ intros x. rewrite !expo_mul, expo_div. rewrite (eta_unit_left (xenv reg) s r L1 L2 Hi E1 N2). fold U2 D1 D2 Ue. ring. }
      rewrite (Plain (umul (umul U2 Ue) (udiv D1 D2))).
      2:{ intros x Hx. pose proof (N2 x Hx). pose proof (L1 x Hx). pose proof (L2 x Hx). pose proof (L3 x Hx).
          fold D1 in H0. fold D2 in H1. fold Ue in H2. rewrite !expo_mul, expo_div. Lqa.lra. }
      split; [|reflexivity]. intros [(K & _)|(_ & K & _)]; contradiction.
Qed.

(** q1 and q2 in the same unit [U], the efficacy a plain number: the run
    succeeds iff [U] is the product of symbols delta_degC/(W/m^2). *)
Theorem c30_same_unit : forall reg parse s p e F U,
  ir_setup reg parse s p e F -> (2 <= npoints e)%nat ->
  0 < p_q1 p -> 0 < p_q2 p -> 0 < p_d1 p -> 0 < p_d2 p -> p_d1 p <> p_d2 p -> 0 < p_ieps p -> p_ieps p <> 1 ->
  units (ir_q1 (xenv reg) s) = U -> units (ir_q2 (xenv reg) s) = U -> units (ir_efficacy (xenv reg) s) = u_none ->
  no_delta (units (ir_d1 (xenv reg) s)) -> no_delta (units (ir_d2 (xenv reg) s)) ->
  snd (ir_drive (xenv reg) e s) = if units_eqb U u_CWm2 then Ok tt else Err AssertionError.
Proof.
  intros reg parse s p e F U HS Hn P1 P2 P3 P4 Pd P5 He H1 H2 H3 L1 L2.
  assert (L3 : no_delta (units (ir_efficacy (xenv reg) s))) by (rewrite H3; intros x _; reflexivity).
  pose proof (c30_which_units_abort reg parse s p e F HS Hn P1 P2 P3 P4 Pd P5 He (conj L1 (conj L2 L3))) as K. cbn zeta in K.
  rewrite H1, H2, H3 in K. destruct K as (KO & KE).
  assert (Q : units_eqb (umul U u_none) u_CWm2 = units_eqb U u_CWm2).
  { apply eq_iff_eq_true. rewrite <- !ueq_eqb. split; intros Q x; specialize (Q x); revert Q; rewrite expo_mul; cbn [expo u_none]; Lqa.lra. }
  destruct (units_eqb U u_CWm2) eqn:E.
  - apply KO. left. split; [intros x _; reflexivity|exact Q].
  - apply KE. intros [(_ & K)|(K & _)]; [congruence|]. apply K. intros x _. reflexivity.
Qed.

Lemma kelvin_dim reg : same_dim (xenv reg) u_KWm2 u_CWm2.
Proof.
  intros k Hk. unfold u_KWm2, u_CWm2. cbn [dimx]. rewrite (rg_kelvin_dim reg k Hk). reflexivity.
Qed.

(** q1 and q2 per kelvin or per delta_degC: the run aborts unless both are per
    delta_degC.  (The constructor and the setters accept all four.) *)
Theorem c30_kelvin_aborts : forall reg parse s p e F,
  ir_setup reg parse s p e F -> (2 <= npoints e)%nat ->
  0 < p_q1 p -> 0 < p_q2 p -> 0 < p_d1 p -> 0 < p_d2 p -> p_d1 p <> p_d2 p -> 0 < p_ieps p -> p_ieps p <> 1 ->
  units (ir_q1 (xenv reg) s) = u_KWm2 \/ units (ir_q1 (xenv reg) s) = u_CWm2 ->
  units (ir_q2 (xenv reg) s) = u_KWm2 \/ units (ir_q2 (xenv reg) s) = u_CWm2 ->
  units (ir_efficacy (xenv reg) s) = u_none -> units (ir_d1 (xenv reg) s) = u_yr -> units (ir_d2 (xenv reg) s) = u_yr ->
  snd (ir_drive (xenv reg) e s) =
    (if units_eqb (units (ir_q1 (xenv reg) s)) u_CWm2 && units_eqb (units (ir_q2 (xenv reg) s)) u_CWm2
     then Ok tt else Err AssertionError).
Proof.
  intros reg parse s p e F HS Hn P1 P2 P3 P4 Pd P5 He H1 H2 H3 H4 H5.
  assert (L : no_delta u_yr) by (intros x Hx; cbn [u_yr expo]; destruct (String.eqb_spec syr x) as [<-|]; [discriminate Hx|reflexivity]).
  assert (L3 : no_delta u_none) by (intros x _; reflexivity).
  assert (LP : plain_timescales s) by (unfold plain_timescales; rewrite H3, H4, H5; auto).
  destruct H1 as [H1|H1], H2 as [H2|H2].
  - rewrite (c30_same_unit reg parse s p e F u_KWm2) by (first [assumption|congruence|rewrite H4; exact L|rewrite H5; exact L]). rewrite H1, H2. reflexivity.
  - pose proof (c30_which_units_abort reg parse s p e F HS Hn P1 P2 P3 P4 Pd P5 He LP) as K. cbn zeta in K.
    rewrite H1, H2, H3, H4, H5 in K. rewrite H1, H2. apply K. intros [(K' & _)|(_ & _ & K')]; [|discriminate K'].
    specialize (K' sdC sdC_delta). discriminate K'.
  - pose proof (c30_which_units_abort reg parse s p e F HS Hn P1 P2 P3 P4 Pd P5 He LP) as K. cbn zeta in K.
    rewrite H1, H2, H3, H4, H5 in K. rewrite H1, H2. apply K. intros [(K' & _)|(_ & K' & _)].
    + specialize (K' sdC sdC_delta). discriminate K'.
    + apply K'. intros x Hx. unfold u_KWm2. rewrite !expo_cons. unfold ind.
      destruct (String.eqb_spec sK x) as [<-|]; [discriminate Hx|]. destruct (String.eqb_spec sW x) as [<-|]; [discriminate Hx|].
      destruct (String.eqb_spec sm x) as [<-|]; [discriminate Hx|]. reflexivity.
  - rewrite (c30_same_unit reg parse s p e F u_CWm2) by (first [assumption|congruence|rewrite H4; exact L|rewrite H5; exact L]). rewrite H1, H2. reflexivity.
Qed.

(** Models given per kelvin pass the constructor; with efficacy 1 they run. *)
Example c30_case : forall reg parse p F n, convertible_ir p -> exists s e,
  ir_new (xenv reg) (mkIRArgs (xenv reg) (PQ (mkQ (env := xenv reg) (Fin (p_q1 p)) u_KWm2)) (PQ (mkQ (env := xenv reg) (Fin (p_q2 p)) u_KWm2))
    (PQ (mkQ (env := xenv reg) (Fin (p_d1 p)) u_yr)) (PQ (mkQ (env := xenv reg) (Fin (p_d2 p)) u_yr))
    (PQ (mkQ (env := xenv reg) (Fin (p_ieps p)) u_none)) (PQ (mkQ (env := xenv reg) (Fin (p_idt p)) u_yr))) = Ok s /\
  ir_setup reg parse s p e F /\ npoints e = n /\
  units (ir_q1 (xenv reg) s) = u_KWm2 /\ units (ir_q2 (xenv reg) s) = u_KWm2 /\ plain_timescales s /\
  (p_ieps p = 1 -> exists T1 T2 T N, ir_reports reg s e T1 T2 T N) /\
  (p_ieps p <> 1 -> (2 <= n)%nat -> snd (ir_drive (xenv reg) e s) = Err AssertionError).
Proof.
  intros reg parse p F n (P1 & P2 & P3 & P4 & P5). assert (P4' : 0 < p_d2 p) by lra.
  assert (Hk : forall x, is_qty reg (mkQ (env := xenv reg) (Fin x) u_KWm2) x u_CWm2).
  { intros x. split; [apply kelvin_dim|]. exists x. split; [reflexivity|]. cbn [units]. unfold u_KWm2, u_CWm2. cbn [usize].
    rewrite (rg_kelvin reg). reflexivity. }
  destruct (ir_make reg parse _ _ _ _ _ _ p (Hk _) (Hk _) (is_qty_self reg _ _) (is_qty_self reg _ _)
    (is_qty_self reg _ _) (is_qty_self reg _ _) P4) as (s & Hs & Hr & Hv & U1 & U2 & U3 & U4 & U5 & U6).
  destruct (a_series reg F n) as (e & Hn & HF).
  assert (HS : ir_setup reg parse s p e F) by (split; auto).
  assert (L : no_delta u_yr) by (intros x Hx; cbn [u_yr expo]; destruct (String.eqb_spec syr x) as [<-|]; [discriminate Hx|reflexivity]).
  exists s, e. split; [exact Hs|]. split; [exact HS|]. split; [exact Hn|]. unfold plain_timescales. rewrite U1, U2, U3, U4, U5. cbn [units].
  split; [reflexivity|]. split; [reflexivity|]. split; [split; [exact L|split; [exact L|intros x _; reflexivity]]|].
  split.
  - intros He. destruct (lam_mag_exists reg s p Hv) as (x & Hx); try lra.
    { pose proof (pos_mul _ _ P1 P4'). pose proof (pos_mul _ _ P2 P3). lra. }
    do 4 eexists. apply (ir_reports_of reg parse s p e F x 0 0 HS). intros _. apply (heat_const_1 reg parse s p); auto; try lra.
    pose proof (pos_mul _ _ P1 P4'). pose proof (pos_mul _ _ P2 P3). lra.
  - intros He Hn2. rewrite (c30_same_unit reg parse s p e F u_KWm2); try assumption; try lra; try (rewrite ?Hn; lia);
      rewrite ?U1, ?U2, ?U3, ?U4, ?U5; try reflexivity; exact L.
Qed.

(** ** C31 *)
(** Whether the constructor accepts the timescales [d1], [d2], in whatever
    units they are given. *)
Theorem c31_constructor : forall reg q1 q2 d1 d2 eps dt p,
  is_qty reg q1 (p_q1 p) u_CWm2 -> is_qty reg q2 (p_q2 p) u_CWm2 -> is_qty reg d1 (p_d1 p) u_yr ->
  is_qty reg d2 (p_d2 p) u_yr -> is_qty reg eps (p_ieps p) u_none -> is_qty reg dt (p_idt p) u_yr ->
  (p_d2 p <= p_d1 p -> ir_new (xenv reg) (mkIRArgs (xenv reg) (PQ q1) (PQ q2) (PQ d1) (PQ d2) (PQ eps) (PQ dt)) = Err ValueError) /\
  (p_d1 p < p_d2 p -> exists s, ir_new (xenv reg) (mkIRArgs (xenv reg) (PQ q1) (PQ q2) (PQ d1) (PQ d2) (PQ eps) (PQ dt)) = Ok s).
Proof.
  intros reg q1 q2 d1 d2 eps dt p H1 H2 H3 H4 H5 H6. split.
  - intros Hle. pose proof (qge_ok reg _ _ _ _ _ H3 H4) as Hq. destruct (Rle_dec (p_d2 p) (p_d1 p)); [|lra].
    destruct (proj2 (to_mag_ok_iff (xenv reg) _ _) (proj1 H1)) as (m1 & E1). destruct (proj2 (to_mag_ok_iff (xenv reg) _ _) (proj1 H2)) as (m2 & E2).
    destruct (proj2 (to_mag_ok_iff (xenv reg) _ _) (proj1 H3)) as (m3 & E3). destruct (proj2 (to_mag_ok_iff (xenv reg) _ _) (proj1 H4)) as (m4 & E4).
    destruct (proj2 (to_mag_ok_iff (xenv reg) _ _) (proj1 H5)) as (m5 & E5). destruct (proj2 (to_mag_ok_iff (xenv reg) _ _) (proj1 H6)) as (m6 & E6).
    rewrite (ir_init_explicit (xenv reg) _ _ _ _ _ _ _ _ _ _ _ _ E1 E2 E3 E4 E5 E6), Hq. reflexivity.
  - intros Hlt. destruct (ir_make reg (fun _ => None) q1 q2 d1 d2 eps dt p H1 H2 H3 H4 H5 H6 Hlt) as (s & Hs & _). eauto.
Qed.

(** The setters accept any timescales. *)
Theorem c31_setters_do_not_check : forall reg parse s p q x,
  ir_reachable (xenv reg) parse s -> ir_values reg s p -> is_qty reg q x u_yr ->
  (exists s', ir_set_d1 (xenv reg) (PQ q) s = (s', Ok tt) /\ ir_reachable (xenv reg) parse s' /\
     ir_values reg s' (with_timescales x (p_d2 p) p)) /\
  (exists s', ir_set_d2 (xenv reg) (PQ q) s = (s', Ok tt) /\ ir_reachable (xenv reg) parse s' /\
     ir_values reg s' (with_timescales (p_d1 p) x p)).
Proof.
  intros reg parse s p q x Hr (V1 & V2 & V3 & V4 & V5 & V6) Hq. split.
  - destruct (c06_impulse_response_setters (xenv reg) s Pd1 (PQ q)) as (_ & K). destruct (K (proj1 Hq)) as (s' & E & Hg & Ho & _).
    exists s'. split; [exact E|]. split.
    + pose proof (ir_reach_call reg parse (ISetD1 _ (PQ q)) s Hr) as R. cbn [ir_call] in R. cbn [ir_param_set] in E. rewrite E in R. exact R.
    + pose proof (Ho Pq1 ltac:(discriminate)) as A1. pose proof (Ho Pq2 ltac:(discriminate)) as A2. pose proof (Ho Pd2 ltac:(discriminate)) as A3.
      pose proof (Ho Peff ltac:(discriminate)) as A4. pose proof (Ho Pdt ltac:(discriminate)) as A5. cbn [ir_param_get] in *.
      unfold ir_values. rewrite A1, A2, A3, A4, A5, Hg. cbn [with_timescales p_q1 p_q2 p_d1 p_d2 p_ieps p_idt]. auto 10.
  - destruct (c06_impulse_response_setters (xenv reg) s Pd2 (PQ q)) as (_ & K). destruct (K (proj1 Hq)) as (s' & E & Hg & Ho & _).
    exists s'. split; [exact E|]. split.
    + pose proof (ir_reach_call reg parse (ISetD2 _ (PQ q)) s Hr) as R. cbn [ir_call] in R. cbn [ir_param_set] in E. rewrite E in R. exact R.
    + pose proof (Ho Pq1 ltac:(discriminate)) as A1. pose proof (Ho Pq2 ltac:(discriminate)) as A2. pose proof (Ho Pd1 ltac:(discriminate)) as A3.
      pose proof (Ho Peff ltac:(discriminate)) as A4. pose proof (Ho Pdt ltac:(discriminate)) as A5. cbn [ir_param_get] in *.
      unfold ir_values. rewrite A1, A2, A3, A4, A5, Hg. cbn [with_timescales p_q1 p_q2 p_d1 p_d2 p_ieps p_idt]. auto 10.
Qed.

Lemma swap_lam q1 q2 : hlam q2 q1 = hlam q1 q2. Proof. unfold hlam. f_equal. ring. Qed.
Lemma swap_C q1 q2 d1 d2 : hC q2 q1 d2 d1 = hC q1 q2 d1 d2. Proof. unfold hC. f_equal; ring. Qed.
Lemma swap_CD q1 q2 d1 d2 eps : hCD q2 q1 d2 d1 eps = hCD q1 q2 d1 d2 eps.
Proof. unfold hCD, ha1, ha2. rewrite (swap_lam q1 q2), (swap_C q1 q2 d1 d2). f_equal. ring. Qed.
Lemma swap_eta q1 q2 d1 d2 eps : heta q2 q1 d2 d1 eps = heta q1 q2 d1 d2 eps.
Proof. unfold heta, ha1, ha2. rewrite (swap_lam q1 q2), (swap_CD q1 q2 d1 d2). f_equal. ring. Qed.

(** Numbering the boxes the other way round describes the same two-layer system. *)
Theorem c31_same_two_layer_system : forall reg s s' p,
  ir_values reg s p -> ir_values reg s' (swap_boxes p) -> convertible_ir (swap_boxes p) ->
  exists r r' lambda0 du dl eta,
    ir_get_two_layer_parameters (xenv reg) s = Ok r /\ ir_get_two_layer_parameters (xenv reg) s' = Ok r' /\
    is_qty reg (tlp_lambda0 _ r) lambda0 u_Wm2C /\ is_qty reg (tlp_lambda0 _ r') lambda0 u_Wm2C /\
    is_qty reg (tlp_du _ r) du u_m /\ is_qty reg (tlp_du _ r') du u_m /\
    is_qty reg (tlp_dl _ r) dl u_m /\ is_qty reg (tlp_dl _ r') dl u_m /\
    is_qty reg (tlp_eta _ r) eta u_Wm2C /\ is_qty reg (tlp_eta _ r') eta u_Wm2C /\
    is_qty reg (tlp_efficacy _ r) (p_ieps p) u_none /\ is_qty reg (tlp_efficacy _ r') (p_ieps p) u_none.
Proof.
  intros reg s s' p Hv Hv' HP. pose proof (i2t_values reg s' _ Hv' HP) as K. cbn zeta in K.
  destruct K as (r' & H' & A1 & A2 & A3 & A4 & A5). destruct HP as (P2 & P1 & P4 & P3 & P5). cbn in P1, P2, P3, P4, P5.
  assert (P3' : 0 < p_d1 p) by lra.
  destruct (two_layer_values reg s p Hv) as (r & H & B1 & B2 & B3 & B4 & B5 & _); try lra.
  { pose proof (pos_mul _ _ P1 P4). pose proof (pos_mul _ _ P2 P3'). lra. }
  cbn in A1, A2, A3, A4. rewrite swap_lam in A1. rewrite swap_C in A2. rewrite swap_CD in A3. rewrite swap_eta in A4.
  exists r, r'. do 4 eexists. do 10 (split; [eassumption|]). split; [exact B5|]. rewrite A5. apply Hv'.
Qed.

(** What a model with the order reversed reports: the temperatures are those of
    the properly ordered model, the heat uptake is not. *)
Theorem c31_reversed_heat_uptake : forall reg p, convertible_ir (swap_boxes p) ->
  exists k, 0 < k /\ forall parse s s' e e' F T1 T2 T N T1' T2' T' N',
  ir_setup reg parse s p e F -> ir_setup reg parse s' (swap_boxes p) e' F -> npoints e = npoints e' ->
  (forall t, t = s \/ t = s' ->
     usize reg (units (ir_q1 (xenv reg) t)) = usize reg u_CWm2 /\ usize reg (units (ir_q2 (xenv reg) t)) = usize reg u_CWm2) ->
  ir_reports reg s e T1 T2 T N -> ir_reports reg s' e' T1' T2' T' N' ->
  forall i, (i < npoints e)%nat ->
    T1 i = T2' i /\ T2 i = T1' i /\ T i = T' i /\
    ((S i < npoints e)%nat -> N (S i) = N' (S i) - (p_ieps p - 1) * k * (T1 i - T2 i)).
Proof.
  intros reg p HP. pose proof HP as (P2 & P1 & P4 & P3 & P5). cbn in P1, P2, P3, P4, P5.
  assert (P3' : 0 < p_d1 p) by lra. assert (Pd : p_d1 p <> p_d2 p) by lra. pose proof (year_s_pos reg) as PY.
  set (Y := year_s reg) in *. assert (D1 : 0 < Y * p_d1 p) by (apply pos_mul; lra). assert (D2 : 0 < Y * p_d2 p) by (apply pos_mul; lra).
  assert (D12 : Y * p_d2 p < Y * p_d1 p) by (apply Rmult_lt_compat_l; lra).
  assert (Dn : Y * p_d1 p <> Y * p_d2 p) by lra.
  set (l := hlam (p_q1 p) (p_q2 p)). set (C := hC (p_q1 p) (p_q2 p) (Y * p_d1 p) (Y * p_d2 p)).
  set (CD := hCD (p_q1 p) (p_q2 p) (Y * p_d1 p) (Y * p_d2 p) (p_ieps p)).
  set (h := heta (p_q1 p) (p_q2 p) (Y * p_d1 p) (Y * p_d2 p) (p_ieps p)).
  assert (Ql : 0 < l) by (apply (hlam_pos _ _ _ _ _ P1 P2 D1 D2 Dn P5)). assert (QC : 0 < C) by (apply (hC_pos _ _ _ _ _ P1 P2 D1 D2 Dn P5)).
  assert (QCD : 0 < CD) by (apply (hCD_pos _ _ _ _ _ P1 P2 D1 D2 Dn P5)). assert (Qh : 0 < h) by (apply (heta_pos _ _ _ _ _ P1 P2 D1 D2 Dn P5)).
  exists (h * (gphi2 C CD l (p_ieps p) h - gphi1 C CD l (p_ieps p) h)).
  split; [apply pos_mul; [exact Qh|]; apply (gphi_diff_pos _ _ _ _ _ QC QCD Ql P5 Qh)|].
  intros parse s s' e e' F T1 T2 T N T1' T2' T' N' HS HS' Hn HU HR HR' i Hi.
  destruct (ir_setup_inv _ _ _ _ _ _ _ _ _ _ HS HR) as (HI & k & m1 & m2 & HC & HN).
  destruct (ir_setup_inv _ _ _ _ _ _ _ _ _ _ HS' HR') as (HI' & k' & m1' & m2' & HC' & HN').
  destruct (HI i Hi) as (-> & -> & ->). destruct (HI' i ltac:(lia)) as (-> & -> & ->).
  assert (S1 : bt1 (swap_boxes p) F i = bt2 p F i) by reflexivity. assert (S2 : bt2 (swap_boxes p) F i = bt1 p F i) by reflexivity.
  split; [exact (eq_sym S2)|]. split; [exact (eq_sym S1)|]. split; [rewrite S1, S2; ring|]. intros Hi2.
  rewrite (HN (S i) Hi2), (HN' (S i)) by lia. cbn [hn]. rewrite S1, S2.
  destruct (HC ltac:(lia)) as (HC0 & _). destruct (HC' ltac:(lia)) as (HC0' & _).
  assert (St : forall t k m1 m2, heat_const reg t k m1 m2 -> exists hp, step_status (xenv reg) t = Ok hp).
  { intros t k0 n1 n2 H. unfold heat_const in H. destruct (step_status (xenv reg) t); [eauto|contradiction]. }
  destruct HS as (Hr & Hv & _). destruct HS' as (Hr' & Hv' & _).
  assert (Z1 : p_q1 p + p_q2 p <> 0) by lra. assert (Z1' : p_q2 p + p_q1 p <> 0) by lra. assert (Z : p_ieps p <> 0) by lra.
  assert (Z2 : p_q1 p * p_d2 p + p_q2 p * p_d1 p <> 0).
  { pose proof (pos_mul _ _ P1 P4). pose proof (pos_mul _ _ P2 P3'). lra. }
  assert (Z2' : p_q2 p * p_d1 p + p_q1 p * p_d2 p <> 0) by lra.
  destruct (HU s (or_introl eq_refl)) as (U1 & U2). destruct (HU s' (or_intror eq_refl)) as (U1' & U2').
  destruct (lam_mag_exists reg s p Hv Z1 Z2 Z) as (x & Hx). pose proof (lam_mag_std reg s p Hv Z1 Z2 Z x U1 U2 Hx) as Ex.
  destruct (lam_mag_exists reg s' (swap_boxes p) Hv' Z1' Z2' Z) as (x' & Hx'). pose proof (lam_mag_std reg s' (swap_boxes p) Hv' Z1' Z2' Z x' U1' U2' Hx') as Ex'.
  pose proof (heat_gen reg parse s p x Hr Hv P1 P2 P3' P4 Pd P5 (fun _ => St _ _ _ _ HC0) Hx) as K.
  pose proof (heat_gen reg parse s' (swap_boxes p) x' Hr' Hv' P2 P1 P4 P3' (not_eq_sym Pd) P5 (fun _ => St _ _ _ _ HC0') Hx') as K'.
  cbn zeta in K, K'. cbn [swap_boxes p_q1 p_q2 p_d1 p_d2 p_ieps p_idt] in K', Ex'. rewrite (swap_lam (p_q1 p) (p_q2 p)), (swap_C (p_q1 p) (p_q2 p)),
    (swap_CD (p_q1 p) (p_q2 p)), (swap_eta (p_q1 p) (p_q2 p)) in K'. rewrite (swap_lam (p_q1 p) (p_q2 p)) in Ex'. fold Y in K, K'. fold l C CD h in K, K'.
  destruct (heat_const_unique _ _ _ _ _ _ _ _ HC0 K) as (-> & -> & ->).
  destruct (heat_const_unique _ _ _ _ _ _ _ _ HC0' K') as (-> & -> & ->). rewrite Ex, Ex'. ring.
Qed.

(** Such models exist and run: the order reversed by assigning to d1 after
    construction, with any efficacy other than 1 and q1 <= q2; the reported heat
    uptake differs from that of the properly ordered model. *)
Theorem c31_reversed_order_is_wrong : forall reg parse p,
  convertible_ir (swap_boxes p) -> p_q1 p <= p_q2 p -> 0 < p_idt p -> p_ieps p <> 1 ->
  exists s0 s s' e T1 T2 T N N', 
    ir_new (xenv reg) (mkIRArgs (xenv reg) (PQ (mkQ (env := xenv reg) (Fin (p_q1 p)) u_CWm2)) (PQ (mkQ (env := xenv reg) (Fin (p_q2 p)) u_CWm2))
      (PQ (mkQ (env := xenv reg) (Fin (p_d2 p / 2)) u_yr)) (PQ (mkQ (env := xenv reg) (Fin (p_d2 p)) u_yr))
      (PQ (mkQ (env := xenv reg) (Fin (p_ieps p)) u_none)) (PQ (mkQ (env := xenv reg) (Fin (p_idt p)) u_yr))) = Ok s0 /\
    ir_set_d1 (xenv reg) (PQ (mkQ (env := xenv reg) (Fin (p_d1 p)) u_yr)) s0 = (s, Ok tt) /\
    ir_setup reg parse s p e (fun _ => 1) /\ ir_setup reg parse s' (swap_boxes p) e (fun _ => 1) /\ npoints e = 3%nat /\
    ir_reports reg s e T1 T2 T N /\ ir_reports reg s' e T2 T1 T N' /\ N 2%nat <> N' 2%nat.
Proof.
  intros reg parse p HP Hq Hdt He. pose proof HP as (P2 & P1 & P4 & P3 & P5). cbn in P1, P2, P3, P4, P5.
  assert (P3' : 0 < p_d1 p) by lra. assert (Pd : p_d1 p <> p_d2 p) by lra.
  set (p0 := with_timescales (p_d2 p / 2) (p_d2 p) p).
  destruct (ir_make reg parse _ _ _ _ _ _ p0 (is_qty_self reg _ _) (is_qty_self reg _ _) (is_qty_self reg _ _) (is_qty_self reg _ _)
    (is_qty_self reg _ _) (is_qty_self reg _ _)) as (s0 & Hs0 & Hr0 & Hv0 & E1 & E2 & E3 & E4 & E5 & _); [cbn; lra|].
  destruct (ir_make reg parse _ _ _ _ _ _ (swap_boxes p) (is_qty_self reg _ _) (is_qty_self reg _ _) (is_qty_self reg _ _) (is_qty_self reg _ _)
    (is_qty_self reg _ _) (is_qty_self reg _ _)) as (s' & _ & Hr' & Hv' & E1' & E2' & E3' & E4' & E5' & _); [cbn; lra|].
  destruct (c06_impulse_response_setters (xenv reg) s0 Pd1 (PQ (mkQ (env := xenv reg) (Fin (p_d1 p)) u_yr))) as (_ & K).
  destruct (K (same_dim_refl reg _)) as (s & Hs & Hg & Ho & _). cbn [ir_param_set] in Hs.
  destruct (proj1 (c31_setters_do_not_check reg parse s0 p0 _ _ Hr0 Hv0 (is_qty_self reg (p_d1 p) u_yr))) as (s1 & Hs1 & Hr & Hv).
  rewrite Hs in Hs1. injection Hs1 as <-.
  assert (Hv2 : ir_values reg s p) by (destruct p; exact Hv). clear Hv.
  destruct (a_series reg (fun _ => 1) 3) as (e & Hn & HF).
  assert (HS : ir_setup reg parse s p e (fun _ => 1)) by (split; auto).
  assert (HS' : ir_setup reg parse s' (swap_boxes p) e (fun _ => 1)) by (split; auto).
  pose proof (Ho Pq1 ltac:(discriminate)) as A1. pose proof (Ho Pq2 ltac:(discriminate)) as A2. pose proof (Ho Pd2 ltac:(discriminate)) as A3.
  pose proof (Ho Peff ltac:(discriminate)) as A4. cbn [ir_param_get] in A1, A2, A3, A4, Hg.
  rewrite E1 in A1. rewrite E2 in A2. rewrite E4 in A3. rewrite E5 in A4.
  assert (L : delta_free u_yr) by (intros x Hx; cbn [u_yr expo]; destruct (String.eqb_spec syr x) as [<-|]; [discriminate Hx|reflexivity]).
  assert (St : exists hp, step_status (xenv reg) s = Ok hp).
  { destruct (status_positive reg parse s p Hr Hv2 (conj P1 (conj P2 (conj P3' (conj P4 (conj Pd P5))))) He) as (r & Hi & HO & _).
    apply HO. destruct (i2t_units (xenv reg) s r u_CWm2) as (_ & U); rewrite ?A1, ?A2, ?A3, ?A4, ?Hg; try apply ueq_refl; try exact L; try exact Hi.
    apply (eta_unit_test _ _ U), ueq_refl. }
  assert (St' : exists hp, step_status (xenv reg) s' = Ok hp).
  { apply (status_documented reg parse s' _ Hr' Hv' HP He); rewrite ?E1', ?E2', ?E3', ?E4', ?E5'; try apply ueq_refl; exact L. }
  assert (Z1 : p_q1 p + p_q2 p <> 0) by lra. assert (Z1' : p_q2 p + p_q1 p <> 0) by lra. assert (Z : p_ieps p <> 0) by lra.
  assert (Z2 : p_q1 p * p_d2 p + p_q2 p * p_d1 p <> 0).
  { pose proof (pos_mul _ _ P1 P4). pose proof (pos_mul _ _ P2 P3'). lra. }
  assert (Z2' : p_q2 p * p_d1 p + p_q1 p * p_d2 p <> 0) by lra.
  destruct (lam_mag_exists reg s p Hv2 Z1 Z2 Z) as (x & Hx). destruct (lam_mag_exists reg s' (swap_boxes p) Hv' Z1' Z2' Z) as (x' & Hx').
  pose proof (heat_gen reg parse s p x Hr Hv2 P1 P2 P3' P4 Pd P5 (fun _ => St) Hx) as C1.
  pose proof (heat_gen reg parse s' (swap_boxes p) x' Hr' Hv' P2 P1 P4 P3' (not_eq_sym Pd) P5 (fun _ => St') Hx') as C1'.
  cbn zeta in C1, C1'.
  pose proof (ir_reports_of reg parse s p e _ _ _ _ HS (fun _ => C1)) as R.
  pose proof (ir_reports_of reg parse s' (swap_boxes p) e _ _ _ _ HS' (fun _ => C1')) as R'.
  destruct (c31_reversed_heat_uptake reg p HP) as (k & Hk & HW).
  assert (HU : forall t, t = s \/ t = s' ->
     usize reg (units (ir_q1 (xenv reg) t)) = usize reg u_CWm2 /\ usize reg (units (ir_q2 (xenv reg) t)) = usize reg u_CWm2).
  { intros t [-> | ->]; [rewrite A1, A2|rewrite E1', E2']; auto. }
  destruct (HW parse s s' e e _ _ _ _ _ _ _ _ _ HS HS' eq_refl HU R R' 1%nat ltac:(lia)) as (_ & _ & _ & HN).
  specialize (HN ltac:(lia)).
  exists s0, s, s', e, (bt1 p (fun _ => 1)), (bt2 p (fun _ => 1)), (fun i => bt1 p (fun _ => 1) i + bt2 p (fun _ => 1) i). do 2 eexists.
  split; [exact Hs0|]. split; [exact Hs|]. split; [exact HS|]. split; [exact HS'|]. split; [exact Hn|]. split; [exact R|].
  split; [eapply ir_reports_as; [|exact R']; intros i Hi; cbn beta; repeat split; change (bt1 (swap_boxes p)) with (bt2 p); change (bt2 (swap_boxes p)) with (bt1 p); ring|].
  rewrite HN.
  assert (HT : bt1 p (fun _ => 1) 1 < bt2 p (fun _ => 1) 1).
  { unfold bt1, bt2. cbn [box_run]. unfold box_solution.
    assert (X : exp (- p_idt p / p_d2 p) < exp (- p_idt p / p_d1 p)).
    { apply exp_increasing. unfold Rdiv. rewrite <- !Ropp_mult_distr_l. apply Ropp_lt_contravar, Rmult_lt_compat_l; [exact Hdt|].
      apply Rinv_lt_contravar; [apply pos_mul; assumption|exact P3]. }
    assert (X1 : exp (- p_idt p / p_d1 p) < 1).
    { rewrite <- exp_0. apply exp_increasing. unfold Rdiv. rewrite <- Ropp_mult_distr_l. pose proof (pos_div _ _ Hdt P3'). unfold Rdiv in *. lra. }
    set (a := exp (- p_idt p / p_d1 p)) in *. set (b := exp (- p_idt p / p_d2 p)) in *.
    assert (p_q1 p * (1 - a) <= p_q2 p * (1 - a)) by (apply Rmult_le_compat_r; lra).
    assert (p_q2 p * (1 - a) < p_q2 p * (1 - b)) by (apply Rmult_lt_compat_l; lra). lra. }
  intros Q. assert (Q' : (p_ieps p - 1) * (k * (bt2 p (fun _ => 1) 1 - bt1 p (fun _ => 1) 1)) = 0) by lra.
  apply Rmult_integral in Q' as [Q'|Q']; [lra|]. pose proof (pos_mul _ (bt2 p (fun _ => 1) 1 - bt1 p (fun _ => 1) 1) Hk ltac:(lra)). lra.
Qed.

Example c31_case : forall reg,
  let p := mkIRPhys (3/10) (4/10) 400 9 (6/5) 1 in
  convertible_ir (swap_boxes p) /\ p_q1 p <= p_q2 p /\ 0 < p_idt p /\ p_ieps p <> 1 /\
  is_qty reg (mkQ (env := xenv reg) (Fin (p_d1 p)) u_yr) (p_d1 p) u_yr.
Proof.
  intros reg p. split; [unfold convertible_ir, p; cbn; lra|]. split; [cbn; lra|]. split; [cbn; lra|]. split; [cbn; lra|]. apply is_qty_self.
Qed.

(** ValueError is raised for nothing else: every argument is a quantity with the
    right dimensions and the comparison d1 >= d2 holds (any number system). *)
Theorem c31_value_error_means_order : forall (env : Env) (g : IRArgs env),
  ir_new env g = Err ValueError <->
  (forall p, good_arg env (ir_arg env g p) (ir_param_unit p)) /\
  exists d1 d2, ia_d1 env g = PQ d1 /\ ia_d2 env g = PQ d2 /\ qge env d1 d2 = Ok true.
Proof.
  intros env g. split.
  - intros H0.
    assert (G : forall p, good_arg env (ir_arg env g p) (ir_param_unit p)).
    { revert H0. unfold ir_new, ir_init_body. intros H p. revert H. cbv [mbind mread mmod mret mraise]. cbn [bind].
      assert (K : forall p v t (k : IR env -> IR env * Res unit),
        match (match ir_param_set env p v t with (s', Ok a) => k s' | (s', Err e) => (s', Err e) end) with
        | (s', Ok _) => Ok s' | (_, Err e) => Err e end = Err ValueError ->
        good_arg env v (ir_param_unit p) /\
        exists t', match k t' with (s', Ok _) => Ok s' | (_, Err e) => Err e end = Err ValueError).
      { intros p0 v t k. destruct (iset_cases env p0 v t) as [(q & t' & -> & Hd & E)|[_ E]]; rewrite E.
        - intros Hk. split; [exists q; auto|eauto].
        - intros Q. exfalso. destruct v; congruence. }
      intros H.
      apply (K Pq1) in H as [G1 [t1 H]]. apply (K Pq2) in H as [G2 [t2 H]].
      apply (K Pd1) in H as [G3 [t3 H]]. apply (K Pd2) in H as [G4 [t4 H]].
      apply (K Peff) in H as [G5 [t5 H]]. apply (K Pdt) in H as [G6 [t6 H]].
      destruct p; assumption. }
    split; [exact G|].
    destruct g as [v1 v2 v3 v4 v5 v6].
    destruct (G Pq1) as (q1 & A1 & D1), (G Pq2) as (q2 & A2 & D2), (G Pd1) as (q3 & A3 & D3),
      (G Pd2) as (q4 & A4 & D4), (G Peff) as (q5 & A5 & D5), (G Pdt) as (q6 & A6 & D6).
    cbn in *. subst v1 v2 v3 v4 v5 v6. exists q3, q4. split; [reflexivity|]. split; [reflexivity|].
    apply to_mag_ok_iff in D1, D2, D3, D4, D5, D6.
    destruct D1 as [m1 D1], D2 as [m2 D2], D3 as [m3 D3], D4 as [m4 D4], D5 as [m5 D5], D6 as [m6 D6].
    erewrite ir_init_explicit in H0 by eassumption.
    unfold qge in *. destruct (units_eqb _ _); [|destruct (dim_eqb _ _ _)];
      repeat match goal with H : context [nleb ?a ?b ?c] |- _ => destruct (nleb a b c) end; congruence || reflexivity.
  - intros (G & d1 & d2 & E1 & E2 & Hge). destruct g as [v1 v2 v3 v4 v5 v6].
    destruct (G Pq1) as (q1 & A1 & D1), (G Pq2) as (q2 & A2 & D2), (G Pd1) as (q3 & A3 & D3),
      (G Pd2) as (q4 & A4 & D4), (G Peff) as (q5 & A5 & D5), (G Pdt) as (q6 & A6 & D6).
    cbn in *. rewrite A3 in E1. rewrite A4 in E2. injection E1 as <-. injection E2 as <-. subst v1 v2 v3 v4 v5 v6.
    apply to_mag_ok_iff in D1, D2, D3, D4, D5, D6.
    destruct D1 as [m1 D1], D2 as [m2 D2], D3 as [m3 D3], D4 as [m4 D4], D5 as [m5 D5], D6 as [m6 D6].
    erewrite ir_init_explicit by eassumption. rewrite Hge. reflexivity.
Qed.
