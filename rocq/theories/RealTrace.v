(** Which unit the code's results carry (for every number system): the unit of
    a result is determined by the units of the inputs alone. *)
From Coq Require Import List String QArith Bool Arith Lqa Lia.
From Verif Require Import Arith Pint Base TwoLayer Impulse GenMeta.
Import ListNotations.
Local Open Scope Q_scope.

(** Equal as products of powers of symbols. *)
Definition ueq (u v : Units) : Prop := forall s, expo u s == expo v s.
Lemma ueq_eqb u v : ueq u v <-> units_eqb u v = true.
Proof. symmetry. apply units_eqb_spec. Qed.
Lemma ueq_refl u : ueq u u. Proof. intros s. reflexivity. Qed.
Lemma ueq_sym u v : ueq u v -> ueq v u. Proof. intros H s. symmetry. apply H. Qed.
Lemma ueq_trans u v w : ueq u v -> ueq v w -> ueq u w. Proof. intros H G s. rewrite (H s). apply G. Qed.

Definition ind (t s : string) : Q := if String.eqb t s then 1 else 0.
Lemma expo_cons t e u s : expo ((t, e) :: u) s == e * ind t s + expo u s.
Proof. cbn [expo]. unfold ind. destruct (String.eqb t s); ring. Qed.
Lemma expo_app u v s : expo (u ++ v) s == expo u s + expo v s.
Proof. induction u as [|[t e] u IH]; [cbn; ring|]. cbn [app]. rewrite !expo_cons, IH. ring. Qed.
Lemma expo_mul u v s : expo (umul u v) s == expo u s + expo v s.
Proof. apply expo_app. Qed.
Lemma expo_pow u p s : expo (upow u p) s == p * expo u s.
Proof. induction u as [|[t e] u IH]; cbn [upow map]; [cbn; ring|]. fold (upow u p). cbn [fst snd]. rewrite !expo_cons, IH. ring. Qed.
Lemma expo_div u v s : expo (udiv u v) s == expo u s - expo v s.
Proof. unfold udiv, uinv. rewrite expo_mul, expo_pow. ring. Qed.
Lemma expo_nil s : expo [] s == 0. Proof. reflexivity. Qed.

(** Normalise exponents to linear combinations. *)
Ltac expos :=
  repeat first [rewrite expo_app | rewrite expo_mul | rewrite expo_div | rewrite expo_pow | rewrite expo_cons | rewrite expo_nil].

(** Whether a unit has a "delta_" symbol depends on its exponents only. *)
Lemma has_delta_spec u : has_delta u = true <-> exists s, String.prefix "delta_" s = true /\ ~ expo u s == 0.
Proof.
  unfold has_delta. rewrite existsb_exists. split.
  - intros ((s & e) & _ & H). cbn [fst] in H. apply andb_true_iff in H as (H1 & H2). exists s. split; [exact H1|].
    apply negb_true_iff in H2. intros K. apply Qeq_bool_iff in K. congruence.
  - intros (s & H1 & H2). destruct (in_dec String.string_dec s (map fst u)) as [Hi|Hi].
    + apply in_map_iff in Hi as ((t & e) & E & Hi). cbn in E. subst t. exists (s, e). split; [exact Hi|]. cbn [fst].
      rewrite H1. cbn. apply negb_true_iff. destruct (Qeq_bool (expo u s) 0) eqn:K; [|reflexivity].
      apply Qeq_bool_iff in K. contradiction.
    + exfalso. apply H2. rewrite (expo_notin u s Hi). reflexivity.
Qed.
Lemma has_delta_ext u v : (forall s, String.prefix "delta_" s = true -> (expo u s == expo v s)) -> has_delta u = has_delta v.
Proof.
  intros H. apply eq_iff_eq_true. rewrite !has_delta_spec.
  split; intros (s & H1 & H2); exists s; (split; [exact H1|]); specialize (H s H1); lra.
Qed.
(** No "delta_" symbol. *)
Definition delta_free (u : Units) : Prop := forall s, String.prefix "delta_" s = true -> expo u s == 0.

Section Trace.
Variable env : Env.
Notation Qty := (Qty env).

Lemma bind_ok {A B} (r : Res A) (f : A -> Res B) b : bind r f = Ok b -> exists a, r = Ok a /\ f a = Ok b.
Proof. destruct r; cbn; [eauto|discriminate]. Qed.

Lemma qdiv_units (p q r : Qty) : qdiv env p q = Ok r -> units r = udiv (units p) (units q).
Proof. unfold qdiv. destruct (neqb env _ _); [discriminate|]. intros H. injection H as <-. reflexivity. Qed.
Lemma rdiv_units c (q r : Qty) : rdiv env c q = Ok r -> units r = udiv [] (units q).
Proof. apply qdiv_units. Qed.
Lemma qsqrt_units (p r : Qty) : qsqrt env p = Ok r -> units r = upow (units p) (1 # 2).
Proof. unfold qsqrt. destruct (nneg_p env _); [discriminate|]. intros H. injection H as <-. reflexivity. Qed.
(** Equal units, or none or both with a "delta_" symbol: the left operand's. *)
Lemma addsub_left op (p q r : Qty) : addsub env op p q = Ok r ->
  ueq (units p) (units q) \/ has_delta (units p) = has_delta (units q) -> units r = units p.
Proof.
  unfold addsub. intros H Hu.
  destruct (negb (dim_eqb env (units p) (units q))); [discriminate|].
  destruct (units_eqb (units p) (units q)) eqn:Eu; [injection H as <-; reflexivity|].
  destruct Hu as [Hu|Hu]; [apply ueq_eqb in Hu; congruence|].
  rewrite Hu, andb_negb_r in H. apply bind_ok in H as (m & _ & H). injection H as <-. reflexivity.
Qed.
Lemma addsub_same op (p q r : Qty) : addsub env op p q = Ok r -> ueq (units p) (units q) -> units r = units p.
Proof. intros H Hu. apply (addsub_left op p q r H). left. exact Hu. Qed.

(** ** Geoffroy's helper parameters from standard units *)
Definition u_WJ : Units := [(sW, 1); (sJ, -1)].
Definition u_JW : Units := [(sJ, 1); (sW, -1)].

Section Geo.
Variables du dl lam eff eta : Qty.
Hypothesis U1 : ueq (units du) u_m.
Hypothesis U2 : ueq (units dl) u_m.
Hypothesis U3 : ueq (units lam) u_Wm2C.
Hypothesis U4 : ueq (units eff) [].
Hypothesis U5 : ueq (units eta) u_Wm2C.

Ltac solve_ueq := let s := fresh "s" in intros s;
  repeat match goal with H : ueq _ _ |- _ => specialize (H s) end;
  repeat match goal with H : expo _ s == _ |- _ => revert H end;
  unfold u_m, u_Wm2C, u_WJ, u_JW, u_JCm2, u_CWm2, u_JCkg, u_kgm3, u_s;
  expos; intros; lra.

Lemma geoffroy_units g : geoffroy env du dl lam eff eta = Ok g ->
  ueq (units (g_C g)) u_JCm2 /\ ueq (units (g_tau1 g)) u_JW /\ ueq (units (g_tau2 g)) u_JW /\
  ueq (units (g_phi1 g)) [] /\ ueq (units (g_phi2 g)) [].
Proof.
  unfold geoffroy. intros H.
  set (qC := qmul env (qmul env du (HEAT_CAPACITY_WATER env)) (DENSITY_WATER env)) in *.
  set (qCD := qmul env (qmul env dl (HEAT_CAPACITY_WATER env)) (DENSITY_WATER env)) in *.
  assert (UC : ueq (units qC) u_JCm2) by (unfold qC; cbn [qmul units HEAT_CAPACITY_WATER DENSITY_WATER mkQty]; solve_ueq).
  assert (UCD : ueq (units qCD) u_JCm2) by (unfold qCD; cbn [qmul units HEAT_CAPACITY_WATER DENSITY_WATER mkQty]; solve_ueq).
  clearbody qC qCD.
  apply bind_ok in H as (le & Hle & H).
  apply addsub_same in Hle; [|cbn [qmul units]; solve_ueq].
  apply bind_ok in H as (b1 & Hb1 & H). apply qdiv_units in Hb1.
  assert (Ub1 : ueq (units b1) u_WJ) by (rewrite Hb1, Hle; solve_ueq).
  apply bind_ok in H as (b2 & Hb2 & H). apply qdiv_units in Hb2.
  assert (Ub2 : ueq (units b2) u_WJ) by (rewrite Hb2; solve_ueq).
  apply bind_ok in H as (b & Hb & H). apply addsub_same in Hb; [|solve_ueq].
  assert (Ub : ueq (units b) u_WJ) by (rewrite Hb; exact Ub1).
  apply bind_ok in H as (bs & Hbs & H). apply addsub_same in Hbs; [|solve_ueq].
  assert (Ubs : ueq (units bs) u_WJ) by (rewrite Hbs; exact Ub1).
  apply bind_ok in H as (d4 & Hd4 & H). apply qdiv_units in Hd4.
  assert (Ud4 : ueq (units d4) (upow u_WJ 2)) by (rewrite Hd4; cbn [qmul qscale units]; solve_ueq).
  apply bind_ok in H as (dd & Hdd & H). apply addsub_same in Hdd; [|cbn [qsq units]; solve_ueq].
  assert (Udd : ueq (units dd) (upow u_WJ 2)) by (rewrite Hdd; cbn [qsq units]; solve_ueq).
  apply bind_ok in H as (tc & Htc & H). apply qdiv_units in Htc.
  assert (Utc : ueq (units tc) (upow u_JW 2)) by (rewrite Htc; cbn [qmul qscale units]; solve_ueq).
  apply bind_ok in H as (rd & Hrd & H). apply qsqrt_units in Hrd.
  assert (Urd : ueq (units rd) u_WJ) by (rewrite Hrd; solve_ueq).
  apply bind_ok in H as (bm & Hbm & H). apply addsub_same in Hbm; [|solve_ueq].
  apply bind_ok in H as (bp & Hbp & H). apply addsub_same in Hbp; [|solve_ueq].
  apply bind_ok in H as (pc & Hpc & H). apply qdiv_units in Hpc.
  assert (Upc : ueq (units pc) u_JW) by (rewrite Hpc; cbn [qmul qscale units]; solve_ueq).
  apply bind_ok in H as (sm_ & Hsm & H). apply addsub_same in Hsm; [|solve_ueq].
  apply bind_ok in H as (sp_ & Hsp & H). apply addsub_same in Hsp; [|solve_ueq].
  apply bind_ok in H as (dphi & Hdphi & H). apply bind_ok in H as (a1 & Ha1 & H). apply bind_ok in H as (a2 & Ha2 & H).
  injection H as <-. cbn [g_C g_tau1 g_tau2 g_phi1 g_phi2 qmul units]. rewrite Hbm, Hbp, Hsm, Hsp.
  split; [exact UC|]. repeat split; solve_ueq.
Qed.
End Geo.

(** get_impulse_response_parameters from standard units. *)
Lemma t2i_units s r :
  ueq (units (tl_du env s)) u_m -> ueq (units (tl_dl env s)) u_m -> ueq (units (tl_lambda0 env s)) u_Wm2C ->
  ueq (units (tl_efficacy env s)) [] -> ueq (units (tl_eta env s)) u_Wm2C ->
  tl_get_impulse_response_parameters env s = Ok r ->
  ueq (units (irp_d1 env r)) u_JW /\ ueq (units (irp_d2 env r)) u_JW /\
  ueq (units (irp_q1 env r)) u_CWm2 /\ ueq (units (irp_q2 env r)) u_CWm2 /\ irp_efficacy env r = tl_efficacy env s.
Proof.
  intros U1 U2 U3 U4 U5. unfold tl_get_impulse_response_parameters.
  destruct (negb _); [discriminate|]. intros H.
  apply bind_ok in H as (g & Hg & H). destruct (geoffroy_units _ _ _ _ _ U1 U2 U3 U4 U5 g Hg) as (G1 & G2 & G3 & G4 & G5).
  apply bind_ok in H as (dphi & Hdphi & H). apply addsub_same in Hdphi; [|intros s0; rewrite (G4 s0), (G5 s0); reflexivity].
  apply bind_ok in H as (q1 & Hq1 & H). apply qdiv_units in Hq1.
  apply bind_ok in H as (q2 & Hq2 & H). apply qdiv_units in Hq2.
  injection H as <-. cbn [irp_d1 irp_d2 irp_q1 irp_q2 irp_efficacy]. rewrite Hq1, Hq2. cbn [qmul qneg units]. rewrite Hdphi.
  split; [exact G2|]. split; [exact G3|].
  split; [|split; [|reflexivity]]; intros s0; specialize (G1 s0); specialize (G2 s0); specialize (G3 s0); specialize (G4 s0);
    specialize (G5 s0); unfold u_CWm2, u_JW, u_JCm2 in *; revert G1 G2 G3 G4 G5; expos; lra.
Qed.

(** get_two_layer_parameters when q1 and q2 are in the same unit [U], the
    timescales in units without "delta_" symbols, the efficacy without unit: the
    units of the timescales drop out of lambda0 and eta. *)
Lemma i2t_units s r U :
  ueq (units (ir_q1 env s)) U -> ueq (units (ir_q2 env s)) U ->
  delta_free (units (ir_d1 env s)) -> delta_free (units (ir_d2 env s)) -> ueq (units (ir_efficacy env s)) [] ->
  ir_get_two_layer_parameters env s = Ok r ->
  ueq (units (tlp_lambda0 env r)) (uinv U) /\ ueq (units (tlp_eta env r)) (uinv U).
Proof.
  intros Q1 Q2 D1 D2 Ee. unfold ir_get_two_layer_parameters. intros H.
  assert (Hinv : forall s, expo (uinv U) s == - expo U s) by (intros; unfold uinv; rewrite expo_pow; ring).
  apply bind_ok in H as (qq & Hqq & H). apply addsub_same in Hqq; [|intros x; rewrite (Q1 x), (Q2 x); reflexivity].
  apply bind_ok in H as (lam & Hlam & H). apply rdiv_units in Hlam.
  assert (Ulam : ueq (units lam) (uinv U)) by (intros x; rewrite Hlam, Hqq, (Hinv x), expo_div, (Q1 x), expo_nil; ring).
  apply bind_ok in H as (cden & Hcden & H). apply addsub_left in Hcden.
  2:{ right. apply has_delta_ext. intros x Hx. cbn [qmul units]. rewrite !expo_mul, (Q1 x), (Q2 x), (D1 x Hx), (D2 x Hx). ring. }
  apply bind_ok in H as (C & HC & H). apply qdiv_units in HC.
  assert (UC : forall x, expo (units C) x == expo (units (ir_d1 env s)) x - expo U x).
  { intros x. rewrite HC, Hcden. cbn [qmul units]. rewrite expo_div, !expo_mul, (Q1 x). ring. }
  apply bind_ok in H as (da & Hda & H). apply addsub_left in Hda.
  2:{ right. apply has_delta_ext. intros x Hx. cbn [qmul units].
      rewrite !expo_mul, (Q1 x), (Q2 x), (D1 x Hx), (D2 x Hx), (Ulam x). ring. }
  assert (Uda : ueq (units da) (units (ir_d1 env s))).
  { intros x. rewrite Hda. cbn [qmul units]. rewrite !expo_mul, (Q1 x), (Ulam x), (Hinv x). ring. }
  apply bind_ok in H as (cd0 & Hcd0 & H). apply addsub_same in Hcd0.
  2:{ intros x. cbn [qmul units]. rewrite !expo_mul, (Ulam x), (Uda x), (UC x), (Hinv x). ring. }
  apply bind_ok in H as (CD & HCD & H). apply qdiv_units in HCD.
  apply bind_ok in H as (eden & Heden & H). apply addsub_left in Heden.
  2:{ right. apply has_delta_ext. intros x Hx. cbn [qmul units].
      rewrite !expo_mul, (Q1 x), (Q2 x), (D1 x Hx), (D2 x Hx), (Ulam x). ring. }
  apply bind_ok in H as (eta & Heta & H). apply qdiv_units in Heta.
  apply bind_ok in H as (du & Hdu & H). apply bind_ok in H as (dl & Hdl & H). injection H as <-.
  cbn [tlp_lambda0 tlp_eta]. split; [exact Ulam|].
  intros x. rewrite Heta, HCD, Hcd0, Heden. cbn [qmul units].
  rewrite !expo_div, !expo_mul, (Ulam x), (Uda x), (Q2 x), (Ee x), (Hinv x), expo_nil. ring.
Qed.

(** The same for any units of q1, q2 and the efficacy: every case of pint's
    rule for the unit of a sum. *)
Section General.
Variables (s : IR env) (r : TLParams env).
Notation U1 := (units (ir_q1 env s)). Notation U2 := (units (ir_q2 env s)).
Notation D1 := (units (ir_d1 env s)). Notation D2 := (units (ir_d2 env s)).
Notation Ue := (units (ir_efficacy env s)).
Hypothesis Z1 : delta_free D1.
Hypothesis Z2 : delta_free D2.
Hypothesis Hr : ir_get_two_layer_parameters env s = Ok r.

Lemma addsub_right op (p q z : Qty) : addsub env op p q = Ok z -> has_delta (units p) = true -> has_delta (units q) = false ->
  units z = units q.
Proof.
  unfold addsub. intros H H1 H2.
  destruct (negb (dim_eqb env (units p) (units q))); [discriminate|].
  destruct (units_eqb (units p) (units q)) eqn:Eu.
  - exfalso. apply ueq_eqb in Eu. rewrite (has_delta_ext _ (units q)) in H1 by (intros x _; apply Eu). congruence.
  - rewrite H1, H2 in H. cbn [andb negb] in H. apply bind_ok in H as (m & _ & H). injection H as <-. reflexivity.
Qed.
Lemma delta_free_false u : delta_free u <-> has_delta u = false.
Proof.
  split.
  - intros H. destruct (has_delta u) eqn:E; [|reflexivity]. apply has_delta_spec in E as (x & Hx & Hn). elim Hn. apply H, Hx.
  - intros H x Hx. destruct (Qeq_dec (expo u x) 0) as [K|K]; [exact K|]. exfalso.
    assert (has_delta u = true) by (apply has_delta_spec; eauto). congruence.
Qed.

(** (A) q1 and q2 with the same "delta_" symbols. *)
Lemma eta_unit_same : (forall x, String.prefix "delta_" x = true -> expo U1 x == expo U2 x) ->
  forall x, expo (units (tlp_eta env r)) x == - (expo U2 x + expo Ue x).
Proof.
  intros HD. pose proof Hr as H. unfold ir_get_two_layer_parameters in H.
  apply bind_ok in H as (qq & Hqq & H). apply addsub_left in Hqq; [|right; apply has_delta_ext; exact HD].
  apply bind_ok in H as (lam & Hlam & H). apply rdiv_units in Hlam.
  assert (Ulam : forall x, expo (units lam) x == - expo U1 x) by (intros x; rewrite Hlam, Hqq, expo_div, expo_nil; ring).
  apply bind_ok in H as (cden & Hcden & H). apply addsub_left in Hcden.
  2:{ right. apply has_delta_ext. intros x Hx. cbn [qmul units]. rewrite !expo_mul, (HD x Hx), (Z1 x Hx), (Z2 x Hx). ring. }
  apply bind_ok in H as (C & HC & H). apply qdiv_units in HC.
  assert (UC : forall x, expo (units C) x == expo D1 x - expo U1 x).
  { intros x. rewrite HC, Hcden. cbn [qmul units]. rewrite expo_div, !expo_mul. ring. }
  apply bind_ok in H as (da & Hda & H). apply addsub_left in Hda.
  2:{ right. apply has_delta_ext. intros x Hx. cbn [qmul units].
      rewrite !expo_mul, (Z1 x Hx), (Z2 x Hx), (Ulam x), (HD x Hx). ring. }
  assert (Uda : ueq (units da) D1).
  { intros x. rewrite Hda. cbn [qmul units]. rewrite !expo_mul, (Ulam x). ring. }
  apply bind_ok in H as (cd0 & Hcd0 & H). apply addsub_same in Hcd0.
  2:{ intros x. cbn [qmul units]. rewrite !expo_mul, (Ulam x), (Uda x), (UC x). ring. }
  apply bind_ok in H as (CD & HCD & H). apply qdiv_units in HCD.
  apply bind_ok in H as (eden & Heden & H). apply addsub_left in Heden.
  2:{ right. apply has_delta_ext. intros x Hx. cbn [qmul units].
      rewrite !expo_mul, (Z1 x Hx), (Z2 x Hx), (Ulam x), (HD x Hx). ring. }
  apply bind_ok in H as (eta & Heta & H). apply qdiv_units in Heta.
  apply bind_ok in H as (du & Hdu & H). apply bind_ok in H as (dl & Hdl & H). injection H as <-.
  cbn [tlp_eta]. intros x. rewrite Heta, HCD, Hcd0, Heden. cbn [qmul units].
  rewrite !expo_div, !expo_mul, (Ulam x), (Uda x). ring.
Qed.

(** (B) only q1 has a "delta_" symbol: q2's unit wins. *)
Lemma eta_unit_left : has_delta U1 = true -> delta_free U2 ->
  forall x, expo (units (tlp_eta env r)) x == expo D2 x - expo D1 x - expo U2 x - expo Ue x.
Proof.
  intros H1 H2. pose proof (proj1 (delta_free_false _) H2) as H2'. pose proof Hr as H. unfold ir_get_two_layer_parameters in H.
  apply bind_ok in H as (qq & Hqq & H). apply addsub_right in Hqq; auto.
  apply bind_ok in H as (lam & Hlam & H). apply rdiv_units in Hlam.
  assert (Ulam : forall x, expo (units lam) x == - expo U2 x) by (intros x; rewrite Hlam, Hqq, expo_div, expo_nil; ring).
  assert (A1 : forall u, delta_free u -> has_delta (umul U1 u) = true).
  { intros u Hu. rewrite <- H1. apply has_delta_ext. intros x Hx. rewrite expo_mul, (Hu x Hx). ring. }
  apply bind_ok in H as (cden & Hcden & H). apply addsub_right in Hcden.
  2:{ cbn [qmul units]. apply A1, Z2. }
  2:{ cbn [qmul units]. apply delta_free_false. intros x Hx. rewrite expo_mul, (H2 x Hx), (Z1 x Hx). ring. }
  apply bind_ok in H as (C & HC & H). apply qdiv_units in HC.
  assert (UC : forall x, expo (units C) x == expo D2 x - expo U2 x).
  { intros x. rewrite HC, Hcden. cbn [qmul units]. rewrite expo_div, !expo_mul. ring. }
  assert (A2 : forall v w, delta_free v -> delta_free w -> has_delta (umul w (umul v U1)) = true).
  { intros v w Hv Hw. rewrite <- H1. apply has_delta_ext. intros x Hx. rewrite !expo_mul, (Hv x Hx), (Hw x Hx). ring. }
  assert (Zlam : delta_free (units lam)) by (intros x Hx; rewrite (Ulam x), (H2 x Hx); ring).
  apply bind_ok in H as (da & Hda & H). apply addsub_right in Hda.
  2:{ cbn [qmul units]. apply A2; assumption. }
  2:{ cbn [qmul units]. apply delta_free_false. intros x Hx. rewrite !expo_mul, (Zlam x Hx), (H2 x Hx), (Z2 x Hx). ring. }
  assert (Uda : ueq (units da) D2).
  { intros x. rewrite Hda. cbn [qmul units]. rewrite !expo_mul, (Ulam x). ring. }
  apply bind_ok in H as (cd0 & Hcd0 & H). apply addsub_same in Hcd0.
  2:{ intros x. cbn [qmul units]. rewrite !expo_mul, (Ulam x), (Uda x), (UC x). ring. }
  apply bind_ok in H as (CD & HCD & H). apply qdiv_units in HCD.
  apply bind_ok in H as (eden & Heden & H). unfold qadd, addsub in Heden.
  destruct (negb _); [discriminate|]. cbn [qmul units] in Heden.
  assert (F1 : has_delta (umul D1 (umul (units lam) U2)) = false).
  { apply delta_free_false. intros x Hx. rewrite !expo_mul, (Zlam x Hx), (H2 x Hx), (Z1 x Hx). ring. }
  rewrite F1 in Heden. cbn [andb] in Heden.
  assert (Ueden : units eden = umul D1 (umul (units lam) U2)).
  { destruct (units_eqb _ _); [injection Heden as <-; reflexivity|].
    apply bind_ok in Heden as (m & _ & Heden). injection Heden as <-. reflexivity. }
  apply bind_ok in H as (eta & Heta & H). apply qdiv_units in Heta.
  apply bind_ok in H as (du & Hdu & H). apply bind_ok in H as (dl & Hdl & H). injection H as <-.
  cbn [tlp_eta]. intros x. rewrite Heta, HCD, Hcd0, Ueden. cbn [qmul units].
  rewrite !expo_div, !expo_mul, (Ulam x), (Uda x). ring.
Qed.

(** A left operand without "delta_" symbols determines the unit. *)
Lemma addsub_plain op (p q z : Qty) : addsub env op p q = Ok z -> has_delta (units p) = false -> units z = units p.
Proof.
  unfold addsub. intros H H1. destruct (negb _); [discriminate|].
  destruct (units_eqb _ _); [injection H as <-; reflexivity|]. rewrite H1 in H. cbn [andb] in H.
  apply bind_ok in H as (m & _ & H). injection H as <-. reflexivity.
Qed.

(** (C) only q2 has a "delta_" symbol, or (D) both have but different ones:
    q1's unit wins. *)
Lemma eta_unit_right : has_delta (udiv U2 U1) = true -> has_delta U1 = false \/ has_delta U2 = true ->
  forall x, expo (units (tlp_eta env r)) x == expo D1 x - expo D2 x - expo U1 x - expo Ue x.
Proof.
  intros H1 H2. pose proof Hr as H. unfold ir_get_two_layer_parameters in H.
  apply bind_ok in H as (qq & Hqq & H).
  assert (Uqq : units qq = U1).
  { destruct H2 as [K|K]; [apply addsub_plain in Hqq; assumption|].
    destruct (has_delta U1) eqn:E1; [|apply addsub_plain in Hqq; assumption].
    apply addsub_left in Hqq; [assumption|]. right. congruence. }
  apply bind_ok in H as (lam & Hlam & H). apply rdiv_units in Hlam.
  assert (Ulam : forall x, expo (units lam) x == - expo U1 x) by (intros x; rewrite Hlam, Uqq, expo_div, expo_nil; ring).
  apply bind_ok in H as (cden & Hcden & H).
  assert (Ucden : units cden = umul U1 D2).
  { assert (K1 : has_delta (umul U1 D2) = has_delta U1) by (apply has_delta_ext; intros x Hx; rewrite expo_mul, (Z2 x Hx); ring).
    assert (K2 : has_delta (umul U2 D1) = has_delta U2) by (apply has_delta_ext; intros x Hx; rewrite expo_mul, (Z1 x Hx); ring).
    destruct (has_delta U1) eqn:E1; [|apply addsub_plain in Hcden; [assumption|cbn [qmul units]; congruence]].
    destruct H2 as [K|K]; [discriminate|]. apply addsub_left in Hcden; [assumption|]. right. cbn [qmul units]. congruence. }
  apply bind_ok in H as (C & HC & H). apply qdiv_units in HC.
  assert (UC : forall x, expo (units C) x == expo D1 x - expo U1 x).
  { intros x. rewrite HC, Ucden. cbn [qmul units]. rewrite expo_div, !expo_mul. ring. }
  apply bind_ok in H as (da & Hda & H). apply addsub_plain in Hda.
  2:{ cbn [qmul units]. apply delta_free_false. intros x Hx. rewrite !expo_mul, (Ulam x), (Z1 x Hx). ring. }
  assert (Uda : ueq (units da) D1).
  { intros x. rewrite Hda. cbn [qmul units]. rewrite !expo_mul, (Ulam x). ring. }
  apply bind_ok in H as (cd0 & Hcd0 & H). apply addsub_same in Hcd0.
  2:{ intros x. cbn [qmul units]. rewrite !expo_mul, (Ulam x), (Uda x), (UC x). ring. }
  apply bind_ok in H as (CD & HCD & H). apply qdiv_units in HCD.
  apply bind_ok in H as (eden & Heden & H). apply addsub_right in Heden.
  2:{ cbn [qmul units]. rewrite <- H1. apply has_delta_ext. intros x Hx. rewrite expo_div, !expo_mul, (Ulam x), (Z1 x Hx). ring. }
  2:{ cbn [qmul units]. apply delta_free_false. intros x Hx. rewrite !expo_mul, (Ulam x), (Z2 x Hx). ring. }
  apply bind_ok in H as (eta & Heta & H). apply qdiv_units in Heta.
  apply bind_ok in H as (du & Hdu & H). apply bind_ok in H as (dl & Hdl & H). injection H as <-.
  cbn [tlp_eta]. intros x. rewrite Heta, HCD, Hcd0, Heden. cbn [qmul units].
  rewrite !expo_div, !expo_mul, (Ulam x), (Uda x). ring.
Qed.
End General.

(** The unit test of the heat uptake (impulse_response_model.py:239). *)
Lemma eta_unit_test u U : ueq u (uinv U) -> units_eqb (u ++ u_dC) u_Wm2 = true <-> ueq U u_CWm2.
Proof.
  intros H. rewrite <- ueq_eqb.
  assert (Hinv : forall s, expo (uinv U) s == - expo U s) by (intros; unfold uinv; rewrite expo_pow; ring).
  split; intros K s; specialize (K s); specialize (H s); specialize (Hinv s); revert K H Hinv;
    unfold u_dC, u_Wm2, u_CWm2; expos; intros; lra.
Qed.
End Trace.
