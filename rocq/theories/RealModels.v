(** Models with given physical parameter values, and driver series with given
    values, exist: used to show that the hypotheses of the exact-arithmetic
    properties are met. *)
From Coq Require Import List String QArith Reals Qreals Bool Arith Lra Lia.
From Verif Require Import Arith Pint Base TwoLayer Impulse Scm Api Spec Exact SpecReal
  GenTL GenTLHist GenIR GenIRHist GenMeta RealUnits RealTL RealGeo RealConv RealIR.
Import ListNotations.
Local Open Scope R_scope.

Section Models.
Variable reg : Registry.
Notation E := (xenv reg).
Variable parse : string -> option (Qty E).

Lemma ir_reach_call o s : ir_reachable E parse s -> ir_reachable E parse (fst (ir_call E parse o s)).
Proof.
  intros (g & s0 & ops & H0 & ->). exists g, s0, (ops ++ [o]). split; [exact H0|].
  unfold ir_calls. rewrite fold_left_app. reflexivity.
Qed.
Lemma tl_reach_call o s : tl_reachable E parse s -> tl_reachable E parse (fst (tl_call E parse o s)).
Proof.
  intros (g & s0 & ops & H0 & ->). exists g, s0, (ops ++ [o]). split; [exact H0|].
  unfold tl_calls. rewrite fold_left_app. reflexivity.
Qed.

Lemma good_of q x u : is_qty reg q x u -> good_arg E (PQ q) u.
Proof. intros (H & _). exists q. auto. Qed.

Lemma tl_make du dl lam a eps eta dt (p : TLP) :
  is_qty reg du (p_du p) u_m -> is_qty reg dl (p_dl p) u_m -> is_qty reg lam (p_lambda0 p) u_Wm2C ->
  is_qty reg a (p_a p) u_Wm2C2 -> is_qty reg eps (p_eps p) u_none -> is_qty reg eta (p_eta p) u_Wm2C ->
  is_qty reg dt (p_dt p) u_s ->
  exists s, tl_new E (mkTLArgs E (PQ du) (PQ dl) (PQ lam) (PQ a) (PQ eps) (PQ eta) (PQ dt)) = Ok s /\
    tl_reachable E parse s /\ tl_values reg s p.
Proof.
  intros H1 H2 H3 H4 H5 H6 H7.
  destruct (tl_new_ok E (mkTLArgs E (PQ du) (PQ dl) (PQ lam) (PQ a) (PQ eps) (PQ eta) (PQ dt))) as (s & Hs & _ & Hg & _).
  { intros []; cbn; eapply good_of; eassumption. }
  exists s. split; [exact Hs|]. split; [exists (mkTLArgs E (PQ du) (PQ dl) (PQ lam) (PQ a) (PQ eps) (PQ eta) (PQ dt)), s, []; auto|].
  pose proof (Hg Pdu) as K1. pose proof (Hg Pdl) as K2. pose proof (Hg Plambda0) as K3. pose proof (Hg Pa) as K4.
  pose proof (Hg Pefficacy) as K5. pose proof (Hg Peta) as K6. pose proof (Hg Pdelta_t) as K7. cbn in *.
  injection K1 as ->. injection K2 as ->. injection K3 as ->. injection K4 as ->. injection K5 as ->. injection K6 as ->. injection K7 as ->.
  unfold tl_values. auto 10.
Qed.

Lemma tl_model (p : TLP) : exists s, tl_reachable E parse s /\ tl_values reg s p.
Proof.
  destruct (tl_make _ _ _ _ _ _ _ p (is_qty_self reg _ _) (is_qty_self reg _ _) (is_qty_self reg _ _) (is_qty_self reg _ _)
    (is_qty_self reg _ _) (is_qty_self reg _ _) (is_qty_self reg _ _)) as (s & _ & H). eauto.
Qed.

Lemma ir_make q1 q2 d1 d2 eps dt (p : IRP) :
  is_qty reg q1 (p_q1 p) u_CWm2 -> is_qty reg q2 (p_q2 p) u_CWm2 -> is_qty reg d1 (p_d1 p) u_yr ->
  is_qty reg d2 (p_d2 p) u_yr -> is_qty reg eps (p_ieps p) u_none -> is_qty reg dt (p_idt p) u_yr ->
  p_d1 p < p_d2 p ->
  exists s, ir_new E (mkIRArgs E (PQ q1) (PQ q2) (PQ d1) (PQ d2) (PQ eps) (PQ dt)) = Ok s /\
    ir_reachable E parse s /\ ir_values reg s p /\
    ir_q1 E s = q1 /\ ir_q2 E s = q2 /\ ir_d1 E s = d1 /\ ir_d2 E s = d2 /\ ir_efficacy E s = eps /\ ir_delta_t E s = dt.
Proof.
  intros H1 H2 H3 H4 H5 H6 Hlt.
  destruct (ir_new_ok E (mkIRArgs E (PQ q1) (PQ q2) (PQ d1) (PQ d2) (PQ eps) (PQ dt)) d1 d2) as (s & Hs & _ & Hg & _).
  { intros []; cbn; eapply good_of; eassumption. }
  { reflexivity. }
  { reflexivity. }
  { rewrite (qge_ok reg _ _ _ _ _ H3 H4). destruct (Rle_dec (p_d2 p) (p_d1 p)); [lra|reflexivity]. }
  exists s. split; [exact Hs|]. split; [exists (mkIRArgs E (PQ q1) (PQ q2) (PQ d1) (PQ d2) (PQ eps) (PQ dt)), s, []; auto|].
  pose proof (Hg Pq1) as K1. pose proof (Hg Pq2) as K2. pose proof (Hg Pd1) as K3. pose proof (Hg Pd2) as K4.
  pose proof (Hg Peff) as K5. pose proof (Hg Pdt) as K6. cbn in *.
  injection K1 as ->. injection K2 as ->. injection K3 as ->. injection K4 as ->. injection K5 as ->. injection K6 as ->.
  unfold ir_values. auto 15.
Qed.

Lemma ir_model (p : IRP) : p_d1 p < p_d2 p -> exists s, ir_reachable E parse s /\ ir_values reg s p /\
  units (ir_q1 E s) = u_CWm2 /\ units (ir_q2 E s) = u_CWm2.
Proof.
  intros H. destruct (ir_make _ _ _ _ _ _ p (is_qty_self reg _ _) (is_qty_self reg _ _) (is_qty_self reg _ _) (is_qty_self reg _ _)
    (is_qty_self reg _ _) (is_qty_self reg _ _) H) as (s & _ & H1 & H2 & H3 & H4 & _).
  exists s. rewrite H3, H4. auto.
Qed.

Lemma a_series (F : nat -> R) n : exists e, npoints (reg := reg) e = n /\ is_series reg e F u_Wm2.
Proof.
  exists (mkQA (env := E) (map (fun i => Fin (F i)) (seq 0 n)) u_Wm2). split; [|apply series_ok].
  unfold npoints. cbn [mags]. exact (first_length reg n F).
Qed.

Lemma tl_run_exists p F n : p_du p <> 0 -> p_dl p <> 0 -> p_dt p <> 0 ->
  exists s e, tl_reachable E parse s /\ tl_values reg s p /\ npoints e = n /\ is_series reg e F u_Wm2 /\
    tl_reports reg s e (eu p F) (el p F) (en p F).
Proof.
  intros H1 H2 H3. destruct (tl_model p) as (s & Hr & Hv). destruct (a_series F n) as (e & Hn & HF).
  exists s, e. repeat (split; [assumption|]). exact (run_reports reg parse s p e F Hr Hv HF H1 H2 H3).
Qed.

Lemma ir_run_exists p F n : p_d1 p < p_d2 p -> p_d1 p <> 0 -> p_d2 p <> 0 -> p_q1 p + p_q2 p <> 0 ->
  p_q1 p * p_d2 p + p_q2 p * p_d1 p <> 0 -> p_ieps p = 1 ->
  exists s e N, ir_reachable E parse s /\ ir_values reg s p /\
    units (ir_q1 E s) = u_CWm2 /\ units (ir_q2 E s) = u_CWm2 /\ npoints e = n /\ is_series reg e F u_Wm2 /\
    ir_reports reg s e (bt1 p F) (bt2 p F) (fun i => bt1 p F i + bt2 p F i) N.
Proof.
  intros H0 H1 H2 H3 H4 H5. destruct (ir_model p H0) as (s & Hr & Hv & U1 & U2). destruct (a_series F n) as (e & Hn & HF).
  assert (Z : p_ieps p <> 0) by lra.
  destruct (lam_mag_exists reg s p Hv H3 H4 Z) as (x & Hx).
  pose proof (heat_const_1 reg parse s p Hr Hv H1 H2 H3 H4 Z x H5 Hx) as HC.
  exists s, e. eexists. repeat (split; [eassumption|]). exact (ir_run_reports reg parse s p e F Hr Hv HF _ _ _ HC).
Qed.
End Models.
