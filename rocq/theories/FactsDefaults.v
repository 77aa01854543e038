(** Property C49: the models with their default arguments. *)
From Coq Require Import List String QArith Reals Qreals Bool Arith Lra Lia Psatz.
From Verif Require Import Arith Pint Base TwoLayer Impulse Scm Api Spec Exact SpecReal Utils
  GenTL GenTLHist GenIR GenIRHist GenMeta RealUnits RealTL RealGeo RealConv RealIR RealModels RealEuler RealBox FactsTL FactsTL2 FactsIR FactsEcs.
Import ListNotations.
Local Open Scope R_scope.

(** ** C49 *)
Lemma lit reg c x u : Q2R c = x -> is_qty reg (mkQty (xenv reg) c u) x u.
Proof. intros <-. apply is_qty_lit. Qed.

Theorem c49_two_layer_defaults : forall reg parse, exists s,
  tl_new (xenv reg) (tl_defaults (xenv reg)) = Ok s /\ tl_reachable (xenv reg) parse s /\
  tl_values reg s (mkTLPhys 50 1200 (374 / 100 / 3) 0 1 (8 / 10) (year_s reg)).
Proof.
  intros reg parse. unfold tl_defaults.
  assert (Y : is_qty reg (mkQty (xenv reg) 1 u_yr) (year_s reg) u_s).
  { replace (year_s reg) with (year_s reg * 1) by ring. apply yr_to_s. apply lit. unfold Q2R; cbn; lra. }
  unfold to. rewrite (is_qty_to_mag reg _ _ _ Y). cbn [bind].
  apply (tl_make reg parse); cbn [p_du p_dl p_lambda0 p_a p_eps p_eta p_dt];
    try (apply lit; unfold Q2R; cbn; lra).
  - split; [apply same_dim_refl|]. exists (374 / 100 / 3). split; [|reflexivity]. cbn.
    destruct (Req_EM_T (Q2R 3) 0) as [K|K]; [unfold Q2R in K; cbn in K; lra|]. f_equal. unfold Q2R; cbn; lra.
  - apply is_qty_self.
Qed.

Theorem c49_impulse_response_defaults : forall reg parse, exists s,
  ir_new (xenv reg) (ir_defaults (xenv reg)) = Ok s /\ ir_reachable (xenv reg) parse s /\
  ir_values reg s (mkIRPhys (3 / 10) (4 / 10) 9 400 1 (1 / 12)) /\
  units (ir_q1 _ s) = u_CWm2 /\ units (ir_q2 _ s) = u_CWm2.
Proof.
  intros reg parse. unfold ir_defaults.
  edestruct (ir_make reg parse) as (s & H1 & H2 & H3 & H4 & H5 & _);
    [..|exists s; split; [exact H1|]; split; [exact H2|]; split; [exact H3|]; rewrite H4, H5; split; reflexivity];
    cbn [p_q1 p_q2 p_d1 p_d2 p_ieps p_idt]; try (apply lit; unfold Q2R; cbn; lra); [|lra].
  split; [apply same_dim_refl|]. exists (1 / 12). split; [|reflexivity]. cbn.
  destruct (Req_EM_T (Q2R 12) 0) as [K|K]; [unfold Q2R in K; cbn in K; lra|]. f_equal. unfold Q2R; cbn; lra.
Qed.

(** A doubling of CO2 (3.74 W/m^2) warms the default two-layer model by 3
    degrees, which is the sensitivity computed from its lambda0 (the year being
    shorter than 10^8 s). *)
Theorem c49_two_layer_sensitivity : forall reg, year_s reg <= 100000000 -> exists s T TD N ecs,
  tl_new (xenv reg) (tl_defaults (xenv reg)) = Ok s /\
  (forall e, is_series reg e (fun _ => 374 / 100) u_Wm2 -> tl_reports reg s e T TD N) /\
  Un_cv T 3 /\ Un_cv TD 3 /\ Un_cv N 0 /\
  convert_lambda_to_ecs (xenv reg) (PQ (qneg (xenv reg) (tl_lambda0 _ s))) (f2x_default (xenv reg)) = Ok ecs /\
  is_qty reg ecs 3 u_dC.
Proof.
  intros reg HY. pose proof (year_s_pos reg) as PY.
  destruct (c49_two_layer_defaults reg (fun _ => None)) as (s & Hs & Hr & Hv). exists s.
  set (p := mkTLPhys 50 1200 (374 / 100 / 3) 0 1 (8 / 10) (year_s reg)) in *.
  destruct (c17_two_layer_equilibrium reg p (374 / 100)) as (T & TD & N & HR & HT & HTD & HN).
  { unfold positive_tl, p; cbn; lra. }
  { unfold small_step, p_C, p_CD, water_capacity, p; cbn; lra. }
  replace (374 / 100 / p_lambda0 p) with 3 in * by (unfold p; cbn; field).
  assert (Hl : is_qty reg (tl_lambda0 _ s) (374 / 100 / 3) u_Wm2C) by apply Hv.
  destruct (c38_default reg) as (f & Ef & Hf).
  destruct (proj2 (c38_value reg _ f _ _ (is_qty_neg reg _ _ _ Hl) Hf) ltac:(lra)) as (ecs & E1 & E2).
  exists T, TD, N, ecs. split; [exact Hs|]. split; [intros e He; apply (HR (fun _ => None) s e); split; auto|].
  split; [exact HT|]. split; [exact HTD|]. split; [exact HN|]. rewrite Ef. split; [exact E1|].
  replace 3 with (- (374 / 100) / (- (374 / 100 / 3))) by field. exact E2.
Qed.

(** The default impulse-response model warms by 0.7 degrees per W/m^2. *)
Theorem c49_impulse_response_sensitivity : forall reg F, exists s T1 T2 T N,
  ir_new (xenv reg) (ir_defaults (xenv reg)) = Ok s /\
  (forall e, is_series reg e (fun _ => F) u_Wm2 -> ir_reports reg s e T1 T2 T N) /\
  Un_cv T1 (3 / 10 * F) /\ Un_cv T2 (4 / 10 * F) /\ Un_cv T (7 / 10 * F) /\ Un_cv N 0.
Proof.
  intros reg F. destruct (c49_impulse_response_defaults reg (fun _ => None)) as (s & Hs & Hr & Hv & U1 & U2). exists s.
  set (p := mkIRPhys (3 / 10) (4 / 10) 9 400 1 (1 / 12)) in *.
  destruct (lam_mag_exists reg s p Hv) as (x & Hx); try (unfold p; cbn; lra).
  assert (HC : heat_const reg s x 0 0) by (apply (heat_const_1 reg (fun _ => None) s p); auto; unfold p; cbn; lra).
  assert (HR : ir_constant_forcing_response reg s F (bt1 p (fun _ => F)) (bt2 p (fun _ => F)) (fun i => bt1 p (fun _ => F) i + bt2 p (fun _ => F) i)
    (hn p (fun _ => F) x 0 0)) by (intros e He; apply (ir_run_reports reg (fun _ => None) s p e _ Hr Hv He _ _ _ HC)).
  do 4 eexists. split; [exact Hs|]. split; [exact HR|].
  destruct (c17_impulse_response_equilibrium reg (fun _ => None) s p F _ _ _ _ Hr Hv ltac:(unfold p; cbn; lra) ltac:(unfold p; cbn; lra) ltac:(unfold p; cbn; lra) HR)
    as (A1 & A2 & A3).
  split; [exact A1|]. split; [exact A2|]. split.
  - replace (7 / 10 * F) with ((p_q1 p + p_q2 p) * F) by (unfold p; cbn; lra). exact A3.
  - eapply (c17_impulse_response_heat_uptake reg (fun _ => None) s p F _ _ _ _ Hr Hv); try (unfold p; cbn; lra); [rewrite U1; reflexivity|rewrite U2; reflexivity|exact HR].
Qed.

(** A registry with the length of the year pint uses. *)
Example c49_case : exists reg, year_s reg = 31556925.9747 /\ year_s reg <= 100000000.
Proof.
  unshelve eexists.
  - refine (mkRegistry 0 (fun _ _ => 0%Q) (fun x => if String.eqb x syr then 31556925.9747 else 1) _ _ _ _ _ _ _);
      try (intros; lia); try (cbn; lra).
    intros x. destruct (String.eqb x syr); lra.
  - unfold year_s; cbn. lra.
Qed.
