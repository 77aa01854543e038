(** Generated by tools/gen_props.py from FactsAbort.v: the property theorems. *)
From Coq Require Import List String QArith Reals Qreals Bool Arith Lqa Lra Lia Psatz.
From Verif Require Import Arith Pint Base TwoLayer Impulse Scm Api Spec Exact SpecReal
  GenTL GenTLHist GenIR GenIRHist GenMeta RealUnits RealTL RealGeo RealConv RealIR RealTrace RealModels RealEuler RealBox RealEquiv
  FactsRun FactsTL FactsTL2 FactsIR FactsConv FactsEquiv FactsUnits FactsAbort.
Import ListNotations.
Local Open Scope R_scope.

(** With an efficacy of 1 no run raises AssertionError, in any number system. *)
Theorem C30_efficacy_one_never_asserts : forall (env : Env) parse_unit (s : IR env) m e,
  ir_reachable env parse_unit s -> to_mag env (ir_efficacy env s) u_none = Ok m -> neqb env m (nQ env 1) = true ->
  snd (ir_drive env e s) <> Err AssertionError.
Proof. exact c30_efficacy_one_never_asserts. Qed.
Print Assumptions C30_efficacy_one_never_asserts.

(** Which runs with an efficacy other than 1 abort: parameters positive, the
    timescales and the efficacy given in units without "delta_" symbols.  [U1],
    [U2], [D1], [D2], [Ue] are the units of q1, q2, d1, d2 and the efficacy. *)
Theorem C30_which_units_abort : forall reg parse s p e F,
  ir_setup reg parse s p e F -> (2 <= npoints e)%nat ->
  0 < p_q1 p -> 0 < p_q2 p -> 0 < p_d1 p -> 0 < p_d2 p -> p_d1 p <> p_d2 p -> 0 < p_ieps p -> p_ieps p <> 1 ->
  plain_timescales s ->
  let U1 := units (ir_q1 (xenv reg) s) in let U2 := units (ir_q2 (xenv reg) s) in
  let D1 := units (ir_d1 (xenv reg) s) in let D2 := units (ir_d2 (xenv reg) s) in
  let Ue := units (ir_efficacy (xenv reg) s) in
  let cancels :=
    (same_delta U1 U2 /\ units_eqb (umul U2 Ue) u_CWm2 = true) \/
    (~ same_delta U1 U2 /\ ~ no_delta U2 /\ units_eqb (umul (umul U1 Ue) (udiv D2 D1)) u_CWm2 = true) in
  (cancels -> snd (ir_drive (xenv reg) e s) = Ok tt) /\
  (~ cancels -> snd (ir_drive (xenv reg) e s) = Err AssertionError).
Proof. exact c30_which_units_abort. Qed.
Print Assumptions C30_which_units_abort.

(** q1 and q2 in the same unit [U], the efficacy a plain number: the run
    succeeds iff [U] is the product of symbols delta_degC/(W/m^2). *)
Theorem C30_same_unit : forall reg parse s p e F U,
  ir_setup reg parse s p e F -> (2 <= npoints e)%nat ->
  0 < p_q1 p -> 0 < p_q2 p -> 0 < p_d1 p -> 0 < p_d2 p -> p_d1 p <> p_d2 p -> 0 < p_ieps p -> p_ieps p <> 1 ->
  units (ir_q1 (xenv reg) s) = U -> units (ir_q2 (xenv reg) s) = U -> units (ir_efficacy (xenv reg) s) = u_none ->
  no_delta (units (ir_d1 (xenv reg) s)) -> no_delta (units (ir_d2 (xenv reg) s)) ->
  snd (ir_drive (xenv reg) e s) = if units_eqb U u_CWm2 then Ok tt else Err AssertionError.
Proof. exact c30_same_unit. Qed.
Print Assumptions C30_same_unit.

(** q1 and q2 per kelvin or per delta_degC: the run aborts unless both are per
    delta_degC.  (The constructor and the setters accept all four.) *)
Theorem C30_kelvin_aborts : forall reg parse s p e F,
  ir_setup reg parse s p e F -> (2 <= npoints e)%nat ->
  0 < p_q1 p -> 0 < p_q2 p -> 0 < p_d1 p -> 0 < p_d2 p -> p_d1 p <> p_d2 p -> 0 < p_ieps p -> p_ieps p <> 1 ->
  units (ir_q1 (xenv reg) s) = u_KWm2 \/ units (ir_q1 (xenv reg) s) = u_CWm2 ->
  units (ir_q2 (xenv reg) s) = u_KWm2 \/ units (ir_q2 (xenv reg) s) = u_CWm2 ->
  units (ir_efficacy (xenv reg) s) = u_none -> units (ir_d1 (xenv reg) s) = u_yr -> units (ir_d2 (xenv reg) s) = u_yr ->
  snd (ir_drive (xenv reg) e s) =
    (if units_eqb (units (ir_q1 (xenv reg) s)) u_CWm2 && units_eqb (units (ir_q2 (xenv reg) s)) u_CWm2
     then Ok tt else Err AssertionError).
Proof. exact c30_kelvin_aborts. Qed.
Print Assumptions C30_kelvin_aborts.

(** Models given per kelvin pass the constructor; with efficacy 1 they run. *)
Example C30_case : forall reg parse p F n, convertible_ir p -> exists s e,
  ir_new (xenv reg) (mkIRArgs (xenv reg) (PQ (mkQ (env := xenv reg) (Fin (p_q1 p)) u_KWm2)) (PQ (mkQ (env := xenv reg) (Fin (p_q2 p)) u_KWm2))
    (PQ (mkQ (env := xenv reg) (Fin (p_d1 p)) u_yr)) (PQ (mkQ (env := xenv reg) (Fin (p_d2 p)) u_yr))
    (PQ (mkQ (env := xenv reg) (Fin (p_ieps p)) u_none)) (PQ (mkQ (env := xenv reg) (Fin (p_idt p)) u_yr))) = Ok s /\
  ir_setup reg parse s p e F /\ npoints e = n /\
  units (ir_q1 (xenv reg) s) = u_KWm2 /\ units (ir_q2 (xenv reg) s) = u_KWm2 /\ plain_timescales s /\
  (p_ieps p = 1 -> exists T1 T2 T N, ir_reports reg s e T1 T2 T N) /\
  (p_ieps p <> 1 -> (2 <= n)%nat -> snd (ir_drive (xenv reg) e s) = Err AssertionError).
Proof. exact c30_case. Qed.

(** Whether the constructor accepts the timescales [d1], [d2], in whatever
    units they are given. *)
Theorem C31_constructor : forall reg q1 q2 d1 d2 eps dt p,
  is_qty reg q1 (p_q1 p) u_CWm2 -> is_qty reg q2 (p_q2 p) u_CWm2 -> is_qty reg d1 (p_d1 p) u_yr ->
  is_qty reg d2 (p_d2 p) u_yr -> is_qty reg eps (p_ieps p) u_none -> is_qty reg dt (p_idt p) u_yr ->
  (p_d2 p <= p_d1 p -> ir_new (xenv reg) (mkIRArgs (xenv reg) (PQ q1) (PQ q2) (PQ d1) (PQ d2) (PQ eps) (PQ dt)) = Err ValueError) /\
  (p_d1 p < p_d2 p -> exists s, ir_new (xenv reg) (mkIRArgs (xenv reg) (PQ q1) (PQ q2) (PQ d1) (PQ d2) (PQ eps) (PQ dt)) = Ok s).
Proof. exact c31_constructor. Qed.
Print Assumptions C31_constructor.

(** The setters accept any timescales. *)
Theorem C31_setters_do_not_check : forall reg parse s p q x,
  ir_reachable (xenv reg) parse s -> ir_values reg s p -> is_qty reg q x u_yr ->
  (exists s', ir_set_d1 (xenv reg) (PQ q) s = (s', Ok tt) /\ ir_reachable (xenv reg) parse s' /\
     ir_values reg s' (with_timescales x (p_d2 p) p)) /\
  (exists s', ir_set_d2 (xenv reg) (PQ q) s = (s', Ok tt) /\ ir_reachable (xenv reg) parse s' /\
     ir_values reg s' (with_timescales (p_d1 p) x p)).
Proof. exact c31_setters_do_not_check. Qed.
Print Assumptions C31_setters_do_not_check.

(** Numbering the boxes the other way round describes the same two-layer system. *)
Theorem C31_same_two_layer_system : forall reg s s' p,
  ir_values reg s p -> ir_values reg s' (swap_boxes p) -> convertible_ir (swap_boxes p) ->
  exists r r' lambda0 du dl eta,
    ir_get_two_layer_parameters (xenv reg) s = Ok r /\ ir_get_two_layer_parameters (xenv reg) s' = Ok r' /\
    is_qty reg (tlp_lambda0 _ r) lambda0 u_Wm2C /\ is_qty reg (tlp_lambda0 _ r') lambda0 u_Wm2C /\
    is_qty reg (tlp_du _ r) du u_m /\ is_qty reg (tlp_du _ r') du u_m /\
    is_qty reg (tlp_dl _ r) dl u_m /\ is_qty reg (tlp_dl _ r') dl u_m /\
    is_qty reg (tlp_eta _ r) eta u_Wm2C /\ is_qty reg (tlp_eta _ r') eta u_Wm2C /\
    is_qty reg (tlp_efficacy _ r) (p_ieps p) u_none /\ is_qty reg (tlp_efficacy _ r') (p_ieps p) u_none.
Proof. exact c31_same_two_layer_system. Qed.
Print Assumptions C31_same_two_layer_system.

(** What a model with the order reversed reports: the temperatures are those of
    the properly ordered model, the heat uptake is not. *)
Theorem C31_reversed_heat_uptake : forall reg p, convertible_ir (swap_boxes p) ->
  exists k, 0 < k /\ forall parse s s' e e' F T1 T2 T N T1' T2' T' N',
  ir_setup reg parse s p e F -> ir_setup reg parse s' (swap_boxes p) e' F -> npoints e = npoints e' ->
  (forall t, t = s \/ t = s' ->
     usize reg (units (ir_q1 (xenv reg) t)) = usize reg u_CWm2 /\ usize reg (units (ir_q2 (xenv reg) t)) = usize reg u_CWm2) ->
  ir_reports reg s e T1 T2 T N -> ir_reports reg s' e' T1' T2' T' N' ->
  forall i, (i < npoints e)%nat ->
    T1 i = T2' i /\ T2 i = T1' i /\ T i = T' i /\
    ((S i < npoints e)%nat -> N (S i) = N' (S i) - (p_ieps p - 1) * k * (T1 i - T2 i)).
Proof. exact c31_reversed_heat_uptake. Qed.
Print Assumptions C31_reversed_heat_uptake.

(** Such models exist and run: the order reversed by assigning to d1 after
    construction, with any efficacy other than 1 and q1 <= q2; the reported heat
    uptake differs from that of the properly ordered model. *)
Theorem C31_reversed_order_is_wrong : forall reg parse p,
  convertible_ir (swap_boxes p) -> p_q1 p <= p_q2 p -> 0 < p_idt p -> p_ieps p <> 1 ->
  exists s0 s s' e T1 T2 T N N', 
    ir_new (xenv reg) (mkIRArgs (xenv reg) (PQ (mkQ (env := xenv reg) (Fin (p_q1 p)) u_CWm2)) (PQ (mkQ (env := xenv reg) (Fin (p_q2 p)) u_CWm2))
      (PQ (mkQ (env := xenv reg) (Fin (p_d2 p / 2)) u_yr)) (PQ (mkQ (env := xenv reg) (Fin (p_d2 p)) u_yr))
      (PQ (mkQ (env := xenv reg) (Fin (p_ieps p)) u_none)) (PQ (mkQ (env := xenv reg) (Fin (p_idt p)) u_yr))) = Ok s0 /\
    ir_set_d1 (xenv reg) (PQ (mkQ (env := xenv reg) (Fin (p_d1 p)) u_yr)) s0 = (s, Ok tt) /\
    ir_setup reg parse s p e (fun _ => 1) /\ ir_setup reg parse s' (swap_boxes p) e (fun _ => 1) /\ npoints e = 3%nat /\
    ir_reports reg s e T1 T2 T N /\ ir_reports reg s' e T2 T1 T N' /\ N 2%nat <> N' 2%nat.
Proof. exact c31_reversed_order_is_wrong. Qed.
Print Assumptions C31_reversed_order_is_wrong.

Example C31_case : forall reg,
  let p := mkIRPhys (3/10) (4/10) 400 9 (6/5) 1 in
  convertible_ir (swap_boxes p) /\ p_q1 p <= p_q2 p /\ 0 < p_idt p /\ p_ieps p <> 1 /\
  is_qty reg (mkQ (env := xenv reg) (Fin (p_d1 p)) u_yr) (p_d1 p) u_yr.
Proof. exact c31_case. Qed.

(** ValueError is raised for nothing else: every argument is a quantity with the
    right dimensions and the comparison d1 >= d2 holds (any number system). *)
Theorem C31_value_error_means_order : forall (env : Env) (g : IRArgs env),
  ir_new env g = Err ValueError <->
  (forall p, good_arg env (ir_arg env g p) (ir_param_unit p)) /\
  exists d1 d2, ia_d1 env g = PQ d1 /\ ia_d2 env g = PQ d2 /\ qge env d1 d2 = Ok true.
Proof. exact c31_value_error_means_order. Qed.
Print Assumptions C31_value_error_means_order.
