(** Generated by tools/gen_props.py from FactsTL.v: the property theorems. *)
From Coq Require Import List String QArith Reals Qreals Bool Arith Lra Lia Psatz.
From Verif Require Import Arith Pint Base TwoLayer Impulse Scm Api Spec Exact SpecReal
  GenTL GenTLHist GenMeta RealUnits RealTL RealGeo RealConv RealIR RealModels RealEuler FactsTL.
Import ListNotations.
Local Open Scope R_scope.

Theorem C10_forward_euler : forall reg parse s p e F,
  tl_setup reg parse s p e F -> p_du p <> 0 -> p_dl p <> 0 ->
  tl_reports_temps reg s e (fun i => fst (euler p F i)) (fun i => snd (euler p F i)).
Proof. exact c10_forward_euler. Qed.
Print Assumptions C10_forward_euler.

(** The heat capacities the model shows are those of the two depths of water. *)
Theorem C10_heat_capacities : forall reg parse s p e F,
  tl_setup reg parse s p e F ->
  is_qty reg (tl_heat_capacity_upper (xenv reg) s) (p_C p) u_JCm2 /\
  is_qty reg (tl_heat_capacity_lower (xenv reg) s) (p_CD p) u_JCm2.
Proof. exact c10_heat_capacities. Qed.
Print Assumptions C10_heat_capacities.

(** The numbers combined in a step are in consistent units: W/m^2 times s per
    J/m^2/delta_degC is delta_degC, and feedbacks times temperatures are W/m^2. *)
Theorem C10_units_are_consistent : forall reg,
  let unit_is u v := same_dim (xenv reg) u v /\ usize reg u = usize reg v in
  unit_is (udiv (umul u_Wm2 u_s) u_JCm2) u_dC /\
  unit_is (umul u_Wm2C u_dC) u_Wm2 /\
  unit_is (umul (umul u_Wm2C2 u_dC) u_dC) u_Wm2.
Proof. exact c10_units_are_consistent. Qed.
Print Assumptions C10_units_are_consistent.

(** A layer of depth zero gives non-finite temperatures from the second entry on. *)
Theorem C10_zero_depth_is_not_finite : forall reg parse s p e F T TD,
  tl_setup reg parse s p e F -> (2 <= npoints e)%nat -> p_du p = 0 \/ p_dl p = 0 ->
  ~ tl_reports_temps reg s e T TD.
Proof. exact c10_zero_depth_is_not_finite. Qed.
Print Assumptions C10_zero_depth_is_not_finite.

Example C10_case : forall reg parse, exists s e,
  tl_setup reg parse s ex_tl e (fun i => INR i) /\ npoints e = 4%nat /\
  tl_reports_temps reg s e (fun i => fst (euler ex_tl (fun i => INR i) i)) (fun i => snd (euler ex_tl (fun i => INR i) i)) /\
  0 < fst (euler ex_tl (fun i => INR i) 2).
Proof. exact c10_case. Qed.

Theorem C11_heat_uptake_is_reported : forall reg parse s p e F,
  tl_setup reg parse s p e F -> p_du p <> 0 -> p_dl p <> 0 -> p_dt p <> 0 ->
  exists T TD N, tl_reports reg s e T TD N.
Proof. exact c11_heat_uptake_is_reported. Qed.
Print Assumptions C11_heat_uptake_is_reported.

Theorem C11_energy_balance : forall reg parse s p e F T TD N,
  tl_setup reg parse s p e F -> tl_reports reg s e T TD N ->
  ((0 < npoints e)%nat -> N 0%nat = 0) /\
  forall i, (S i < npoints e)%nat ->
    N (S i) = F i - (p_lambda0 p - p_a p * T i) * T i - (p_eps p - 1) * p_eta p * (T i - TD i).
Proof. exact c11_energy_balance. Qed.
Print Assumptions C11_energy_balance.

Theorem C11_efficacy_1_is_top_of_atmosphere : forall reg parse s p e F T TD N,
  tl_setup reg parse s p e F -> tl_reports reg s e T TD N -> p_eps p = 1 -> p_a p = 0 ->
  forall i, (S i < npoints e)%nat -> N (S i) = F i - p_lambda0 p * T i.
Proof. exact c11_efficacy_1_is_top_of_atmosphere. Qed.
Print Assumptions C11_efficacy_1_is_top_of_atmosphere.

Example C11_case : forall reg parse, exists s e T TD N,
  tl_setup reg parse s (mkTLPhys 50 1200 (5/4) (1/20) (6/5) (4/5) 31557600) e (fun _ => 4) /\ npoints e = 3%nat /\
  tl_reports reg s e T TD N /\ 0 < N 2%nat < 4.
Proof. exact c11_case. Qed.

Theorem C12_no_heat_is_lost : forall reg parse s p e F T TD N,
  tl_setup reg parse s p e F -> tl_reports reg s e T TD N ->
  forall i, (i < npoints e)%nat ->
    p_dt p * sum_f_R0 N i = p_C p * T i + p_CD p * TD i.
Proof. exact c12_no_heat_is_lost. Qed.
Print Assumptions C12_no_heat_is_lost.

Example C12_case : forall reg parse, exists s e T TD N,
  tl_setup reg parse s ex_tl e (fun _ => 4) /\ npoints e = 3%nat /\ tl_reports reg s e T TD N /\
  p_dt ex_tl * (N 0%nat + N 1%nat + N 2%nat) = p_C ex_tl * T 2%nat + p_CD ex_tl * TD 2%nat /\ 0 < TD 2%nat.
Proof. exact c12_case. Qed.

Theorem C13_linear_in_the_forcing : forall reg parse p s1 s2 s3 e1 e2 e3 F G c1 c2 T1 TD1 N1 T2 TD2 N2,
  p_a p = 0 ->
  tl_setup reg parse s1 p e1 F -> tl_setup reg parse s2 p e2 G ->
  tl_setup reg parse s3 p e3 (fun i => c1 * F i + c2 * G i) ->
  npoints e1 = npoints e3 -> npoints e2 = npoints e3 ->
  tl_reports reg s1 e1 T1 TD1 N1 -> tl_reports reg s2 e2 T2 TD2 N2 ->
  tl_reports reg s3 e3 (fun i => c1 * T1 i + c2 * T2 i) (fun i => c1 * TD1 i + c2 * TD2 i)
    (fun i => c1 * N1 i + c2 * N2 i).
Proof. exact c13_linear_in_the_forcing. Qed.
Print Assumptions C13_linear_in_the_forcing.

(** With state-dependent feedback it fails: doubling the forcing triples the
    third temperature. *)
Theorem C13_fails_with_state_dependence : forall reg parse, exists p s e e2 T TD N T2 TD2 N2,
  p_a p = 1 /\ tl_setup reg parse s p e (fun _ => 1) /\ tl_setup reg parse s p e2 (fun _ => 2 * 1) /\
  npoints e = 3%nat /\ npoints e2 = 3%nat /\
  tl_reports reg s e T TD N /\ tl_reports reg s e2 T2 TD2 N2 /\ T 2%nat = 2 /\ T2 2%nat = 6.
Proof. exact c13_fails_with_state_dependence. Qed.
Print Assumptions C13_fails_with_state_dependence.

Example C13_case : forall reg parse, exists s1 s2 s3 e1 e2 e3 T1 TD1 N1 T2 TD2 N2,
  tl_setup reg parse s1 ex_tl e1 (fun i => INR i) /\ tl_setup reg parse s2 ex_tl e2 (fun _ => 1) /\
  tl_setup reg parse s3 ex_tl e3 (fun i => 2 * INR i + -3 * 1) /\
  npoints e1 = 5%nat /\ npoints e2 = 5%nat /\ npoints e3 = 5%nat /\
  tl_reports reg s1 e1 T1 TD1 N1 /\ tl_reports reg s2 e2 T2 TD2 N2.
Proof. exact c13_case. Qed.

Theorem C16_sign_under_step_condition : forall reg parse s p e F T TD N,
  tl_setup reg parse s p e F -> tl_reports reg s e T TD N -> positive_tl p -> small_step p ->
  (forall i, (i < npoints e)%nat -> 0 <= F i) ->
  forall i, (i < npoints e)%nat -> 0 <= T i /\ 0 <= TD i.
Proof. exact c16_sign_under_step_condition. Qed.
Print Assumptions C16_sign_under_step_condition.

Theorem C16_monotone_under_step_condition : forall reg parse s s' p e e' F G T TD N T' TD' N',
  tl_setup reg parse s p e F -> tl_setup reg parse s' p e' G -> npoints e = npoints e' ->
  tl_reports reg s e T TD N -> tl_reports reg s' e' T' TD' N' ->
  positive_tl p -> small_step p ->
  (forall i, (i < npoints e)%nat -> F i <= G i) ->
  forall i, (i < npoints e)%nat -> T i <= T' i /\ TD i <= TD' i.
Proof. exact c16_monotone_under_step_condition. Qed.
Print Assumptions C16_monotone_under_step_condition.

Theorem C16_bounded_under_step_condition : forall reg parse s p e F T TD N M,
  tl_setup reg parse s p e F -> tl_reports reg s e T TD N -> positive_tl p -> small_step p ->
  (forall i, (i < npoints e)%nat -> Rabs (F i) <= M) ->
  forall i, (i < npoints e)%nat -> Rabs (T i) <= M / p_lambda0 p /\ Rabs (TD i) <= M / p_lambda0 p.
Proof. exact c16_bounded_under_step_condition. Qed.
Print Assumptions C16_bounded_under_step_condition.

(** Nothing in the code enforces the condition: with these parameters and a
    ten-year step a single positive forcing value gives a negative temperature. *)
Theorem C16_fails_without_it : forall reg parse, exists p s e F T TD N,
  positive_tl p /\ tl_setup reg parse s p e F /\ npoints e = 3%nat /\ (forall i, 0 <= F i) /\
  tl_reports reg s e T TD N /\ T 2%nat < 0.
Proof. exact c16_fails_without_it. Qed.
Print Assumptions C16_fails_without_it.

Example C16_case : positive_tl ex_tl /\ small_step ex_tl /\
  forall reg parse, exists s e T TD N,
    tl_setup reg parse s ex_tl e (fun i => INR i) /\ npoints e = 4%nat /\ tl_reports reg s e T TD N /\ 0 < T 2%nat.
Proof. exact c16_case. Qed.

Theorem C39_no_exchange_is_one_layer : forall reg parse s p e F T TD N,
  tl_setup reg parse s p e F -> tl_reports reg s e T TD N -> p_eta p = 0 ->
  (forall i, (i < npoints e)%nat -> TD i = 0) /\
  ((0 < npoints e)%nat -> T 0%nat = 0) /\
  (forall i, (S i < npoints e)%nat ->
     T (S i) = T i + p_dt p * ((F i - (p_lambda0 p - p_a p * T i) * T i) / p_C p)).
Proof. exact c39_no_exchange_is_one_layer. Qed.
Print Assumptions C39_no_exchange_is_one_layer.

Theorem C39_deep_lower_layer_bound : forall reg parse s p e F T TD N B,
  tl_setup reg parse s p e F -> tl_reports reg s e T TD N ->
  0 < p_dl p -> 0 <= p_eta p -> 0 <= p_dt p -> p_dt p * p_eta p <= p_CD p ->
  (forall i, (i < npoints e)%nat -> Rabs (T i) <= B) ->
  forall i, (i < npoints e)%nat -> Rabs (TD i) <= INR i * (p_dt p * p_eta p * B / p_CD p).
Proof. exact c39_deep_lower_layer_bound. Qed.
Print Assumptions C39_deep_lower_layer_bound.

(** As the lower layer gets deeper (all else fixed) its temperature tends to 0
    over any fixed number of steps, uniformly in the forcing. *)
Theorem C39_deep_lower_layer_limit : forall du lambda0 eps eta dt M n tol,
  0 < du -> 0 < lambda0 -> 0 < eps -> 0 < eta -> 0 < dt -> 0 < tol ->
  dt * (lambda0 + eps * eta) <= water_capacity du ->
  exists depth, 0 < depth /\ forall dl, depth <= dl ->
    forall reg parse s e F T TD N,
    tl_setup reg parse s (mkTLPhys du dl lambda0 0 eps eta dt) e F -> tl_reports reg s e T TD N ->
    (npoints e <= n)%nat -> (forall i, (i < npoints e)%nat -> Rabs (F i) <= M) ->
    forall i, (i < npoints e)%nat -> Rabs (TD i) <= tol.
Proof. exact c39_deep_lower_layer_limit. Qed.
Print Assumptions C39_deep_lower_layer_limit.

Example C39_case : forall reg parse, exists s e T TD N,
  tl_setup reg parse s (mkTLPhys 50 1200 (5/4) (1/20) 1 0 31557600) e (fun _ => 4) /\ npoints e = 3%nat /\
  tl_reports reg s e T TD N /\ 0 < T 2%nat.
Proof. exact c39_case. Qed.

Theorem C40_efficacy_not_identifiable : forall reg parse p k s s' e e' F T TD,
  k <> 0 ->
  tl_setup reg parse s p e F ->
  tl_setup reg parse s' (mkTLPhys (p_du p) (p_dl p / k) (p_lambda0 p) (p_a p) (k * p_eps p) (p_eta p / k) (p_dt p)) e' F ->
  npoints e = npoints e' -> p_du p <> 0 -> p_dl p <> 0 ->
  tl_reports_temps reg s e T TD -> tl_reports_temps reg s' e' T TD.
Proof. exact c40_efficacy_not_identifiable. Qed.
Print Assumptions C40_efficacy_not_identifiable.

Example C40_case : forall reg parse, exists s s' e T TD,
  tl_setup reg parse s ex_tl e (fun i => INR i) /\
  tl_setup reg parse s' (mkTLPhys 50 (1200 / 2) (5/4) 0 (2 * 1) (4/5/2) 31557600) e (fun i => INR i) /\
  npoints e = 4%nat /\ tl_reports_temps reg s e T TD /\ 0 < TD 3%nat.
Proof. exact c40_case. Qed.
