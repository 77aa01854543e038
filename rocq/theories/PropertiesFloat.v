(** Generated by tools/gen_props.py from FactsFloat.v: the property theorems. *)
From Coq Require Import List String QArith Reals Bool Arith Lra Lia Psatz.
From Flocq Require Import Core IEEE754.BinarySingleNaN.
From Verif Require Import Arith Pint Base TwoLayer Impulse Scm Api Spec Demo Float SpecRound FloatTL FloatRun FloatBox
  GenTL GenTLHist GenIR GenIRHist FactsRun FactsFloat.
Import ListNotations.
Local Open Scope R_scope.

(** One step of a two-layer run, from any finite moderate entries. *)
Theorem C44_two_layer_step : forall bexp nd sd rf parse s c e F U L N,
  let E := fenv bexp nd sd rf in
  tl_reachable E parse s -> tl_numbers bexp nd sd rf s c -> moderate_tl c -> reads_series bexp nd sd rf e F ->
  tl_gives bexp nd sd rf s e U L N ->
  forall i (T TD : b64), nth_error U i = Some T -> nth_error L i = Some TD -> (S i < List.length (mags e))%nat ->
    is_finite T = true -> is_finite TD = true -> moderate (B2R T) -> moderate (B2R TD) -> moderate (F i) ->
    exists T' TD' : b64, nth_error U (S i) = Some T' /\ nth_error L (S i) = Some TD' /\
      is_finite T' = true /\ is_finite TD' = true /\
      Rabs (B2R T' - exact_upper c (F i) (B2R T) (B2R TD)) <= half 49 * (upper_size c (F i) (B2R T) (B2R TD) + half 400) /\
      Rabs (B2R TD' - exact_lower c (B2R T) (B2R TD)) <= half 49 * (lower_size c (B2R T) (B2R TD) + half 400).
Proof. exact c44_two_layer_step. Qed.
Print Assumptions C44_two_layer_step.

(** A whole stable run: the errors stay below bounds in which the length of the
    run does not appear; [M] bounds the equilibrium temperatures. *)
Theorem C44_two_layer_run : forall bexp nd sd rf parse s c e F M,
  let E := fenv bexp nd sd rf in
  tl_reachable E parse s -> tl_numbers bexp nd sd rf s c -> moderate_tl c -> reads_series bexp nd sd rf e F ->
  stable_tl c -> half 46 * (1 + theta c) <= damping c ->
  half 400 <= M -> moderate (2 * M) -> moderate (n_lambda0 c * M) ->
  (forall i, (i < List.length (mags e))%nat -> Rabs (F i) <= n_lambda0 c * M) ->
  exists U L N, tl_gives bexp nd sd rf s e U L N /\
    close_series bexp nd sd rf U (fun i => fst (exact_run c F i)) (half 46 * M / damping c) /\
    close_series bexp nd sd rf L (fun i => snd (exact_run c F i)) ((1 + theta c) * (half 46 * M / damping c)) /\
    (moderate_divisor (n_dt c) ->
     close_series bexp nd sd rf N (exact_uptakes c F)
       (half 44 * ((n_C c + n_CD c) / n_dt c) * ((1 + theta c) * M / damping c))).
Proof. exact c44_two_layer_run. Qed.
Print Assumptions C44_two_layer_run.

(** One step of an impulse-response run; box 2 likewise. *)
Theorem C44_impulse_response_step : forall bexp nd sd rf parse s q1 d1 q2 d2 dt e F T1 T2 T N,
  let E := fenv bexp nd sd rf in
  good_exp bexp -> ir_reachable E parse s -> ir_numbers bexp nd sd rf s q1 d1 q2 d2 dt -> reads_series bexp nd sd rf e F ->
  ir_gives bexp nd sd rf s e T1 T2 T N ->
  0 <= dt -> 0 < d1 -> 0 < d2 -> moderate dt -> moderate q1 -> moderate q2 -> moderate_divisor d1 -> moderate_divisor d2 ->
  let step_ok q d (X : list (num E)) :=
    forall i (t : b64), nth_error X i = Some (t : num E) -> (S i < List.length (mags e))%nat ->
      is_finite t = true -> moderate (B2R t) -> moderate (F i) ->
      exists t' : b64, nth_error X (S i) = Some (t' : num E) /\ is_finite t' = true /\
        Rabs (B2R t' - exact_box q d dt (F i) (B2R t)) <= half 49 * (Rabs (B2R t) + Rabs (F i) * Rabs q + half 400) in
  step_ok q1 d1 T1 /\ step_ok q2 d2 T2.
Proof. exact c44_impulse_response_step. Qed.
Print Assumptions C44_impulse_response_step.

(** A whole impulse-response run. *)
Theorem C44_impulse_response_run : forall bexp nd sd rf parse s q1 d1 q2 d2 dt e F T1 T2 T N M,
  let E := fenv bexp nd sd rf in
  good_exp bexp -> ir_reachable E parse s -> ir_numbers bexp nd sd rf s q1 d1 q2 d2 dt -> reads_series bexp nd sd rf e F ->
  ir_gives bexp nd sd rf s e T1 T2 T N ->
  0 <= dt -> 0 < d1 -> 0 < d2 -> moderate dt -> moderate q1 -> moderate q2 -> moderate_divisor d1 -> moderate_divisor d2 ->
  half 46 <= 1 - exp (- dt / d1) -> half 46 <= 1 - exp (- dt / d2) ->
  half 400 <= M -> moderate (2 * M) ->
  (forall i, (i < List.length (mags e))%nat -> moderate (F i) /\ Rabs (F i) * Rabs q1 <= M /\ Rabs (F i) * Rabs q2 <= M) ->
  close_series bexp nd sd rf T1 (exact_boxes q1 d1 dt F) (half 46 * M / (1 - exp (- dt / d1))) /\
  close_series bexp nd sd rf T2 (exact_boxes q2 d2 dt F) (half 46 * M / (1 - exp (- dt / d2))) /\
  close_series bexp nd sd rf T (fun i => exact_boxes q1 d1 dt F i + exact_boxes q2 d2 dt F i)
    (half 45 * M / (1 - exp (- dt / d1)) + half 45 * M / (1 - exp (- dt / d2))).
Proof. exact c44_impulse_response_run. Qed.
Print Assumptions C44_impulse_response_run.

Example C44_two_layer_case : forall bexp parse, exists s,
  tl_reachable (fenv bexp 4 demo_dim frf) parse s /\ tl_numbers bexp 4 demo_dim frf s fcase_c /\
  moderate_tl fcase_c /\ moderate_divisor (n_dt fcase_c) /\
  reads_series bexp 4 demo_dim frf (fcase_erf bexp) fcase_F /\ List.length (mags (fcase_erf bexp)) = 3%nat /\
  stable_tl fcase_c /\ half 46 * (1 + theta fcase_c) <= damping fcase_c /\ half 400 <= 4 /\ moderate (2 * 4) /\
  moderate (n_lambda0 fcase_c * 4) /\ (forall i, Rabs (fcase_F i) <= n_lambda0 fcase_c * 4) /\
  0 < snd (exact_run fcase_c fcase_F 2).
Proof. exact c44_two_layer_case. Qed.

Example C44_impulse_response_case : forall parse, exists s T1 T2 T N,
  good_exp floor_exp /\ ir_reachable (fenv floor_exp 4 demo_dim frf) parse s /\
  ir_numbers floor_exp 4 demo_dim frf s (1/4) 8 (1/2) 256 1 /\
  reads_series floor_exp 4 demo_dim frf (fcase_erf floor_exp) fcase_F /\
  ir_gives floor_exp 4 demo_dim frf s (fcase_erf floor_exp) T1 T2 T N /\
  moderate 1 /\ moderate (1/4) /\ moderate (1/2) /\ moderate_divisor 8 /\ moderate_divisor 256 /\
  half 46 <= 1 - exp (- (1) / 8) /\ half 46 <= 1 - exp (- (1) / 256) /\ half 400 <= 4 /\ moderate (2 * 4) /\
  (forall i, moderate (fcase_F i) /\ Rabs (fcase_F i) * Rabs (1/4) <= 4 /\ Rabs (fcase_F i) * Rabs (1/2) <= 4).
Proof. exact c44_impulse_response_case. Qed.
