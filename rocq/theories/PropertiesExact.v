(** Generated by tools/gen_props.py from FactsExact.v: the property theorems. *)
From Coq Require Import List String QArith Reals Bool Arith Lra Lia.
From Flocq Require Import Core IEEE754.BinarySingleNaN.
From Verif Require Import Arith Pint Base TwoLayer Impulse Scm Api Spec Demo Float SpecRound SpecExact FloatTL FloatRun FloatBox FloatSym FloatExact
  GenTL GenTLHist GenIR GenIRHist FactsRun FactsFloat FactsExact.
Import ListNotations.
Local Open Scope R_scope.

(** Without state-dependent feedback ([a = 0]) the opposite forcing gives the opposite outputs. *)
Theorem C56_two_layer_sign : forall bexp nd sd rf parse s e,
  let E := fenv bexp nd sd rf in
  tl_reachable E parse s -> reads bexp nd sd rf (tl_a E s) u_Wm2C2 0 ->
  snd (tl_drive E (negated bexp nd sd rf e) s) = snd (tl_drive E e s) /\
  forall U L N, tl_gives bexp nd sd rf s e U L N ->
  exists U' L' N', tl_gives bexp nd sd rf s (negated bexp nd sd rf e) U' L' N' /\
    same_series bexp nd sd rf U' (opposite bexp nd sd rf U) /\ same_series bexp nd sd rf L' (opposite bexp nd sd rf L) /\
    same_series bexp nd sd rf N' (opposite bexp nd sd rf N).
Proof. exact c56_two_layer_sign. Qed.
Print Assumptions C56_two_layer_sign.

(** The impulse-response model: for all parameters, including runs that fail. *)
Theorem C56_impulse_response_sign : forall bexp nd sd rf s e,
  let E := fenv bexp nd sd rf in
  snd (ir_drive E (negated bexp nd sd rf e) s) = snd (ir_drive E e s) /\
  forall T1 T2 T N, ir_gives bexp nd sd rf s e T1 T2 T N ->
  exists T1' T2' T' N', ir_gives bexp nd sd rf s (negated bexp nd sd rf e) T1' T2' T' N' /\
    same_series bexp nd sd rf T1' (opposite bexp nd sd rf T1) /\ same_series bexp nd sd rf T2' (opposite bexp nd sd rf T2) /\
    same_series bexp nd sd rf T' (opposite bexp nd sd rf T) /\ same_series bexp nd sd rf N' (opposite bexp nd sd rf N).
Proof. exact c56_impulse_response_sign. Qed.
Print Assumptions C56_impulse_response_sign.

(** Zeros in front of the forcing put as many zeros in front of the outputs and change nothing else. *)
Theorem C56_two_layer_leading_zeros : forall bexp nd sd rf parse s c k e F U L N,
  let E := fenv bexp nd sd rf in
  tl_reachable E parse s -> tl_numbers bexp nd sd rf s c -> moderate_tl c ->
  reads_series bexp nd sd rf (delayed bexp nd sd rf k e) F -> tl_gives bexp nd sd rf s e U L N ->
  exists U' L' N', tl_gives bexp nd sd rf s (delayed bexp nd sd rf k e) U' L' N' /\
    same_series bexp nd sd rf U' (zeros bexp nd sd rf k ++ U) /\ same_series bexp nd sd rf L' (zeros bexp nd sd rf k ++ L) /\
    (n_dt c <> 0 -> same_series bexp nd sd rf N' (zeros bexp nd sd rf k ++ N)).
Proof. exact c56_two_layer_leading_zeros. Qed.
Print Assumptions C56_two_layer_leading_zeros.

Theorem C56_impulse_response_leading_zeros : forall bexp nd sd rf parse s q1 d1 q2 d2 dt k e F T1 T2 T N T1' T2' T' N',
  let E := fenv bexp nd sd rf in
  unit_exp bexp -> ir_reachable E parse s -> ir_numbers bexp nd sd rf s q1 d1 q2 d2 dt -> 0 <= dt -> 0 < d1 -> 0 < d2 ->
  reads_series bexp nd sd rf (delayed bexp nd sd rf k e) F ->
  ir_gives bexp nd sd rf s e T1 T2 T N -> ir_gives bexp nd sd rf s (delayed bexp nd sd rf k e) T1' T2' T' N' ->
  same_series bexp nd sd rf T1' (zeros bexp nd sd rf k ++ T1) /\ same_series bexp nd sd rf T2' (zeros bexp nd sd rf k ++ T2) /\
  same_series bexp nd sd rf T' (zeros bexp nd sd rf k ++ T) /\
  (forall i (z : b64), (i <= k)%nat -> nth_error N' i = Some (z : num E) -> is_finite z = true -> is_zero z) /\
  (forall i (x : b64), nth_error N (S i) = Some (x : num E) ->
     exists y : b64, nth_error N' (k + S i) = Some (y : num E) /\ same x y).
Proof. exact c56_impulse_response_leading_zeros. Qed.
Print Assumptions C56_impulse_response_leading_zeros.

(** A forcing that is nowhere larger gives temperatures that are nowhere larger. *)
Theorem C56_impulse_response_order : forall bexp nd sd rf parse s q1 d1 q2 d2 dt e F e' F' T1 T2 T N T1' T2' T' N',
  let E := fenv bexp nd sd rf in
  unit_exp bexp -> ir_reachable E parse s -> ir_numbers bexp nd sd rf s q1 d1 q2 d2 dt -> 0 <= dt -> 0 < d1 -> 0 < d2 ->
  0 <= q1 -> 0 <= q2 ->
  reads_series bexp nd sd rf e F -> reads_series bexp nd sd rf e' F' ->
  (forall i, (i < List.length (mags e))%nat -> (i < List.length (mags e'))%nat -> F i <= F' i) ->
  ir_gives bexp nd sd rf s e T1 T2 T N -> ir_gives bexp nd sd rf s e' T1' T2' T' N' ->
  below bexp nd sd rf T1 T1' /\ below bexp nd sd rf T2 T2' /\ below bexp nd sd rf T T'.
Proof. exact c56_impulse_response_order. Qed.
Print Assumptions C56_impulse_response_order.

(** A forcing that starts at zero or above and never decreases gives temperatures that never decrease. *)
Theorem C56_impulse_response_rise : forall bexp nd sd rf parse s q1 d1 q2 d2 dt e F T1 T2 T N,
  let E := fenv bexp nd sd rf in
  unit_exp bexp -> ir_reachable E parse s -> ir_numbers bexp nd sd rf s q1 d1 q2 d2 dt -> 0 <= dt -> 0 < d1 -> 0 < d2 ->
  0 <= q1 -> 0 <= q2 -> reads_series bexp nd sd rf e F ->
  0 <= F O -> (forall i, (S i < List.length (mags e))%nat -> F i <= F (S i)) ->
  ir_gives bexp nd sd rf s e T1 T2 T N ->
  let rises (X : list (num E)) := forall i (x y : b64), nth_error X i = Some (x : num E) -> nth_error X (S i) = Some (y : num E) ->
    is_finite y = true -> is_finite x = true /\ 0 <= B2R x <= B2R y in
  rises T1 /\ rises T2 /\ rises T.
Proof. exact c56_impulse_response_rise. Qed.
Print Assumptions C56_impulse_response_rise.

Example C56_two_layer_case : forall bexp parse, exists s U L N,
  tl_reachable (fenv bexp 4 demo_dim frf) parse s /\ reads bexp 4 demo_dim frf (tl_a _ s) u_Wm2C2 0 /\
  tl_numbers bexp 4 demo_dim frf s fcase_c /\ moderate_tl fcase_c /\ n_dt fcase_c <> 0 /\
  reads_series bexp 4 demo_dim frf (delayed bexp 4 demo_dim frf 2 (fcase_erf bexp)) (later 2 fcase_F) /\
  tl_gives bexp 4 demo_dim frf s (fcase_erf bexp) U L N /\ List.length U = 3%nat.
Proof. exact c56_two_layer_case. Qed.

Example C56_impulse_response_case : forall parse, exists s T1 T2 T N T1' T2' T' N' U1 U2 U R,
  unit_exp floor_exp /\ ir_reachable (fenv floor_exp 4 demo_dim frf) parse s /\
  ir_numbers floor_exp 4 demo_dim frf s (1/4) 8 (1/2) 256 1 /\
  reads_series floor_exp 4 demo_dim frf (fcase_erf floor_exp) fcase_F /\
  reads_series floor_exp 4 demo_dim frf (delayed floor_exp 4 demo_dim frf 2 (fcase_erf floor_exp)) (later 2 fcase_F) /\
  reads_series floor_exp 4 demo_dim frf rise_erf rise_F /\
  (forall i, fcase_F i <= rise_F i) /\ 0 <= rise_F 0 /\ (forall i, rise_F i <= rise_F (S i)) /\
  ir_gives floor_exp 4 demo_dim frf s (fcase_erf floor_exp) T1 T2 T N /\
  ir_gives floor_exp 4 demo_dim frf s (delayed floor_exp 4 demo_dim frf 2 (fcase_erf floor_exp)) T1' T2' T' N' /\
  ir_gives floor_exp 4 demo_dim frf s rise_erf U1 U2 U R.
Proof. exact c56_impulse_response_case. Qed.
