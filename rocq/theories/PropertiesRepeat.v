(** Generated by tools/gen_props.py from FactsRepeat.v: the property theorems. *)
From Coq Require Import List String ZArith QArith Reals Lra Lia Bool Arith.
From Flocq Require Import Core IEEE754.BinarySingleNaN.
From Verif Require Import Arith Pint Base TwoLayer Impulse Scm Api Spec GenTL GenIR GenIRHist Float FloatRun SpecRound SpecExact FloatSym FloatExact FactsRun FactsFloat FactsExact SpecRepeat GenRepeat Demo FactsRepeat.
Import ListNotations.
Local Open Scope R_scope.

(** Two-layer model, any parameters: a forcing that repeats itself after [m]
    steps gives results that from some index on repeat themselves, after a
    multiple of [m] steps, bit by bit (also infinities and NaN).  The index and
    the number of steps do not depend on the length of the run. *)
Theorem C64_two_layer_repeats : forall bexp nd sd rf s f u m,
  (0 < m)%nat -> repeats m f ->
  exists N k, (0 < k)%nat /\ (Z.of_nat (N + k * m) <= 2 ^ 130 * Z.of_nat m + 1)%Z /\
    forall n U L R, tl_gives bexp nd sd rf s (first bexp nd sd rf n f u) U L R ->
      repeats_from bexp nd sd rf N (k * m) U /\ repeats_from bexp nd sd rf N (k * m) L /\ repeats_from bexp nd sd rf N (k * m) R.
Proof. exact c64_two_layer_repeats. Qed.
Print Assumptions C64_two_layer_repeats.

(** Impulse-response model, any parameters. *)
Theorem C64_impulse_response_repeats : forall bexp nd sd rf s f u m,
  (0 < m)%nat -> repeats m f ->
  exists N k, (0 < k)%nat /\ (Z.of_nat (N + k * m) <= 2 ^ 130 * Z.of_nat m + 1)%Z /\
    forall n T1 T2 T R, ir_gives bexp nd sd rf s (first bexp nd sd rf n f u) T1 T2 T R ->
      repeats_from bexp nd sd rf N (k * m) T1 /\ repeats_from bexp nd sd rf N (k * m) T2 /\
      repeats_from bexp nd sd rf N (k * m) T /\ repeats_from bexp nd sd rf N (k * m) R.
Proof. exact c64_impulse_response_repeats. Qed.
Print Assumptions C64_impulse_response_repeats.

Theorem C64_impulse_response_settles : forall bexp nd sd rf parse s q1 d1 q2 d2 dt x u,
  unit_exp bexp -> ir_reachable (fenv bexp nd sd rf) parse s -> ir_numbers bexp nd sd rf s q1 d1 q2 d2 dt ->
  0 <= dt -> 0 < d1 -> 0 < d2 ->
  exists N, (Z.of_nat N <= 2 ^ 130)%Z /\
    forall n T1 T2 T R, ir_gives bexp nd sd rf s (first bexp nd sd rf n (fun _ => x) u) T1 T2 T R ->
      forall X, In X [T1; T2; T; R] -> forall i j (y z : b64), (N <= i)%nat -> (i <= j)%nat ->
        nth_error X i = Some (y : num (fenv bexp nd sd rf)) -> nth_error X j = Some (z : num (fenv bexp nd sd rf)) -> same y z.
Proof. exact c64_impulse_response_settles. Qed.
Print Assumptions C64_impulse_response_settles.

Example C64_two_layer_case : forall bexp parse, exists s, tl_reachable (fenv bexp 4 demo_dim frf) parse s /\ repeats 2 swing /\ swing 1%nat <> swing 0%nat /\
  forall n, exists U L R, tl_gives bexp 4 demo_dim frf s (first bexp 4 demo_dim frf n swing u_Wm2) U L R /\ List.length U = n.
Proof. exact c64_two_layer_case. Qed.

Example C64_impulse_response_case : forall parse, exists s,
  unit_exp floor_exp /\ ir_reachable (fenv floor_exp 4 demo_dim frf) parse s /\ ir_numbers floor_exp 4 demo_dim frf s (1/4) 8 (1/2) 256 1 /\
  forall n, exists T1 T2 T R, ir_gives floor_exp 4 demo_dim frf s (first floor_exp 4 demo_dim frf n (fun _ => b64_of_Q 4) u_Wm2) T1 T2 T R /\
    List.length T1 = n.
Proof. exact c64_impulse_response_case. Qed.
