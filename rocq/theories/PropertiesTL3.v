(** Generated by tools/gen_props.py from FactsTL3.v: the property theorems. *)
From Coq Require Import List String QArith Reals Qreals Bool Arith Lra Lia Psatz.
From Verif Require Import Arith Pint Base TwoLayer Impulse Scm Api Spec Exact SpecReal
  GenTL GenTLHist GenMeta RealUnits RealTL RealGeo RealConv RealIR RealModels RealEuler FactsTL FactsTL2 FactsTL3.
Import ListNotations.
Local Open Scope R_scope.

(** From any non-negative constant forcing the model warms monotonically,
    the lower layer behind the upper one, to the smallest non-negative root,
    for either sign of the state dependence. *)
Theorem C41_settles_at_the_smallest_root : forall reg p F T TD N r,
  constant_forcing_response reg p F T TD N ->
  0 < p_du p -> 0 < p_dl p -> 0 < p_dt p -> 0 <= p_eps p -> 0 < p_eta p -> 0 <= F ->
  0 <= r -> p_a p * (r * r) - p_lambda0 p * r + F = 0 ->
  (forall x, 0 <= x < r -> p_a p * (x * x) - p_lambda0 p * x + F <> 0) ->
  p_dt p * (p_lambda0 p + 2 * Rmax 0 (- p_a p) * r + p_eps p * p_eta p) <= p_C p -> p_dt p * p_eta p <= p_CD p ->
  (forall i, 0 <= TD i /\ TD i <= T i /\ T i <= r /\ T i <= T (S i) /\ TD i <= TD (S i)) /\
  Un_cv T r /\ Un_cv TD r /\ Un_cv N 0.
Proof. exact c41_settles_at_the_smallest_root. Qed.
Print Assumptions C41_settles_at_the_smallest_root.

(** Up to the threshold (4 a F <= lambda0^2) with destabilising feedback. *)
Theorem C41_settles_below_threshold : forall reg p F T TD N,
  constant_forcing_response reg p F T TD N ->
  0 < p_du p -> 0 < p_dl p -> 0 < p_dt p -> 0 <= p_eps p -> 0 < p_eta p -> 0 < p_lambda0 p -> 0 < p_a p -> small_step p ->
  0 <= F -> 4 * p_a p * F <= p_lambda0 p * p_lambda0 p ->
  let r := (p_lambda0 p - sqrt (p_lambda0 p * p_lambda0 p - 4 * p_a p * F)) / (2 * p_a p) in
  Un_cv T r /\ Un_cv TD r /\ Un_cv N 0.
Proof. exact c41_settles_below_threshold. Qed.
Print Assumptions C41_settles_below_threshold.

Example C41_case_below : forall reg, exists T TD N,
  constant_forcing_response reg (mkTLPhys 50 1200 (5/4) (1/20) 1 (4/5) 31557600) 5 T TD N /\ Un_cv T 5.
Proof. exact c41_case_below. Qed.

Theorem C46_two_layer_similarity : forall reg parse s s' p e e' F k c m T TD N,
  k <> 0 -> c <> 0 -> m <> 0 ->
  tl_setup reg parse s p e F -> tl_reports reg s e T TD N ->
  tl_setup reg parse s' (scaled_tl k c m p) e' (fun i => c * F i) -> npoints e' = npoints e ->
  tl_reports reg s' e' (fun i => m * T i) (fun i => m * TD i) (fun i => c * N i).
Proof. exact c46_two_layer_similarity. Qed.
Print Assumptions C46_two_layer_similarity.

Example C46_case : forall reg parse, exists s e s' e' T TD N,
  tl_setup reg parse s ex_tl e (fun i => INR i) /\ npoints e = 4%nat /\ tl_reports reg s e T TD N /\
  tl_setup reg parse s' (scaled_tl 2 3 5 ex_tl) e' (fun i => 3 * INR i) /\ npoints e' = 4%nat.
Proof. exact c46_case. Qed.

(** Under rising forcing both layers warm, the lower one behind the upper one,
    never beyond the equilibrium of the present forcing, and take up heat. *)
Theorem C47_two_layer_warming : forall reg parse s p e F T TD N,
  tl_setup reg parse s p e F -> tl_reports reg s e T TD N -> positive_tl p -> small_step p ->
  0 <= F 0%nat -> (forall i, (S i < npoints e)%nat -> F i <= F (S i)) ->
  (forall i, (i < npoints e)%nat -> 0 <= TD i /\ TD i <= T i /\ 0 <= N i) /\
  (forall i, (S i < npoints e)%nat -> T i <= T (S i) /\ TD i <= TD (S i) /\ T (S i) <= F i / p_lambda0 p).
Proof. exact c47_two_layer_warming. Qed.
Print Assumptions C47_two_layer_warming.

Example C47_case : forall reg parse, exists s e T TD N,
  tl_setup reg parse s ex_tl e (fun i => INR i) /\ npoints e = 4%nat /\ tl_reports reg s e T TD N /\
  positive_tl ex_tl /\ small_step ex_tl /\ (forall i, INR i <= INR (S i)) /\ 0 < N 2%nat.
Proof. exact c47_case. Qed.
