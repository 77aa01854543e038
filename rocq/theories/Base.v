(** base.py: unit check, Geoffroy helper parameters; constants.py. *)
From Coq Require Import List String QArith Bool Arith.
From Verif Require Import Arith Pint.
Import ListNotations.

Section Base.
Variable env : Env.
Notation num := (num env).
Notation Qty := (Qty env).

(** constants.py:6  [DENSITY_WATER = 1000 * ur("kg/m^3")] *)
Definition DENSITY_WATER : Qty := mkQty env 1000 u_kgm3.
(** constants.py:9  [HEAT_CAPACITY_WATER = 4181 * ur("J/delta_degC/kg")] *)
Definition HEAT_CAPACITY_WATER : Qty := mkQty env 4181 u_JCkg.

(** base.py:29-37 [Model._assert_is_pint_quantity_with_units]; the [Ok] result
    carries the quantity so that callers need not match again. *)
Definition assert_quantity (v : PyVal env) (u : Units) : Res Qty :=
  match v with
  | POther => Err TypeError
  | PQ q => match to_mag env q u with
            | Err DimensionalityError => Err UnitError
            | Err e => Err e
            | Ok _ => Ok q
            end
  end.

(** Same check for an array quantity (used by the [erf] setter). (base.py:29-37, 110.) *)
Definition assert_quantity_arr (v : option (QArr env)) (u : Units) : Res (QArr env) :=
  match v with
  | None => Err TypeError
  | Some q => match to_mags env q u with
              | Err DimensionalityError => Err UnitError
              | Err e => Err e
              | Ok _ => Ok q
              end
  end.

(** The dictionary returned by [_calculate_geoffroy_helper_parameters]. (base.py:302-314.) *)
Record Geoffroy : Type := mkG {
  g_C : Qty; g_CD : Qty; g_b : Qty; g_bstar : Qty; g_delta : Qty;
  g_tau1 : Qty; g_tau2 : Qty; g_phi1 : Qty; g_phi2 : Qty;
  g_a1 : Qty; g_a2 : Qty
}.

(** base.py:276-314 [_calculate_geoffroy_helper_parameters], statement by
    statement.  [delta ** 0.5] occurs four times in the source (lines 289-294); it is
    the same value each time and evaluated once here. *)
Definition geoffroy (du dl lambda0 efficacy eta : Qty) : Res Geoffroy :=
  let C := qmul env (qmul env du HEAT_CAPACITY_WATER) DENSITY_WATER in
  let C_D := qmul env (qmul env dl HEAT_CAPACITY_WATER) DENSITY_WATER in
  do le <- qadd env lambda0 (qmul env efficacy eta);
  do b_pt1 <- qdiv env le C;
  do b_pt2 <- qdiv env eta C_D;
  do b <- qadd env b_pt1 b_pt2;
  do b_star <- qsub env b_pt1 b_pt2;
  do d4 <- qdiv env (qmul env (qscale env (nQ env 4) lambda0) eta) (qmul env C C_D);
  do delta <- qsub env (qsq env b) d4;
  do taucoeff <- qdiv env (qmul env C C_D) (qmul env (qscale env (nQ env 2) lambda0) eta);
  do rdelta <- qsqrt env delta;
  do bm <- qsub env b rdelta;
  let tau1 := qmul env taucoeff bm in
  do bp <- qadd env b rdelta;
  let tau2 := qmul env taucoeff bp in
  do phicoeff <- qdiv env C (qmul env (qscale env (nQ env 2) efficacy) eta);
  do sm_ <- qsub env b_star rdelta;
  let phi1 := qmul env phicoeff sm_ in
  do sp_ <- qadd env b_star rdelta;
  let phi2 := qmul env phicoeff sp_ in
  do dphi <- qsub env phi2 phi1;
  let adenom := qmul env C dphi in
  do a1 <- qdiv env (qmul env (qmul env tau1 phi2) lambda0) adenom;
  do a2 <- qdiv env (qmul env (qmul env (qneg env tau2) phi1) lambda0) adenom;
  Ok (mkG C C_D b b_star delta tau1 tau2 phi1 phi2 a1 a2).

End Base.

Arguments g_C {env} _.
Arguments g_CD {env} _.
Arguments g_b {env} _.
Arguments g_bstar {env} _.
Arguments g_delta {env} _.
Arguments g_tau1 {env} _.
Arguments g_tau2 {env} _.
Arguments g_phi1 {env} _.
Arguments g_phi2 {env} _.
Arguments g_a1 {env} _.
Arguments g_a2 {env} _.
