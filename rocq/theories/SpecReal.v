(** Specification vocabulary for the exact-arithmetic properties: physical
    values of quantities, and the equations of the two models written over the
    real numbers, independently of the code. *)
From Coq Require Import List String QArith Reals Qreals Bool Arith.
From Verif Require Import Arith Pint Base TwoLayer Impulse Scm Api Spec Exact.
Import ListNotations.
Local Open Scope R_scope.

Section Values.
Variable reg : Registry.
Notation E := (xenv reg).

(** [q] is [x] times the unit [u]. *)
Definition is_qty (q : Qty E) (x : R) (u : Units) : Prop :=
  same_dim E (units q) u /\ exists m, mag q = Fin m /\ m * usize reg (units q) = x * usize reg u.

(** The driver series [e] is [F 0, F 1, ...] times the unit [u]. *)
Definition is_series (e : QArr E) (F : nat -> R) (u : Units) : Prop :=
  same_dim E (aunits e) u /\
  forall i x, nth_error (mags e) i = Some x ->
    exists m, x = Fin m /\ m * usize reg (aunits e) = F i * usize reg u.
End Values.

(** Parameters of a two-layer model: depths in m, lambda0 and eta in
    W/m^2/delta_degC, a in W/m^2/delta_degC^2, the timestep in s. *)
Record TLP : Type := mkTLPhys {
  p_du : R; p_dl : R; p_lambda0 : R; p_a : R; p_eps : R; p_eta : R; p_dt : R
}.

(** Parameters of an impulse-response model: q1, q2 in delta_degC/(W/m^2), d1,
    d2 and the timestep in years. *)
Record IRP : Type := mkIRPhys {
  p_q1 : R; p_q2 : R; p_d1 : R; p_d2 : R; p_ieps : R; p_idt : R
}.

Section Runs.
Variable reg : Registry.
Notation E := (xenv reg).

Definition tl_values (s : TL E) (p : TLP) : Prop :=
  is_qty reg (tl_du E s) (p_du p) u_m /\ is_qty reg (tl_dl E s) (p_dl p) u_m /\
  is_qty reg (tl_lambda0 E s) (p_lambda0 p) u_Wm2C /\ is_qty reg (tl_a E s) (p_a p) u_Wm2C2 /\
  is_qty reg (tl_efficacy E s) (p_eps p) u_none /\ is_qty reg (tl_eta E s) (p_eta p) u_Wm2C /\
  is_qty reg (tl_delta_t E s) (p_dt p) u_s.

Definition ir_values (s : IR E) (p : IRP) : Prop :=
  is_qty reg (ir_q1 E s) (p_q1 p) u_CWm2 /\ is_qty reg (ir_q2 E s) (p_q2 p) u_CWm2 /\
  is_qty reg (ir_d1 E s) (p_d1 p) u_yr /\ is_qty reg (ir_d2 E s) (p_d2 p) u_yr /\
  is_qty reg (ir_efficacy E s) (p_ieps p) u_none /\ is_qty reg (ir_delta_t E s) (p_idt p) u_yr.

(** Number of entries of a driver series. *)
Definition npoints (e : QArr E) : nat := List.length (mags e).

(** The first [n] values of [f]. *)
Definition first_values (n : nat) (f : nat -> R) : list (num E) := map (fun i => Fin (f i)) (seq 0 n).

(** [set_drivers(e); reset(); run()] succeeds and the model reports the
    temperatures [T], [TD] and the heat uptake [N]. *)
Definition tl_reports (s : TL E) (e : QArr E) (T TD N : nat -> R) : Prop :=
  exists s', tl_drive E e s = (s', Ok tt) /\
    tl_outputs E s' =
      [("Surface Temperature|Upper", "delta_degC", first_values (npoints e) T);
       ("Surface Temperature|Lower", "delta_degC", first_values (npoints e) TD);
       ("Heat Uptake", "W/m^2", first_values (npoints e) N)]%string.

(** The same for the impulse-response model with box temperatures [T1], [T2]
    and surface temperature [T]. *)
Definition ir_reports (s : IR E) (e : QArr E) (T1 T2 T N : nat -> R) : Prop :=
  exists s', ir_drive E e s = (s', Ok tt) /\
    ir_outputs E s' =
      [("Surface Temperature|Box 1", "delta_degC", first_values (npoints e) T1);
       ("Surface Temperature|Box 2", "delta_degC", first_values (npoints e) T2);
       ("Surface Temperature", "delta_degC", first_values (npoints e) T);
       ("Heat Uptake", "W/m^2", first_values (npoints e) N)]%string.

(** The temperatures only (the heat uptake may be non-finite). *)
Definition tl_reports_temps (s : TL E) (e : QArr E) (T TD : nat -> R) : Prop :=
  exists s' N, tl_drive E e s = (s', Ok tt) /\
    tl_outputs E s' =
      [("Surface Temperature|Upper", "delta_degC", first_values (npoints e) T);
       ("Surface Temperature|Lower", "delta_degC", first_values (npoints e) TD);
       ("Heat Uptake", "W/m^2", N)]%string.
End Runs.
Arguments npoints {reg} e.

(** ** The two-layer equations (Held et al. 2010, Bloch-Johnson et al. 2015)

    C dT/dt = F - (lambda0 - a T) T - eps eta (T - TD),
    C_D dTD/dt = eta (T - TD). *)

(** Heat capacity per area of [d] metres of water, J/m^2/delta_degC: density
    1000 kg/m^3, specific heat 4181 J/kg/delta_degC. *)
Definition water_capacity (d : R) : R := 1000 * 4181 * d.
Definition p_C (p : TLP) : R := water_capacity (p_du p).
Definition p_CD (p : TLP) : R := water_capacity (p_dl p).

Definition dT_dt (p : TLP) (F T TD : R) : R :=
  (F - (p_lambda0 p - p_a p * T) * T - p_eps p * p_eta p * (T - TD)) / p_C p.
Definition dTD_dt (p : TLP) (T TD : R) : R :=
  p_eta p * (T - TD) / p_CD p.

(** Forward Euler iterates from (0,0). *)
Fixpoint euler (p : TLP) (F : nat -> R) (n : nat) : R * R :=
  match n with
  | O => (0, 0)
  | S k => let (T, TD) := euler p F k in
           (T + p_dt p * dT_dt p (F k) T TD, TD + p_dt p * dTD_dt p T TD)
  end.

(** ** The impulse-response equations d_i dT_i/dt = q_i F - T_i *)

(** Value after time [t] from [T0] when the forcing is held at [F]. *)
Definition box_solution (q d F T0 t : R) : R := T0 * exp (- t / d) + q * F * (1 - exp (- t / d)).

(** Box temperatures when the forcing is held at [F 0], [F 1], ... for one
    timestep each, from zero. *)
Fixpoint box_run (q d dt : R) (F : nat -> R) (n : nat) : R :=
  match n with
  | O => 0
  | S k => box_solution q d (F k) (box_run q d dt F k) dt
  end.

(** Positive parameters without state-dependent feedback. *)
Definition positive_tl (p : TLP) : Prop :=
  0 < p_du p /\ 0 < p_dl p /\ 0 < p_lambda0 p /\ p_a p = 0 /\ 0 < p_eps p /\ 0 < p_eta p /\ 0 < p_dt p.

(** A model the user built and used in any way ([parse] is the unit parser of
    the registry), its present parameter values [p], and a driver series [e]
    with values [F] in W/m^2. *)
Definition tl_setup (reg : Registry) (parse : string -> option (Qty (xenv reg))) (s : TL (xenv reg)) (p : TLP)
  (e : QArr (xenv reg)) (F : nat -> R) : Prop :=
  tl_reachable (xenv reg) parse s /\ tl_values reg s p /\ is_series reg e F u_Wm2.
Definition ir_setup (reg : Registry) (parse : string -> option (Qty (xenv reg))) (s : IR (xenv reg)) (p : IRP)
  (e : QArr (xenv reg)) (F : nat -> R) : Prop :=
  ir_reachable (xenv reg) parse s /\ ir_values reg s p /\ is_series reg e F u_Wm2.

(** The step-size condition. *)
Definition small_step (p : TLP) : Prop :=
  p_dt p * (p_lambda0 p + p_eps p * p_eta p) <= p_C p /\ p_dt p * p_eta p <= p_CD p.

(** The driver series [e] with [k] zeros put in front. *)
Definition delayed {reg : Registry} (k : nat) (e : QArr (xenv reg)) : QArr (xenv reg) :=
  mkQA (env := xenv reg) (repeat (Fin 0) k ++ mags e) (aunits e).
(** The series [f] delayed by [k] entries, zero before. *)
Definition shift (k : nat) (f : nat -> R) (i : nat) : R := if (i <? k)%nat then 0 else f (i - k)%nat.
(** The driver series [e] with every entry repeated [k] times. *)
Definition stretched {reg : Registry} (k : nat) (e : QArr (xenv reg)) : QArr (xenv reg) :=
  mkQA (env := xenv reg) (flat_map (fun x => repeat x k) (mags e)) (aunits e).

(** [T], [TD] are what every run under the constant forcing [F] reports, of any length. *)
Definition constant_forcing_response (reg : Registry) (p : TLP) (F : R) (T TD N : nat -> R) : Prop :=
  forall parse s e, tl_setup reg parse s p e (fun _ => F) -> tl_reports reg s e T TD N.
(** The same for the impulse-response model [s]. *)
Definition ir_constant_forcing_response (reg : Registry) (s : IR (xenv reg)) (F : R) (T1 T2 T N : nat -> R) : Prop :=
  forall e, is_series reg e (fun _ => F) u_Wm2 -> ir_reports reg s e T1 T2 T N.

(** [y] solves d dT/dt = q F - T between times 0 and [dt] (in either direction),
    the forcing held at [F], from the value [T0]. *)
Definition box_ode (q d F T0 dt : R) (y : R -> R) : Prop :=
  y 0 = T0 /\ forall t, Rmin 0 dt <= t <= Rmax 0 dt -> derivable_pt_lim y t ((q * F - y t) / d).

(** Positive sensitivities, timescales and timestep. *)
Definition positive_ir (p : IRP) : Prop :=
  0 < p_q1 p /\ 0 < p_q2 p /\ 0 < p_d1 p /\ 0 < p_d2 p /\ 0 < p_idt p.

(** Positive two-layer parameters without state-dependent feedback (the
    timestep does not matter). *)
Definition convertible_tl (p : TLP) : Prop :=
  0 < p_du p /\ 0 < p_dl p /\ 0 < p_lambda0 p /\ p_a p = 0 /\ 0 < p_eps p /\ 0 < p_eta p.
(** Positive impulse-response parameters, the first timescale the shorter one. *)
Definition convertible_ir (p : IRP) : Prop :=
  0 < p_q1 p /\ 0 < p_q2 p /\ 0 < p_d1 p /\ p_d1 p < p_d2 p /\ 0 < p_ieps p.

(** Geoffroy et al. (2013), Table 1: relations between the two-layer parameters
    and the fast and slow timescales, the ratios [phi] of deep to surface
    temperature in each mode and the weights [a] of the modes. *)
Definition geoffroy_relations (C CD lam eps eta b bs delta tau1 tau2 phi1 phi2 a1 a2 : R) : Prop :=
  b = (lam + eps * eta) / C + eta / CD /\ bs = (lam + eps * eta) / C - eta / CD /\
  delta = b * b - 4 * (lam * eta / (C * CD)) /\ 0 < delta /\
  0 < tau1 /\ tau1 < tau2 /\ phi1 < 0 /\ 0 < phi2 /\ 0 < a1 /\ 0 < a2 /\
  tau1 * tau2 = C * CD / (lam * eta) /\ tau1 + tau2 = C * CD / (lam * eta) * b /\
  phi1 * phi2 = - C / (eps * CD) /\ phi1 + phi2 = C / (eps * eta) * bs /\
  C + phi1 * eps * CD = lam * tau1 /\ C + phi2 * eps * CD = lam * tau2 /\
  a1 + a2 = 1 /\ a1 / tau1 + a2 / tau2 = lam / C /\
  a1 * tau1 + a2 * tau2 = (C + eps * CD) / lam /\ a1 * tau2 + a2 * tau1 = CD / eta /\
  phi1 * a1 + phi2 * a2 = 1 /\ phi1 * a1 / tau1 + phi2 * a2 / tau2 = 0.

(** Arguments of [ImpulseResponseModel(..., delta_t=dt)] from the dictionary
    [get_impulse_response_parameters] returns, and of
    [TwoLayerModel(..., a=a, delta_t=dt)] from that of [get_two_layer_parameters]. *)
Definition ir_args_of {reg : Registry} (r : IRParams (xenv reg)) (dt : Qty (xenv reg)) : IRArgs (xenv reg) :=
  mkIRArgs _ (PQ (irp_q1 _ r)) (PQ (irp_q2 _ r)) (PQ (irp_d1 _ r)) (PQ (irp_d2 _ r)) (PQ (irp_efficacy _ r)) (PQ dt).
Definition tl_args_of {reg : Registry} (r : TLParams (xenv reg)) (a dt : Qty (xenv reg)) : TLArgs (xenv reg) :=
  mkTLArgs _ (PQ (tlp_du _ r)) (PQ (tlp_dl _ r)) (PQ (tlp_lambda0 _ r)) (PQ a) (PQ (tlp_efficacy _ r)) (PQ (tlp_eta _ r)) (PQ dt).

(** The discriminant of the two-layer system. *)
Definition discriminant (p : TLP) : R :=
  ((p_lambda0 p + p_eps p * p_eta p) / p_C p + p_eta p / p_CD p) *
  ((p_lambda0 p + p_eps p * p_eta p) / p_C p + p_eta p / p_CD p) -
  4 * (p_lambda0 p * p_eta p / (p_C p * p_CD p)).

(** ** Continuous-time equations under a forcing that is any function of time *)

(** [y] starts at zero, is continuous, and solves d dy/dt = q F - y for t > 0. *)
Definition box_forced (q d : R) (F y : R -> R) : Prop :=
  y 0 = 0 /\ (forall t, 0 <= t -> continuity_pt y t) /\
  forall t, 0 < t -> derivable_pt_lim y t ((q * F t - y t) / d).
(** [T], [TD] start at zero, are continuous, and solve the two-layer equations for t > 0. *)
Definition two_layer_forced (p : TLP) (F T TD : R -> R) : Prop :=
  T 0 = 0 /\ TD 0 = 0 /\ (forall t, 0 <= t -> continuity_pt T t /\ continuity_pt TD t) /\
  forall t, 0 < t -> derivable_pt_lim T t (dT_dt p (F t) (T t) (TD t)) /\
                     derivable_pt_lim TD t (dTD_dt p (T t) (TD t)).

(** The five parameters are given in the documented units (as products of
    symbols; two_layer_model.py:26-33). *)
Definition documented_units {reg : Registry} (s : TL (xenv reg)) : Prop :=
  units_eqb (units (tl_du _ s)) u_m = true /\ units_eqb (units (tl_dl _ s)) u_m = true /\
  units_eqb (units (tl_lambda0 _ s)) u_Wm2C = true /\ units_eqb (units (tl_efficacy _ s)) u_none = true /\
  units_eqb (units (tl_eta _ s)) u_Wm2C = true.

(** pint treats unit symbols starting with "delta_" specially. *)
Definition no_delta (u : Units) : Prop :=
  forall s, String.prefix "delta_" s = true -> (expo u s == 0)%Q.
Definition same_delta (u v : Units) : Prop :=
  forall s, String.prefix "delta_" s = true -> (expo u s == expo v s)%Q.
(** The parameters in units of time without "delta_" symbols. *)
Definition plain_timescales {reg : Registry} (s : IR (xenv reg)) : Prop :=
  no_delta (units (ir_d1 _ s)) /\ no_delta (units (ir_d2 _ s)) /\ no_delta (units (ir_efficacy _ s)).

(** kelvin/(W/m^2). *)
Definition u_KWm2 : Units := [(sK, 1%Q); (sW, (-1)%Q); (sm, 2%Q)].

(** The same two boxes, numbered the other way round. *)
Definition swap_boxes (p : IRP) : IRP :=
  mkIRPhys (p_q2 p) (p_q1 p) (p_d2 p) (p_d1 p) (p_ieps p) (p_idt p).
(** The timescales replaced. *)
Definition with_timescales (d1 d2 : R) (p : IRP) : IRP :=
  mkIRPhys (p_q1 p) (p_q2 p) d1 d2 (p_ieps p) (p_idt p).

(** Other units of time, heat and temperature: all times are multiplied by [k],
    all fluxes by [c], all temperatures by [m]. *)
Definition scaled_tl (k c m : R) (p : TLP) : TLP :=
  mkTLPhys (k * c / m * p_du p) (k * c / m * p_dl p) (c / m * p_lambda0 p) (c / (m * m) * p_a p)
    (p_eps p) (c / m * p_eta p) (k * p_dt p).
Definition scaled_ir (k c m : R) (p : IRP) : IRP :=
  mkIRPhys (m / c * p_q1 p) (m / c * p_q2 p) (k * p_d1 p) (k * p_d2 p) (p_ieps p) (k * p_idt p).
