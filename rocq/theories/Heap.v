(** The models over a heap of numpy arrays: which array objects the code
    shares with its caller, and which it allocates itself.

    [TwoLayer.v] and [Impulse.v] treat arrays as values.  Here every array is a
    heap cell and an array quantity is an object that points to one, so that
    "the caller writes into its own array after [set_drivers]" and "two models
    driven by the same quantity" have a meaning.  The parameters are scalar
    quantities with immutable magnitudes and stay values. *)
From Coq Require Import List String QArith Bool Arith.
From Verif Require Import Arith Pint Base TwoLayer Impulse Scm Api.
Import ListNotations.
Local Open Scope nat_scope.

Section Heap.
Variable env : Env.
Variable parse_unit : string -> option (Qty env).
Notation num := (num env).

(** A numpy array object.  [c_public]: the caller can reach it (it made it, or
    it is the magnitude of a quantity it made or can get from [model.erf]). *)
Record Cell : Type := mkCell { c_public : bool; c_vals : list num }.
(** A [pint.Quantity] object with an array magnitude: the array's address and
    the units.  Quantity objects and arrays are addressed separately. *)
Record QObj : Type := mkQObj { q_arr : nat; q_units : Units }.
(** numpy arrays and pint quantities alive in the Python process. *)
Record Heap : Type := mkHeap { h_arrs : list Cell; h_qtys : list QObj }.

(** Contents of the array at an address ([[]] for a dangling address, which no
    reachable world contains). (numpy.) *)
Definition harr (h : Heap) (a : nat) : list num :=
  match nth_error (h_arrs h) a with Some c => c_vals c | None => [] end.
(** Whether the Python caller can reach the array. *)
Definition hpublic (h : Heap) (a : nat) : bool :=
  match nth_error (h_arrs h) a with Some c => c_public c | None => false end.
(** A quantity object as a value. (pint.) *)
Definition hqty (h : Heap) (q : nat) : QArr env :=
  match nth_error (h_qtys h) q with
  | Some o => mkQA (harr h (q_arr o)) (q_units o)
  | None => mkQA [] []
  end.
(** Overwriting the contents of an existing array. (numpy.) *)
Definition hstore (h : Heap) (a : nat) (l : list num) : Heap :=
  mkHeap (upd (h_arrs h) a (mkCell (hpublic h a) l)) (h_qtys h).
(** Allocation of an array, of a quantity. (numpy.) *)
Definition halloc (h : Heap) (pub : bool) (l : list num) : Heap :=
  mkHeap (h_arrs h ++ [mkCell pub l]) (h_qtys h).
(** pint. *)
Definition hnewq (h : Heap) (a : nat) (u : Units) : Heap :=
  mkHeap (h_arrs h) (h_qtys h ++ [mkQObj a u]).

(** A model object: the attributes that are not arrays are those of [o_s]
    (whose array fields are never looked at); [o_erf] is the quantity object
    [self._erf] ([None]: the initial NaN array), [o_erf_mag] the array
    [self._erf_mag], and [o_r1], [o_r2], [o_r3] the three result arrays
    ([_temp_upper_mag], [_temp_lower_mag], [_rndt_mag] of the two-layer model,
    [_temp1_mag], [_temp2_mag], [_rndt_mag] of the impulse-response model). (two_layer_model.py:66-78, impulse_response_model.py:71-85.) *)
Record HObj (S : Type) : Type := mkHObj {
  o_s : S; o_erf : option nat; o_erf_mag : option nat;
  o_r1 : nat; o_r2 : nat; o_r3 : nat
}.
Arguments mkHObj {S}. Arguments o_s {S}. Arguments o_erf {S}. Arguments o_erf_mag {S}.
Arguments o_r1 {S}. Arguments o_r2 {S}. Arguments o_r3 {S}.

(** The two classes differ in their scalar attributes only: [m_fill] puts
    arrays into a state, [m_noidx] is [self._timestep_idx = np.nan]. (two_layer_model.py:193, impulse_response_model.py:164.) *)
Record Class : Type := mkClass {
  m_state : Type;
  m_fill : m_state -> option (QArr env) -> option (list num) ->
           list num -> list num -> list num -> m_state;
  m_noidx : m_state -> m_state
}.

(** The object's attributes with the arrays read from the heap. (Python attribute reads.) *)
Definition view (C : Class) (h : Heap) (o : HObj (m_state C)) : m_state C :=
  m_fill C (o_s o) (option_map (hqty h) (o_erf o)) (option_map (harr h) (o_erf_mag o))
    (harr h (o_r1 o)) (harr h (o_r2 o)) (harr h (o_r3 o)).

Section Methods.
Variable C : Class.
Notation S := (m_state C).
Notation HM := (Meth (Heap * HObj S)).

(** As [view]. *)
Definition wview (w : Heap * HObj S) : S := view C (fst w) (snd w).

(** Assignment to one attribute. (Python.) *)
Definition put_s (x : S) (o : HObj S) := mkHObj x (o_erf o) (o_erf_mag o) (o_r1 o) (o_r2 o) (o_r3 o).
(** base.py:111. *)
Definition put_erf x (o : HObj S) := mkHObj (o_s o) x (o_erf_mag o) (o_r1 o) (o_r2 o) (o_r3 o).
(** base.py:112. *)
Definition put_erf_mag x (o : HObj S) := mkHObj (o_s o) (o_erf o) x (o_r1 o) (o_r2 o) (o_r3 o).
(** two_layer_model.py:194, impulse_response_model.py:165. *)
Definition put_r1 x (o : HObj S) := mkHObj (o_s o) (o_erf o) (o_erf_mag o) x (o_r2 o) (o_r3 o).
(** two_layer_model.py:195, impulse_response_model.py:166. *)
Definition put_r2 x (o : HObj S) := mkHObj (o_s o) (o_erf o) (o_erf_mag o) (o_r1 o) x (o_r3 o).
(** two_layer_model.py:196, impulse_response_model.py:167. *)
Definition put_r3 x (o : HObj S) := mkHObj (o_s o) (o_erf o) (o_erf_mag o) (o_r1 o) (o_r2 o) x.

(** Assignment to attributes of the object. (Python.) *)
Definition omod (f : HObj S -> HObj S) : HM unit := mmod (fun w => (fst w, f (snd w))).
(** A method body that touches scalar attributes only. (Python.) *)
Definition olift {A} (m : Meth S A) : HM A :=
  fun w => match m (o_s (snd w)) with
           | (s, r) => ((fst w, put_s s (snd w)), r)
           end.
(** A new array / quantity object. (numpy, pint.) *)
Definition onew (pub : bool) (l : list num) : HM nat :=
  fun w => ((halloc (fst w) pub l, snd w), Ok (List.length (h_arrs (fst w)))).
(** pint. *)
Definition onewq (a : nat) (u : Units) : HM nat :=
  fun w => ((hnewq (fst w) a u, snd w), Ok (List.length (h_qtys (fst w)))).
(** [arr[i] = v] for the array an attribute points to. (two_layer_model.py:210-243, impulse_response_model.py:181-207.) *)
Definition oput (sel : HObj S -> nat) (i : nat) (v : num) : HM unit :=
  mdo l <- mread (fun w => lset (harr (fst w) (sel (snd w))) i v);
  mmod (fun w => (hstore (fst w) (sel (snd w)) l, snd w)).

(** base.py:108-112 [erf] setter.  [val.to(unit).magnitude] is [val]'s own
    array if the units are the same (UnitRegistry.convert returns its argument)
    and a new array otherwise. *)
Definition h_set_erf (v : option nat) : HM unit :=
  match v with
  | None => mraise TypeError
  | Some q =>
      mread (fun w => assert_quantity_arr env (Some (hqty (fst w) q)) u_Wm2) ;;
      omod (put_erf (Some q)) ;;
      mdo m <- mread (fun w => to_mags env (hqty (fst w) q) u_Wm2);
      mdo shared <- mread (fun w => Ok (match nth_error (h_qtys (fst w)) q with
                                        | Some k => if units_eqb (q_units k) u_Wm2 then Some (q_arr k) else None
                                        | None => None
                                        end));
      mdo a <- (match shared with Some a => mret a | None => onew false m end);
      omod (put_erf_mag (Some a))
  end.

(** [set_drivers(...)] on a quantity object, or on a newly built argument. (base.py:114-133.) *)
Inductive HErfArg : Type := HQ (q : nat) | HNew (e : ErfArg env).

(** [values * ur(unit)]: a new array and a new quantity. (base.py:241.) *)
Definition h_build (q : QArr env) : HM nat :=
  mdo a <- onew true (mags q); onewq a (aunits q).

(** base.py:114-133 [set_drivers] *)
Definition h_set_drivers (e : HErfArg) : HM unit :=
  match e with
  | HQ q => h_set_erf (Some q)
  | HNew ENoShape => mraise AttributeError
  | HNew (EQnot1 _) | HNew EArrNot1 => mraise AssertionError
  | HNew EArr1 => h_set_erf None
  | HNew (EQ1 q) => mdo a <- h_build q; h_set_erf (Some a)
  end.

(** two_layer_model.py:186-196 and impulse_response_model.py:157-167 [_reset]:
    each [np.zeros_like(self._erf_mag) * np.nan] is a new array. *)
Definition h_reset : HM unit :=
  mdo isnan <- mread (fun w => Ok (match o_erf (snd w) with
                                   | None => true
                                   | Some q => existsb (nisnan env) (mags (hqty (fst w) q))
                                   end));
  if isnan then mraise ModelStateError
  else
    omod (fun o => put_s (m_noidx C (o_s o)) o) ;;
    mdo m <- mread (fun w => match o_erf_mag (snd w) with
                             | None => Err AttributeError
                             | Some a => Ok (harr (fst w) a)
                             end);
    let nans := map (fun _ => nnan env) m in
    mdo a1 <- onew false nans; omod (put_r1 a1) ;;
    mdo a2 <- onew false nans; omod (put_r2 a2) ;;
    mdo a3 <- onew false nans; omod (put_r3 a3).

(** Number of elements iterated over by [for _ in self.erf]. (two_layer_model.py:199, impulse_response_model.py:170.) *)
Definition h_erf_len (w : Heap * HObj S) : nat :=
  match o_erf (snd w) with None => 1 | Some q => List.length (mags (hqty (fst w) q)) end.

(** [__init__] (two_layer_model.py:66-78, impulse_response_model.py:71-85):
    the body up to the arrays, then three new arrays of one NaN. *)
Definition h_new (init : Res S) (h : Heap) : Heap * Res (HObj S) :=
  match init with
  | Err e => (h, Err e)
  | Ok s =>
      let n := List.length (h_arrs h) in
      (halloc (halloc (halloc h false [nnan env]) false [nnan env]) false [nnan env],
       Ok (mkHObj s None None n (n + 1) (n + 2)))
  end.
End Methods.

(** *** TwoLayerModel (two_layer_model.py:66-78.) *)
Definition tl_class : Class :=
  mkClass (TL env)
    (fun s e m u l r => mkTL env (tl_du env s) (tl_dl env s) (tl_lambda0 env s) (tl_a env s)
       (tl_efficacy env s) (tl_eta env s) (tl_delta_t env s)
       (tl_du_mag env s) (tl_dl_mag env s) (tl_lambda0_mag env s) (tl_a_mag env s)
       (tl_efficacy_mag env s) (tl_eta_mag env s) (tl_delta_t_mag env s)
       (tl_hcu_mag env s) (tl_hcl_mag env s) e m u l r (tl_idx env s))
    (fun s => mkTL env (tl_du env s) (tl_dl env s) (tl_lambda0 env s) (tl_a env s)
       (tl_efficacy env s) (tl_eta env s) (tl_delta_t env s)
       (tl_du_mag env s) (tl_dl_mag env s) (tl_lambda0_mag env s) (tl_a_mag env s)
       (tl_efficacy_mag env s) (tl_eta_mag env s) (tl_delta_t_mag env s)
       (tl_hcu_mag env s) (tl_hcl_mag env s) (tl_erf env s) (tl_erf_mag env s)
       (tl_temp_upper env s) (tl_temp_lower env s) (tl_rndt env s) None).
Notation TLW := (Heap * HObj (TL env))%type.
Notation tview := (wview tl_class).

(** two_layer_model.py:205-243: as [tl_step_at], reading and writing the heap. *)
Definition h_tl_step_at (i : nat) : Meth TLW unit :=
  match i with
  | O =>
      oput tl_class o_r1 O (nQ env 0) ;;
      oput tl_class o_r2 O (nQ env 0) ;;
      oput tl_class o_r3 O (nQ env 0)
  | S j =>
      mdo tu <- mread (fun w : TLW => let s := tview w in
        do t_upper <- lget (tl_temp_upper env s) j;
        do t_lower <- lget (tl_temp_lower env s) j;
        do erf <- tl_erf_at env s j;
        Ok (calculate_next_temp_upper env (tl_delta_t_mag env s) t_upper t_lower erf
              (tl_lambda0_mag env s) (tl_a_mag env s) (tl_efficacy_mag env s) (tl_eta_mag env s)
              (tl_hcu_mag env s)));
      oput tl_class o_r1 (S j) tu ;;
      mdo tl <- mread (fun w : TLW => let s := tview w in
        do t_lower <- lget (tl_temp_lower env s) j;
        do t_upper <- lget (tl_temp_upper env s) j;
        Ok (calculate_next_temp_lower env (tl_delta_t_mag env s) t_lower t_upper
              (tl_eta_mag env s) (tl_hcl_mag env s)));
      oput tl_class o_r2 (S j) tl ;;
      mdo r <- mread (fun w : TLW => let s := tview w in
        do t_lower_now <- lget (tl_temp_lower env s) (S j);
        do t_lower_prev <- lget (tl_temp_lower env s) j;
        do t_upper_now <- lget (tl_temp_upper env s) (S j);
        do t_upper_prev <- lget (tl_temp_upper env s) j;
        Ok (calculate_next_rndt env (tl_delta_t_mag env s) t_lower_now t_lower_prev (tl_hcl_mag env s)
              t_upper_now t_upper_prev (tl_hcu_mag env s)));
      oput tl_class o_r3 (S j) r
  end.

(** Advancing [_timestep_idx] (two_layer_model.py:203-204); a scalar attribute. *)
Definition tl_advance : Meth (TL env) nat :=
  fun s =>
    let i := match tl_idx env s with None => 0 | Some i => Datatypes.S i end in
    (mkTL env (tl_du env s) (tl_dl env s) (tl_lambda0 env s) (tl_a env s)
       (tl_efficacy env s) (tl_eta env s) (tl_delta_t env s)
       (tl_du_mag env s) (tl_dl_mag env s) (tl_lambda0_mag env s) (tl_a_mag env s)
       (tl_efficacy_mag env s) (tl_eta_mag env s) (tl_delta_t_mag env s)
       (tl_hcu_mag env s) (tl_hcl_mag env s) (tl_erf env s) (tl_erf_mag env s)
       (tl_temp_upper env s) (tl_temp_lower env s) (tl_rndt env s) (Some i), Ok i).

(** two_layer_model.py:202-243 [_step] *)
Definition h_tl_step : Meth TLW unit :=
  mdo i <- olift tl_class tl_advance; h_tl_step_at i.

(** [n] loop iterations (two_layer_model.py:198-200). *)
Fixpoint h_tl_steps (n : nat) : Meth TLW unit :=
  match n with
  | O => mret tt
  | S k => h_tl_step ;; h_tl_steps k
  end.
(** two_layer_model.py:198-200 [_run] *)
Definition h_tl_run : Meth TLW unit := fun w => h_tl_steps (h_erf_len tl_class w) w.

(** [TwoLayerModel] on the heap as a [TwoLayerVariant]; [run_scenarios] hands
    newly built quantities to [set_drivers] (base.py:241), and copies the
    result arrays into its table (base.py:144-151). *)
Definition h_tl_variant : Variant env :=
  mkVariant env TLW tl_name (fun w => tl_save_paras env (tview w))
    (fun v => olift tl_class (tl_set_delta_t env v))
    (fun e => h_set_drivers tl_class (HNew e)) (h_reset tl_class) h_tl_run
    (fun w => tl_outputs env (tview w)).

(** Public calls: those of [TLOp] with newly built quantities, or with the
    quantity object [q]. (As [TLOp] (two_layer_model.py, base.py:29-269).) *)
Inductive HTLOp : Type :=
| HTSetErf (q : nat) | HTSetDrivers (q : nat) | HT (o : TLOp env).

(** As [tl_call] (two_layer_model.py, base.py:82-269). *)
Definition h_tl_call (o : HTLOp) : Meth TLW unit :=
  match o with
  | HTSetErf q => h_set_erf tl_class (Some q)
  | HTSetDrivers q => h_set_drivers tl_class (HQ q)
  | HT (TSetDu _ v) => olift tl_class (tl_set_du env v)
  | HT (TSetDl _ v) => olift tl_class (tl_set_dl env v)
  | HT (TSetLambda0 _ v) => olift tl_class (tl_set_lambda0 env v)
  | HT (TSetA _ v) => olift tl_class (tl_set_a env v)
  | HT (TSetEfficacy _ v) => olift tl_class (tl_set_efficacy env v)
  | HT (TSetEta _ v) => olift tl_class (tl_set_eta env v)
  | HT (TSetDeltaT _ v) => olift tl_class (tl_set_delta_t env v)
  | HT (TSetErf _ None) => h_set_erf tl_class None
  | HT (TSetErf _ (Some q)) => mdo a <- h_build tl_class q; h_set_erf tl_class (Some a)
  | HT (TSetDrivers _ e) => h_set_drivers tl_class (HNew e)
  | HT (TReset _) => h_reset tl_class
  | HT (TStep _) => h_tl_step
  | HT (TRun _) => h_tl_run
  | HT (TRunScenarios _ sc dv) => forget (run_scenarios env parse_unit h_tl_variant sc dv)
  end.

(** *** ImpulseResponseModel (impulse_response_model.py:71-85.) *)
Definition ir_class : Class :=
  mkClass (IR env)
    (fun s e m u l r => mkIR env (ir_q1 env s) (ir_q2 env s) (ir_d1 env s) (ir_d2 env s)
       (ir_efficacy env s) (ir_delta_t env s)
       (ir_q1_mag env s) (ir_q2_mag env s) (ir_d1_mag env s) (ir_d2_mag env s)
       (ir_efficacy_mag env s) (ir_delta_t_mag env s) e m u l r (ir_idx env s))
    (fun s => mkIR env (ir_q1 env s) (ir_q2 env s) (ir_d1 env s) (ir_d2 env s)
       (ir_efficacy env s) (ir_delta_t env s)
       (ir_q1_mag env s) (ir_q2_mag env s) (ir_d1_mag env s) (ir_d2_mag env s)
       (ir_efficacy_mag env s) (ir_delta_t_mag env s) (ir_erf env s) (ir_erf_mag env s)
       (ir_temp1 env s) (ir_temp2 env s) (ir_rndt env s) None).
Notation IRW := (Heap * HObj (IR env))%type.
Notation iview := (wview ir_class).

(** impulse_response_model.py:177-207: as [ir_step_at], on the heap. *)
Definition h_ir_step_at (i : nat) : Meth IRW unit :=
  match i with
  | O =>
      oput ir_class o_r1 O (nQ env 0) ;;
      oput ir_class o_r2 O (nQ env 0) ;;
      oput ir_class o_r3 O (nQ env 0)
  | S j =>
      mdo t1 <- mread (fun w : IRW => let s := iview w in
        do t <- lget (ir_temp1 env s) j;
        do erf <- ir_erf_at env s j;
        calculate_next_temp env (ir_delta_t_mag env s) t (ir_q1_mag env s) (ir_d1_mag env s) erf);
      oput ir_class o_r1 (S j) t1 ;;
      mdo t2 <- mread (fun w : IRW => let s := iview w in
        do t <- lget (ir_temp2 env s) j;
        do erf <- ir_erf_at env s j;
        calculate_next_temp env (ir_delta_t_mag env s) t (ir_q2_mag env s) (ir_d2_mag env s) erf);
      oput ir_class o_r2 (S j) t2 ;;
      mdo r <- mread (fun w : IRW => let s := iview w in
        do t1 <- lget (ir_temp1 env s) j;
        do t2 <- lget (ir_temp2 env s) j;
        do erf <- ir_erf_at env s j;
        ir_calculate_next_rndt env s t1 t2 erf (ir_efficacy_mag env s));
      oput ir_class o_r3 (S j) r
  end.

(** impulse_response_model.py:174-175: advancing [_timestep_idx]. *)
Definition ir_advance : Meth (IR env) nat :=
  fun s =>
    let i := match ir_idx env s with None => 0 | Some i => Datatypes.S i end in
    (mkIR env (ir_q1 env s) (ir_q2 env s) (ir_d1 env s) (ir_d2 env s)
       (ir_efficacy env s) (ir_delta_t env s)
       (ir_q1_mag env s) (ir_q2_mag env s) (ir_d1_mag env s) (ir_d2_mag env s)
       (ir_efficacy_mag env s) (ir_delta_t_mag env s) (ir_erf env s) (ir_erf_mag env s)
       (ir_temp1 env s) (ir_temp2 env s) (ir_rndt env s) (Some i), Ok i).

(** impulse_response_model.py:173-207 [_step] *)
Definition h_ir_step : Meth IRW unit :=
  mdo i <- olift ir_class ir_advance; h_ir_step_at i.

(** [n] loop iterations (impulse_response_model.py:169-171). *)
Fixpoint h_ir_steps (n : nat) : Meth IRW unit :=
  match n with
  | O => mret tt
  | S k => h_ir_step ;; h_ir_steps k
  end.
(** impulse_response_model.py:169-171 [_run] *)
Definition h_ir_run : Meth IRW unit := fun w => h_ir_steps (h_erf_len ir_class w) w.

(** As [h_tl_variant]. (impulse_response_model.py.) *)
Definition h_ir_variant : Variant env :=
  mkVariant env IRW ir_name (fun w => ir_save_paras env (iview w))
    (fun v => olift ir_class (ir_set_delta_t env v))
    (fun e => h_set_drivers ir_class (HNew e)) (h_reset ir_class) h_ir_run
    (fun w => ir_outputs env (iview w)).

(** As [HTLOp]. (impulse_response_model.py, base.py:29-269.) *)
Inductive HIROp : Type :=
| HISetErf (q : nat) | HISetDrivers (q : nat) | HI (o : IROp env).

(** As [ir_call] (impulse_response_model.py, base.py:82-269). *)
Definition h_ir_call (o : HIROp) : Meth IRW unit :=
  match o with
  | HISetErf q => h_set_erf ir_class (Some q)
  | HISetDrivers q => h_set_drivers ir_class (HQ q)
  | HI (ISetQ1 _ v) => olift ir_class (ir_set_q1 env v)
  | HI (ISetQ2 _ v) => olift ir_class (ir_set_q2 env v)
  | HI (ISetD1 _ v) => olift ir_class (ir_set_d1 env v)
  | HI (ISetD2 _ v) => olift ir_class (ir_set_d2 env v)
  | HI (ISetEfficacy _ v) => olift ir_class (ir_set_efficacy env v)
  | HI (ISetDeltaT _ v) => olift ir_class (ir_set_delta_t env v)
  | HI (ISetErf _ None) => h_set_erf ir_class None
  | HI (ISetErf _ (Some q)) => mdo a <- h_build ir_class q; h_set_erf ir_class (Some a)
  | HI (ISetDrivers _ e) => h_set_drivers ir_class (HNew e)
  | HI (IReset _) => h_reset ir_class
  | HI (IStep _) => h_ir_step
  | HI (IRun _) => h_ir_run
  | HI (IRunScenarios _ sc dv) => forget (run_scenarios env parse_unit h_ir_variant sc dv)
  end.

(** *** A process: the heap and the model objects alive in it. (Python objects.) *)
Inductive Obj : Type := OTL (o : HObj (TL env)) | OIR (o : HObj (IR env)).
(** Python process. *)
Record World : Type := mkWorld { w_heap : Heap; w_objs : list Obj }.

(** What the caller can do.  [WArray] is [np.array(...)]; [WQuantity] is
    [ur.Quantity(arr, u)], which keeps a reference to [arr]; [WWrite] is
    [arr[i] = v] (directly or through a quantity's magnitude, so also through
    [model.erf.magnitude]); [WIto] is [q.ito(u)], which multiplies the array in
    place.  Calls that name an array, quantity or object that does not exist,
    or an array the caller cannot reach, do nothing. (Python program using the package.) *)
Inductive WOp : Type :=
| WArray (l : list num)
| WQuantity (a : nat) (u : Units)
| WWrite (a i : nat) (v : num)
| WIto (q : nat) (u : Units)
| WNewTL (g : TLArgs env)
| WNewIR (g : IRArgs env)
| WTL (k : nat) (o : HTLOp)
| WIR (k : nat) (o : HIROp).

(** The quantity object a call refers to must exist. (Python.) *)
Definition qarg_tl (o : HTLOp) : option nat :=
  match o with HTSetErf q | HTSetDrivers q => Some q | HT _ => None end.
(** Python, as above. *)
Definition qarg_ir (o : HIROp) : option nat :=
  match o with HISetErf q | HISetDrivers q => Some q | HI _ => None end.
(** Python, as above. *)
Definition qarg_ok (h : Heap) (q : option nat) : bool :=
  match q with None => true | Some q => q <? List.length (h_qtys h) end.

(** pint [Quantity.ito] for an array magnitude: in-place multiplication unless
    the units are the same; the quantity object gets the new units. *)
Definition h_ito (h : Heap) (q : nat) (u : Units) : Heap * Res unit :=
  match nth_error (h_qtys h) q with
  | None => (h, Err TypeError)
  | Some k =>
      match to_mags env (hqty h q) u with
      | Err e => (h, Err e)
      | Ok l =>
          let h1 := if units_eqb (q_units k) u then h else hstore h (q_arr k) l in
          (mkHeap (h_arrs h1) (upd (h_qtys h1) q (mkQObj (q_arr k) u)), Ok tt)
      end
  end.

(** One operation; the result is what the caller sees. (Python.) *)
Definition w_step (op : WOp) (w : World) : World * Res unit :=
  let h := w_heap w in
  match op with
  | WArray l => (mkWorld (halloc h true l) (w_objs w), Ok tt)
  | WQuantity a u =>
      if hpublic h a then (mkWorld (hnewq h a u) (w_objs w), Ok tt) else (w, Err TypeError)
  | WWrite a i v =>
      if hpublic h a then
        match lset (harr h a) i v with
        | Ok l => (mkWorld (hstore h a l) (w_objs w), Ok tt)
        | Err e => (w, Err e)
        end
      else (w, Err TypeError)
  | WIto q u => let '(h', r) := h_ito h q u in (mkWorld h' (w_objs w), r)
  | WNewTL g =>
      match h_new tl_class (tl_new env g) h with
      | (h', Ok o) => (mkWorld h' (w_objs w ++ [OTL o]), Ok tt)
      | (h', Err e) => (mkWorld h' (w_objs w), Err e)
      end
  | WNewIR g =>
      match h_new ir_class (ir_new env g) h with
      | (h', Ok o) => (mkWorld h' (w_objs w ++ [OIR o]), Ok tt)
      | (h', Err e) => (mkWorld h' (w_objs w), Err e)
      end
  | WTL k o =>
      match nth_error (w_objs w) k with
      | Some (OTL x) =>
          if qarg_ok h (qarg_tl o) then
            let '(h', x', r) := h_tl_call o (h, x) in
            (mkWorld h' (upd (w_objs w) k (OTL x')), r)
          else (w, Err TypeError)
      | _ => (w, Err TypeError)
      end
  | WIR k o =>
      match nth_error (w_objs w) k with
      | Some (OIR x) =>
          if qarg_ok h (qarg_ir o) then
            let '(h', x', r) := h_ir_call o (h, x) in
            (mkWorld h' (upd (w_objs w) k (OIR x')), r)
          else (w, Err TypeError)
      | _ => (w, Err TypeError)
      end
  end.

(** A Python process before any call. *)
Definition w_empty : World := mkWorld (mkHeap [] []) [].
(** The world after a sequence of operations. (Python program.) *)
Definition w_steps (ops : list WOp) (w : World) : World :=
  fold_left (fun w op => fst (w_step op w)) ops w.
(** Python process after any program. *)
Definition w_reachable (w : World) : Prop := exists ops, w = w_steps ops w_empty.

End Heap.

Arguments mkHObj {S}. Arguments o_s {S}. Arguments o_erf {S}. Arguments o_erf_mag {S}.
Arguments o_r1 {S}. Arguments o_r2 {S}. Arguments o_r3 {S}.
Arguments OTL {env}. Arguments OIR {env}.
Arguments h_arrs {env}. Arguments h_qtys {env}. Arguments mkHeap {env}.
Arguments w_heap {env}. Arguments w_objs {env}. Arguments mkWorld {env}.
Arguments c_public {env}. Arguments c_vals {env}. Arguments mkCell {env}.
Arguments WArray {env}. Arguments WQuantity {env}. Arguments WWrite {env}. Arguments WIto {env}.
Arguments WNewTL {env}. Arguments WNewIR {env}. Arguments WTL {env}. Arguments WIR {env}.
Arguments HTSetErf {env}. Arguments HTSetDrivers {env}. Arguments HT {env}.
Arguments HISetErf {env}. Arguments HISetDrivers {env}. Arguments HI {env}.
Arguments HQ {env}. Arguments HNew {env}.
