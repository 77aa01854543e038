(** The methods once more, as sequences of atomic actions that several threads
    execute in turn: Python switches threads between bytecode instructions, so a
    single attribute is read or written without interruption, and other threads may
    act between two of them (constructor calls, checks and computations on values
    already read concern one thread only).  Each attribute is read where Python reads
    it, in its order.  Simplification: an array element is read or written in one
    action together with the reading of the array and of the index
    ([self._temp_upper_mag[self._timestep_idx - 1]]); [get_two_layer_parameters] inside
    the heat uptake of the impulse-response model, and the attributes [run_scenarios]
    collects, are read in one action.  A thread that runs alone does what the methods of
    TwoLayer.v, Impulse.v and Scm.v do (c68_alone). *)
From Coq Require Import List String QArith ZArith Bool Arith.
From RecordUpdate Require Import RecordUpdate.
From Verif Require Import Arith Pint Base TwoLayer Impulse Scm Api.
Import ListNotations.

(** What a thread still has to do: it has ended (Python return or raise), or its next
    action changes the state by [w] and it goes on as [k] says, having read the state. *)
Inductive Prog (S A : Type) : Type :=
| Done (r : Res A)
| Act (w : S -> S) (k : S -> Prog S A).
Arguments Done {S A} r.
Arguments Act {S A} w k.

(** A method executed in one action (Python reads and writes of one attribute). *)
Definition patom {S A} (m : Meth S A) : Prog S A := Act (fun s => fst (m s)) (fun s => Done (snd (m s))).
(** Reading (Python attribute access). *)
Definition pread {S A} (r : S -> Res A) : Prog S A := patom (mread r).
(** Reading what is always there (Python attribute access). *)
Definition pget {S A} (r : S -> A) : Prog S A := patom (mread (fun s => Ok (r s))).
(** Writing (Python assignment to an attribute). *)
Definition pwrite {S} (f : S -> S) : Prog S unit := patom (mmod f).
(** A computation on values of the thread (Python expression; no action). *)
Definition pval {S A} (r : Res A) : Prog S A := Done r.
(** Sequencing of Python statements. *)
Fixpoint pbind {S A B} (p : Prog S A) (f : A -> Prog S B) : Prog S B :=
  match p with
  | Done (Ok a) => f a
  | Done (Err e) => Done (Err e)
  | Act w k => Act w (fun s => pbind (k s) f)
  end.
Notation "'pdo' x <- m ; f" := (pbind m (fun x => f))
  (at level 200, x name, m at level 100, f at level 200).
Notation "m ';&' f" := (pbind m (fun _ => f))
  (at level 199, right associativity).
(** [try: ... except Exception: ...] keeping the outcome (Python program of a thread). *)
Fixpoint pcatch {S A B} (p : Prog S A) (f : Res A -> Prog S B) : Prog S B :=
  match p with
  | Done r => f r
  | Act w k => Act w (fun s => pcatch (k s) f)
  end.
(** A thread that makes these calls one after the other, keeping what each returned or
    raised (Python program of a thread). *)
Fixpoint pcalls {S O A} (call : O -> Prog S A) (ops : list O) : Prog S (list (Res A)) :=
  match ops with
  | [] => Done (Ok [])
  | o :: r => pcatch (call o) (fun x => pcatch (pcalls call r) (fun xs =>
                match xs with Ok l => Done (Ok (x :: l)) | Err e => Done (Err e) end))
  end.
(** A program on a part of the state (an object among several in memory). *)
Fixpoint plift {W S A} (get : W -> S) (put : S -> W -> W) (p : Prog S A) : Prog W A :=
  match p with
  | Done r => Done r
  | Act w k => Act (fun x => put (w (get x)) x) (fun x => plift get put (k (get x)))
  end.

(** The thread [i] does its next action (if it has one): Python switching threads. *)
Definition turn {S A} (i : nat) (x : S * list (Prog S A)) : S * list (Prog S A) :=
  let (s, ps) := x in
  match nth_error ps i with
  | Some (Act w k) => (w s, firstn i ps ++ k s :: skipn (Datatypes.S i) ps)
  | _ => (s, ps)
  end.
(** A schedule names the threads in the order in which they act (Python switching threads). *)
Fixpoint play {S A} (sched : list nat) (x : S * list (Prog S A)) : S * list (Prog S A) :=
  match sched with
  | [] => x
  | i :: r => play r (turn i x)
  end.
(** One thread without others (Python program). *)
Fixpoint alone {S A} (p : Prog S A) (s : S) : S * Res A :=
  match p with
  | Done r => (s, r)
  | Act w k => alone (k s) (w s)
  end.

Section TwoLayerP.
Variable env : Env.
Notation num := (num env).
Notation TL := (TL env).

#[local] Instance etaTL : Settable _ := settable! (mkTL env)
  <(tl_du env); (tl_dl env); (tl_lambda0 env); (tl_a env); (tl_efficacy env); (tl_eta env); (tl_delta_t env);
   (tl_du_mag env); (tl_dl_mag env); (tl_lambda0_mag env); (tl_a_mag env); (tl_efficacy_mag env); (tl_eta_mag env);
   (tl_delta_t_mag env); (tl_hcu_mag env); (tl_hcl_mag env); (tl_erf env); (tl_erf_mag env);
   (tl_temp_upper env); (tl_temp_lower env); (tl_rndt env); (tl_idx env)>.

(** two_layer_model.py:88-95 [du] setter *)
Definition ptl_set_du (v : PyVal env) : Prog TL unit :=
  pdo q <- pval (assert_quantity env v u_m);
  pwrite (fun s => s <| (tl_du env) := q |>) ;&
  pdo m <- pval (to_mag env q u_m);
  pwrite (fun s => s <| (tl_du_mag env) := m |>) ;&
  pdo h <- pread (fun s => to_mag env (tl_heat_capacity_upper env s) u_JCm2);
  pwrite (fun s => s <| (tl_hcu_mag env) := h |>).
(** two_layer_model.py:113-120 [dl] setter *)
Definition ptl_set_dl (v : PyVal env) : Prog TL unit :=
  pdo q <- pval (assert_quantity env v u_m);
  pwrite (fun s => s <| (tl_dl env) := q |>) ;&
  pdo m <- pval (to_mag env q u_m);
  pwrite (fun s => s <| (tl_dl_mag env) := m |>) ;&
  pdo h <- pread (fun s => to_mag env (tl_heat_capacity_lower env s) u_JCm2);
  pwrite (fun s => s <| (tl_hcl_mag env) := h |>).
(** two_layer_model.py:138-142 [lambda0] setter *)
Definition ptl_set_lambda0 (v : PyVal env) : Prog TL unit :=
  pdo q <- pval (assert_quantity env v u_Wm2C);
  pwrite (fun s => s <| (tl_lambda0 env) := q |>) ;&
  pdo m <- pval (to_mag env q u_Wm2C);
  pwrite (fun s => s <| (tl_lambda0_mag env) := m |>).
(** two_layer_model.py:152-156 [a] setter *)
Definition ptl_set_a (v : PyVal env) : Prog TL unit :=
  pdo q <- pval (assert_quantity env v u_Wm2C2);
  pwrite (fun s => s <| (tl_a env) := q |>) ;&
  pdo m <- pval (to_mag env q u_Wm2C2);
  pwrite (fun s => s <| (tl_a_mag env) := m |>).
(** two_layer_model.py:166-170 [efficacy] setter *)
Definition ptl_set_efficacy (v : PyVal env) : Prog TL unit :=
  pdo q <- pval (assert_quantity env v u_none);
  pwrite (fun s => s <| (tl_efficacy env) := q |>) ;&
  pdo m <- pval (to_mag env q u_none);
  pwrite (fun s => s <| (tl_efficacy_mag env) := m |>).
(** two_layer_model.py:180-184 [eta] setter *)
Definition ptl_set_eta (v : PyVal env) : Prog TL unit :=
  pdo q <- pval (assert_quantity env v u_Wm2C);
  pwrite (fun s => s <| (tl_eta env) := q |>) ;&
  pdo m <- pval (to_mag env q u_Wm2C);
  pwrite (fun s => s <| (tl_eta_mag env) := m |>).
(** base.py:94-98 [delta_t] setter *)
Definition ptl_set_delta_t (v : PyVal env) : Prog TL unit :=
  pdo q <- pval (assert_quantity env v u_s);
  pwrite (fun s => s <| (tl_delta_t env) := q |>) ;&
  pdo m <- pval (to_mag env q u_s);
  pwrite (fun s => s <| (tl_delta_t_mag env) := m |>).
(** base.py:108-112 [erf] setter *)
Definition ptl_set_erf (v : option (QArr env)) : Prog TL unit :=
  pdo q <- pval (assert_quantity_arr env v u_Wm2);
  pwrite (fun s => s <| (tl_erf env) := Some q |>) ;&
  pdo m <- pval (to_mags env q u_Wm2);
  pwrite (fun s => s <| (tl_erf_mag env) := Some m |>).
(** base.py:114-133 [set_drivers] *)
Definition ptl_set_drivers (e : ErfArg env) : Prog TL unit :=
  match e with
  | ENoShape => pval (Err AttributeError)
  | EQnot1 _ | EArrNot1 => pval (Err AssertionError)
  | EArr1 => ptl_set_erf None
  | EQ1 q => ptl_set_erf (Some q)
  end.

(** [np.zeros_like(self._erf_mag) * np.nan] (two_layer_model.py:194). *)
Definition ptl_nans : Prog TL (list num) :=
  pread (fun s => match tl_erf_mag env s with
                  | None => Err AttributeError
                  | Some m => Ok (map (fun _ => nnan env) m)
                  end).
(** two_layer_model.py:186-196 [_reset] *)
Definition ptl_reset : Prog TL unit :=
  pdo isnan <- pget (fun s => match tl_erf env s with
                              | None => true
                              | Some q => existsb (nisnan env) (mags q)
                              end);
  if isnan then pval (Err ModelStateError)
  else
    pwrite (fun s => s <| (tl_idx env) := None |>) ;&
    pdo nu <- ptl_nans;
    pwrite (fun s => s <| (tl_temp_upper env) := nu |>) ;&
    pdo nl <- ptl_nans;
    pwrite (fun s => s <| (tl_temp_lower env) := nl |>) ;&
    pdo nr <- ptl_nans;
    pwrite (fun s => s <| (tl_rndt env) := nr |>).

(** [array[self._timestep_idx - 1]]: the element before; the last one if the index is
    zero; IndexError if it is NaN (two_layer_model.py:217). *)
Definition before (i : option nat) (l : list num) : Res num :=
  match i with
  | None => Err IndexError
  | Some O => match rev l with [] => Err IndexError | x :: _ => Ok x end
  | Some (S j) => lget l j
  end.
(** [array[self._timestep_idx]] (two_layer_model.py:237). *)
Definition here (i : option nat) (l : list num) : Res num :=
  match i with None => Err IndexError | Some i => lget l i end.
(** [array[self._timestep_idx] = v] (two_layer_model.py:210). *)
Definition put (i : option nat) (v : num) (l : list num) : Res (list num) :=
  match i with None => Err IndexError | Some i => lset l i v end.
(** two_layer_model.py:210, 215. *)
Definition ptl_put_upper (v : num) : Prog TL unit :=
  patom (mdo l <- mread (fun s => put (tl_idx env s) v (tl_temp_upper env s));
         mmod (fun s => s <| (tl_temp_upper env) := l |>)).
(** two_layer_model.py:211, 227. *)
Definition ptl_put_lower (v : num) : Prog TL unit :=
  patom (mdo l <- mread (fun s => put (tl_idx env s) v (tl_temp_lower env s));
         mmod (fun s => s <| (tl_temp_lower env) := l |>)).
(** two_layer_model.py:212, 235. *)
Definition ptl_put_rndt (v : num) : Prog TL unit :=
  patom (mdo l <- mread (fun s => put (tl_idx env s) v (tl_rndt env s));
         mmod (fun s => s <| (tl_rndt env) := l |>)).
(** [self._erf_mag[self._timestep_idx - 1]] (two_layer_model.py:219). *)
Definition tl_erf_before (s : TL) : Res num :=
  match tl_erf_mag env s with None => Err AttributeError | Some m => before (tl_idx env s) m end.

(** two_layer_model.py:203-207: the index is advanced ([nan + 1] is [nan]). *)
Definition ptl_advance : Prog TL unit :=
  pdo i <- pget (tl_idx env);
  match i with
  | None => pwrite (fun s => s <| (tl_idx env) := Some 0%nat |>)
  | Some _ => pdo j <- pget (tl_idx env); pwrite (fun s => s <| (tl_idx env) := option_map S j |>)
  end.
(** two_layer_model.py:215-225. *)
Definition ptl_next_upper : Prog TL unit :=
  pdo dt <- pget (tl_delta_t_mag env);
  pdo t_upper <- pread (fun s => before (tl_idx env s) (tl_temp_upper env s));
  pdo t_lower <- pread (fun s => before (tl_idx env s) (tl_temp_lower env s));
  pdo erf <- pread tl_erf_before;
  pdo lambda0 <- pget (tl_lambda0_mag env);
  pdo a <- pget (tl_a_mag env);
  pdo efficacy <- pget (tl_efficacy_mag env);
  pdo eta <- pget (tl_eta_mag env);
  pdo hc <- pget (tl_hcu_mag env);
  ptl_put_upper (calculate_next_temp_upper env dt t_upper t_lower erf lambda0 a efficacy eta hc).
(** two_layer_model.py:227-233. *)
Definition ptl_next_lower : Prog TL unit :=
  pdo dt <- pget (tl_delta_t_mag env);
  pdo t_lower <- pread (fun s => before (tl_idx env s) (tl_temp_lower env s));
  pdo t_upper <- pread (fun s => before (tl_idx env s) (tl_temp_upper env s));
  pdo eta <- pget (tl_eta_mag env);
  pdo hc <- pget (tl_hcl_mag env);
  ptl_put_lower (calculate_next_temp_lower env dt t_lower t_upper eta hc).
(** two_layer_model.py:235-243. *)
Definition ptl_next_rndt : Prog TL unit :=
  pdo dt <- pget (tl_delta_t_mag env);
  pdo l_now <- pread (fun s => here (tl_idx env s) (tl_temp_lower env s));
  pdo l_prev <- pread (fun s => before (tl_idx env s) (tl_temp_lower env s));
  pdo hcl <- pget (tl_hcl_mag env);
  pdo u_now <- pread (fun s => here (tl_idx env s) (tl_temp_upper env s));
  pdo u_prev <- pread (fun s => before (tl_idx env s) (tl_temp_upper env s));
  pdo hcu <- pget (tl_hcu_mag env);
  ptl_put_rndt (calculate_next_rndt env dt l_now l_prev hcl u_now u_prev hcu).
(** two_layer_model.py:202-243 [_step] *)
Definition ptl_step : Prog TL unit :=
  ptl_advance ;&
  pdo i <- pget (tl_idx env);
  match i with
  | Some O => ptl_put_upper (nQ env 0) ;& ptl_put_lower (nQ env 0) ;& ptl_put_rndt (nQ env 0)
  | _ => ptl_next_upper ;& ptl_next_lower ;& ptl_next_rndt
  end.
(** two_layer_model.py:198-200. *)
Fixpoint ptl_steps (n : nat) : Prog TL unit :=
  match n with
  | O => pval (Ok tt)
  | S k => ptl_step ;& ptl_steps k
  end.
(** two_layer_model.py:198-200 [_run]: the driver is read once. *)
Definition ptl_run : Prog TL unit := pdo n <- pget (tl_erf_len env); ptl_steps n.
End TwoLayerP.

Section ImpulseP.
Variable env : Env.
Notation num := (num env).
Notation IR := (IR env).

#[local] Instance etaIR : Settable _ := settable! (mkIR env)
  <(ir_q1 env); (ir_q2 env); (ir_d1 env); (ir_d2 env); (ir_efficacy env); (ir_delta_t env);
   (ir_q1_mag env); (ir_q2_mag env); (ir_d1_mag env); (ir_d2_mag env); (ir_efficacy_mag env); (ir_delta_t_mag env);
   (ir_erf env); (ir_erf_mag env); (ir_temp1 env); (ir_temp2 env); (ir_rndt env); (ir_idx env)>.

(** impulse_response_model.py:95-99 [d1] setter *)
Definition pir_set_d1 (v : PyVal env) : Prog IR unit :=
  pdo q <- pval (assert_quantity env v u_yr);
  pwrite (fun s => s <| (ir_d1 env) := q |>) ;&
  pdo m <- pval (to_mag env q u_yr);
  pwrite (fun s => s <| (ir_d1_mag env) := m |>).
(** impulse_response_model.py:109-113 [d2] setter *)
Definition pir_set_d2 (v : PyVal env) : Prog IR unit :=
  pdo q <- pval (assert_quantity env v u_yr);
  pwrite (fun s => s <| (ir_d2 env) := q |>) ;&
  pdo m <- pval (to_mag env q u_yr);
  pwrite (fun s => s <| (ir_d2_mag env) := m |>).
(** impulse_response_model.py:123-127 [q1] setter *)
Definition pir_set_q1 (v : PyVal env) : Prog IR unit :=
  pdo q <- pval (assert_quantity env v u_CWm2);
  pwrite (fun s => s <| (ir_q1 env) := q |>) ;&
  pdo m <- pval (to_mag env q u_CWm2);
  pwrite (fun s => s <| (ir_q1_mag env) := m |>).
(** impulse_response_model.py:137-141 [q2] setter *)
Definition pir_set_q2 (v : PyVal env) : Prog IR unit :=
  pdo q <- pval (assert_quantity env v u_CWm2);
  pwrite (fun s => s <| (ir_q2 env) := q |>) ;&
  pdo m <- pval (to_mag env q u_CWm2);
  pwrite (fun s => s <| (ir_q2_mag env) := m |>).
(** impulse_response_model.py:151-155 [efficacy] setter *)
Definition pir_set_efficacy (v : PyVal env) : Prog IR unit :=
  pdo q <- pval (assert_quantity env v u_none);
  pwrite (fun s => s <| (ir_efficacy env) := q |>) ;&
  pdo m <- pval (to_mag env q u_none);
  pwrite (fun s => s <| (ir_efficacy_mag env) := m |>).
(** base.py:94-98 [delta_t] setter *)
Definition pir_set_delta_t (v : PyVal env) : Prog IR unit :=
  pdo q <- pval (assert_quantity env v u_yr);
  pwrite (fun s => s <| (ir_delta_t env) := q |>) ;&
  pdo m <- pval (to_mag env q u_yr);
  pwrite (fun s => s <| (ir_delta_t_mag env) := m |>).
(** base.py:108-112 [erf] setter *)
Definition pir_set_erf (v : option (QArr env)) : Prog IR unit :=
  pdo q <- pval (assert_quantity_arr env v u_Wm2);
  pwrite (fun s => s <| (ir_erf env) := Some q |>) ;&
  pdo m <- pval (to_mags env q u_Wm2);
  pwrite (fun s => s <| (ir_erf_mag env) := Some m |>).
(** base.py:114-133 [set_drivers] *)
Definition pir_set_drivers (e : ErfArg env) : Prog IR unit :=
  match e with
  | ENoShape => pval (Err AttributeError)
  | EQnot1 _ | EArrNot1 => pval (Err AssertionError)
  | EArr1 => pir_set_erf None
  | EQ1 q => pir_set_erf (Some q)
  end.

(** [np.zeros_like(self._erf_mag) * np.nan] (impulse_response_model.py:165). *)
Definition pir_nans : Prog IR (list num) :=
  pread (fun s => match ir_erf_mag env s with
                  | None => Err AttributeError
                  | Some m => Ok (map (fun _ => nnan env) m)
                  end).
(** impulse_response_model.py:157-167 [_reset] *)
Definition pir_reset : Prog IR unit :=
  pdo isnan <- pget (fun s => match ir_erf env s with
                              | None => true
                              | Some q => existsb (nisnan env) (mags q)
                              end);
  if isnan then pval (Err ModelStateError)
  else
    pwrite (fun s => s <| (ir_idx env) := None |>) ;&
    pdo n1 <- pir_nans;
    pwrite (fun s => s <| (ir_temp1 env) := n1 |>) ;&
    pdo n2 <- pir_nans;
    pwrite (fun s => s <| (ir_temp2 env) := n2 |>) ;&
    pdo nr <- pir_nans;
    pwrite (fun s => s <| (ir_rndt env) := nr |>).

(** impulse_response_model.py:181, 186. *)
Definition pir_put_temp1 (v : num) : Prog IR unit :=
  patom (mdo l <- mread (fun s => put env (ir_idx env s) v (ir_temp1 env s));
         mmod (fun s => s <| (ir_temp1 env) := l |>)).
(** impulse_response_model.py:182, 194. *)
Definition pir_put_temp2 (v : num) : Prog IR unit :=
  patom (mdo l <- mread (fun s => put env (ir_idx env s) v (ir_temp2 env s));
         mmod (fun s => s <| (ir_temp2 env) := l |>)).
(** impulse_response_model.py:183, 202. *)
Definition pir_put_rndt (v : num) : Prog IR unit :=
  patom (mdo l <- mread (fun s => put env (ir_idx env s) v (ir_rndt env s));
         mmod (fun s => s <| (ir_rndt env) := l |>)).
(** [self._erf_mag[self._timestep_idx - 1]] (impulse_response_model.py:191). *)
Definition ir_erf_before (s : IR) : Res num :=
  match ir_erf_mag env s with None => Err AttributeError | Some m => before env (ir_idx env s) m end.

(** impulse_response_model.py:174-178. *)
Definition pir_advance : Prog IR unit :=
  pdo i <- pget (ir_idx env);
  match i with
  | None => pwrite (fun s => s <| (ir_idx env) := Some 0%nat |>)
  | Some _ => pdo j <- pget (ir_idx env); pwrite (fun s => s <| (ir_idx env) := option_map S j |>)
  end.
(** impulse_response_model.py:186-192. *)
Definition pir_next_temp1 : Prog IR unit :=
  pdo dt <- pget (ir_delta_t_mag env);
  pdo t <- pread (fun s => before env (ir_idx env s) (ir_temp1 env s));
  pdo q <- pget (ir_q1_mag env);
  pdo d <- pget (ir_d1_mag env);
  pdo erf <- pread ir_erf_before;
  pdo v <- pval (calculate_next_temp env dt t q d erf);
  pir_put_temp1 v.
(** impulse_response_model.py:194-200. *)
Definition pir_next_temp2 : Prog IR unit :=
  pdo dt <- pget (ir_delta_t_mag env);
  pdo t <- pread (fun s => before env (ir_idx env s) (ir_temp2 env s));
  pdo q <- pget (ir_q2_mag env);
  pdo d <- pget (ir_d2_mag env);
  pdo erf <- pread ir_erf_before;
  pdo v <- pval (calculate_next_temp env dt t q d erf);
  pir_put_temp2 v.
(** impulse_response_model.py:202-207. *)
Definition pir_next_rndt : Prog IR unit :=
  pdo t1 <- pread (fun s => before env (ir_idx env s) (ir_temp1 env s));
  pdo t2 <- pread (fun s => before env (ir_idx env s) (ir_temp2 env s));
  pdo erf <- pread ir_erf_before;
  pdo efficacy <- pget (ir_efficacy_mag env);
  pdo v <- pread (fun s => ir_calculate_next_rndt env s t1 t2 erf efficacy);
  pir_put_rndt v.
(** impulse_response_model.py:173-207 [_step] *)
Definition pir_step : Prog IR unit :=
  pir_advance ;&
  pdo i <- pget (ir_idx env);
  match i with
  | Some O => pir_put_temp1 (nQ env 0) ;& pir_put_temp2 (nQ env 0) ;& pir_put_rndt (nQ env 0)
  | _ => pir_next_temp1 ;& pir_next_temp2 ;& pir_next_rndt
  end.
(** impulse_response_model.py:169-171. *)
Fixpoint pir_steps (n : nat) : Prog IR unit :=
  match n with
  | O => pval (Ok tt)
  | S k => pir_step ;& pir_steps k
  end.
(** impulse_response_model.py:169-171 [_run]. *)
Definition pir_run : Prog IR unit := pdo n <- pget (ir_erf_len env); pir_steps n.
End ImpulseP.

Section ScenariosP.
Variable env : Env.
Variable parse_unit : string -> option (Qty env).
Variable V : Variant env.
(** The calls [run_scenarios] makes (base.py:227, 241-243). *)
Variable set_delta_t : PyVal env -> Prog (v_state env V) unit.
Variable set_drivers : ErfArg env -> Prog (v_state env V) unit.
Variable reset : Prog (v_state env V) unit.
Variable run : Prog (v_state env V) unit.

(** base.py:238-254, one iteration of the scenario loop. *)
Definition prun_row (i : nat) (times : list Z) (r : Row env) : Prog (v_state env V) (list (OutRow env)) :=
  let pts := drop_nan env times (r_vals env r) in
  pdo u <- pval (row_unit env parse_unit r);
  set_drivers (EQ1 (mkQA (map (fun p => nmul env (snd p) (mag u)) pts) (units u))) ;&
  reset ;&
  run ;&
  pdo outs <- pread (fun s => create_tss env (r_meta env r) pts (v_outputs env V s));
  let rows := mkOut env (r_meta env r) pts :: outs in
  if has_dup env (map (o_meta env) rows) then pval (Err NonUniqueMetadataError)
  else pval (Ok (map (fun o => mkOut env (mset env (o_meta env o) (KName "run_idx") (MI env i)) (o_points env o)) rows)).
(** The loop over scenarios (base.py:232-254). *)
Fixpoint prun_rows (i : nat) (times : list Z) (rows : list (Row env)) : Prog (v_state env V) (list (OutRow env)) :=
  match rows with
  | [] => pval (Ok [])
  | r :: rest =>
      pdo x <- prun_row i times r;
      pdo xs <- prun_rows (S i) times rest;
      pval (Ok (x ++ xs))
  end.
(** base.py:175-269 [run_scenarios]. *)
Definition prun_scenarios (scenarios : Scm env) (driver_var : string) : Prog (v_state env V) (list (OutRow env)) :=
  pdo save <- pget (save_paras_meta env V);
  let rows := filter (row_selected env driver_var) (s_rows env scenarios) in
  if Nat.eqb (List.length rows) 0 then pval (Err ValueError)
  else
    let driver := map (fun r => mkRow env (annotate env V save (r_meta env r)) (r_vals env r)) rows in
    pdo timestep <- pval (select_timestep env (s_times env scenarios));
    set_delta_t (PQ timestep) ;&
    if has_dup env (map (r_meta env) driver) then pval (Err NonUniqueMetadataError)
    else
      pdo out <- prun_rows 0 (s_times env scenarios) driver;
      if has_dup env (map (o_meta env) out) then pval (Err NonUniqueMetadataError)
      else pval (Ok out).
End ScenariosP.

Section ApiP.
Variable env : Env.
Variable parse_unit : string -> option (Qty env).

(** [TwoLayerModel.run_scenarios] (base.py:175-269). *)
Definition ptl_run_scenarios : Scm env -> string -> Prog (TL env) (list (OutRow env)) :=
  prun_scenarios env parse_unit (tl_variant env) (ptl_set_delta_t env) (ptl_set_drivers env) (ptl_reset env) (ptl_run env).
(** [ImpulseResponseModel.run_scenarios] (base.py:175-269). *)
Definition pir_run_scenarios : Scm env -> string -> Prog (IR env) (list (OutRow env)) :=
  prun_scenarios env parse_unit (ir_variant env) (pir_set_delta_t env) (pir_set_drivers env) (pir_reset env) (pir_run env).

(** A call that returns nothing (Python None). *)
Definition pnone {S} (p : Prog S unit) : Prog S (list (OutRow env)) := pdo u <- p; pval (Ok []).
(** The calls of Api.v in a thread, with the table [run_scenarios] returns
    (two_layer_model.py:53-243, base.py:82-269). *)
Definition ptl_call (o : TLOp env) : Prog (TL env) (list (OutRow env)) :=
  match o with
  | TSetDu _ v => pnone (ptl_set_du env v)
  | TSetDl _ v => pnone (ptl_set_dl env v)
  | TSetLambda0 _ v => pnone (ptl_set_lambda0 env v)
  | TSetA _ v => pnone (ptl_set_a env v)
  | TSetEfficacy _ v => pnone (ptl_set_efficacy env v)
  | TSetEta _ v => pnone (ptl_set_eta env v)
  | TSetDeltaT _ v => pnone (ptl_set_delta_t env v)
  | TSetErf _ v => pnone (ptl_set_erf env v)
  | TSetDrivers _ e => pnone (ptl_set_drivers env e)
  | TReset _ => pnone (ptl_reset env)
  | TStep _ => pnone (ptl_step env)
  | TRun _ => pnone (ptl_run env)
  | TRunScenarios _ sc dv => ptl_run_scenarios sc dv
  end.
(** The same for the other class (impulse_response_model.py:54-207, base.py:82-269). *)
Definition pir_call (o : IROp env) : Prog (IR env) (list (OutRow env)) :=
  match o with
  | ISetQ1 _ v => pnone (pir_set_q1 env v)
  | ISetQ2 _ v => pnone (pir_set_q2 env v)
  | ISetD1 _ v => pnone (pir_set_d1 env v)
  | ISetD2 _ v => pnone (pir_set_d2 env v)
  | ISetEfficacy _ v => pnone (pir_set_efficacy env v)
  | ISetDeltaT _ v => pnone (pir_set_delta_t env v)
  | ISetErf _ v => pnone (pir_set_erf env v)
  | ISetDrivers _ e => pnone (pir_set_drivers env e)
  | IReset _ => pnone (pir_reset env)
  | IStep _ => pnone (pir_step env)
  | IRun _ => pnone (pir_run env)
  | IRunScenarios _ sc dv => pir_run_scenarios sc dv
  end.
(** Threads making a list of calls on one object (Python program of a thread). *)
Definition ptl_thread (ops : list (TLOp env)) : Prog (TL env) (list (Res (list (OutRow env)))) := pcalls ptl_call ops.
(** The same for the other class (Python program of a thread). *)
Definition pir_thread (ops : list (IROp env)) : Prog (IR env) (list (Res (list (OutRow env)))) := pcalls pir_call ops.
End ApiP.
