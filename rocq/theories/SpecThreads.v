(** Vocabulary for threads (C68). *)
From Coq Require Import List String QArith ZArith Bool Arith.
From Verif Require Import Arith Pint Base TwoLayer Impulse Scm Api Spec Threads.
Import ListNotations.

(** All threads have ended. *)
Definition finished {S A} (x : S * list (Prog S A)) : Prop := forall p, In p (snd x) -> exists r, p = Done r.
(** Thread [i] has ended, with this outcome. *)
Definition ended {S A} (x : S * list (Prog S A)) (i : nat) (r : Res A) : Prop := nth_error (snd x) i = Some (Done r).
(** Every one of [n] threads gets at least [k] turns. *)
Definition turns_each (n k : nat) (sched : list nat) : Prop :=
  forall i, (i < n)%nat -> (k <= count_occ Nat.eq_dec sched i)%nat.

Section SpecThreads.
Variable env : Env.
Variable parse_unit : string -> option (Qty env).
Notation Table := (list (OutRow env)).

(** One call after the other on one object, without threads: the object at the end, and
    what each call returned (the table of run_scenarios, otherwise nothing) or raised. *)
Definition tl_returns (o : TLOp env) (s : TL env) : Res Table :=
  match o with
  | TRunScenarios _ sc dv => snd (run_scenarios env parse_unit (tl_variant env) sc dv s)
  | _ => match snd (tl_call env parse_unit o s) with Ok _ => Ok [] | Err e => Err e end
  end.
Fixpoint tl_outcomes (ops : list (TLOp env)) (s : TL env) : list (Res Table) :=
  match ops with
  | [] => []
  | o :: r => tl_returns o s :: tl_outcomes r (fst (tl_call env parse_unit o s))
  end.
Definition ir_returns (o : IROp env) (s : IR env) : Res Table :=
  match o with
  | IRunScenarios _ sc dv => snd (run_scenarios env parse_unit (ir_variant env) sc dv s)
  | _ => match snd (ir_call env parse_unit o s) with Ok _ => Ok [] | Err e => Err e end
  end.
Fixpoint ir_outcomes (ops : list (IROp env)) (s : IR env) : list (Res Table) :=
  match ops with
  | [] => []
  | o :: r => ir_returns o s :: ir_outcomes r (fst (ir_call env parse_unit o s))
  end.

(** Objects in memory, and threads each working on one of them. *)
Definition Memory : Type := ((nat -> TL env) * (nat -> IR env))%type.
Inductive Worker : Type :=
| OnTL (i : nat) (ops : list (TLOp env))
| OnIR (i : nat) (ops : list (IROp env)).
Definition object_of (w : Worker) : nat + nat := match w with OnTL i _ => inl i | OnIR i _ => inr i end.
Definition at_put {X} (f : nat -> X) (i : nat) (x : X) : nat -> X := fun j => if Nat.eqb i j then x else f j.
Definition worker_thread (w : Worker) : Prog Memory (list (Res Table)) :=
  match w with
  | OnTL i ops => plift (fun m : Memory => fst m i) (fun s m => (at_put (fst m) i s, snd m)) (ptl_thread env parse_unit ops)
  | OnIR i ops => plift (fun m : Memory => snd m i) (fun s m => (fst m, at_put (snd m) i s)) (pir_thread env parse_unit ops)
  end.

(** Assigning parameters. *)
Definition tl_assigning (l : list (tl_param * PyVal env)) : list (TLOp env) :=
  map (fun x => match fst x with
                | Pdu => TSetDu env (snd x) | Pdl => TSetDl env (snd x) | Plambda0 => TSetLambda0 env (snd x)
                | Pa => TSetA env (snd x) | Pefficacy => TSetEfficacy env (snd x) | Peta => TSetEta env (snd x)
                | Pdelta_t => TSetDeltaT env (snd x)
                end) l.
Definition ir_assigning (l : list (ir_param * PyVal env)) : list (IROp env) :=
  map (fun x => match fst x with
                | Pq1 => ISetQ1 env (snd x) | Pq2 => ISetQ2 env (snd x) | Pd1 => ISetD1 env (snd x)
                | Pd2 => ISetD2 env (snd x) | Peff => ISetEfficacy env (snd x) | Pdt => ISetDeltaT env (snd x)
                end) l.
(** No two threads assign the same parameter. *)
Definition separate {P X : Type} (threads : list (list (P * X))) : Prop :=
  forall i j li lj p, i <> j -> nth_error threads i = Some li -> nth_error threads j = Some lj ->
    In p (map fst li) -> In p (map fst lj) -> False.
End SpecThreads.

(** ** Parameters assigned while a run goes on *)
Section During.
Variable env : Env.
(** One Euler step of the published equations with these numbers:
    C dT/dt = F - (lambda0 - a T) T - efficacy eta (T - T_D), C_D dT_D/dt = eta (T - T_D),
    and the heat uptake. *)
Definition upper_step (dt lambda0 a efficacy eta C T TD F : num env) : num env :=
  nadd env T (nmul env dt (ndiv env
    (nsub env (nsub env F (nmul env (nsub env lambda0 (nmul env a T)) T)) (nmul env (nmul env efficacy eta) (nsub env T TD))) C)).
Definition lower_step (dt eta CD T TD : num env) : num env :=
  nadd env TD (nmul env dt (ndiv env (nmul env eta (nsub env T TD)) CD)).
Definition uptake (dt C CD T T' TD TD' : num env) : num env :=
  nadd env (ndiv env (nmul env C (nsub env T' T)) dt) (ndiv env (nmul env CD (nsub env TD' TD)) dt).
(** Entry [i] of a series. *)
Definition entry (l : list (num env)) (i : nat) : num env := nth i l (nnan env).
(** [r j i]: how many assignments had taken effect when step [j] read its [i]-th number. *)
Definition in_order (r : nat -> nat -> nat) : Prop :=
  (forall j i, (i < 11)%nat -> (r j i <= r j (S i))%nat) /\ (forall j, (r j 11 <= r (S j) 0)%nat).
(** The object's results are Euler steps, each number being the one the object [P j i] has:
    step [j] reads delta_t, lambda0, a, efficacy, eta, C; delta_t, eta, C_D; delta_t, C_D, C. *)
Definition stepwise (P : nat -> nat -> TL env) (F : nat -> num env) (n : nat) (x : TL env) : Prop :=
  let T := entry (tl_temp_upper env x) in let TD := entry (tl_temp_lower env x) in let N := entry (tl_rndt env x) in
  List.length (tl_temp_upper env x) = n /\ List.length (tl_temp_lower env x) = n /\ List.length (tl_rndt env x) = n /\
  ((0 < n)%nat -> T 0%nat = nQ env 0 /\ TD 0%nat = nQ env 0 /\ N 0%nat = nQ env 0) /\
  forall j, (S j < n)%nat ->
    T (S j) = upper_step (tl_delta_t_mag env (P j 0%nat)) (tl_lambda0_mag env (P j 1%nat)) (tl_a_mag env (P j 2%nat))
                (tl_efficacy_mag env (P j 3%nat)) (tl_eta_mag env (P j 4%nat)) (tl_hcu_mag env (P j 5%nat)) (T j) (TD j) (F j) /\
    TD (S j) = lower_step (tl_delta_t_mag env (P j 6%nat)) (tl_eta_mag env (P j 7%nat)) (tl_hcl_mag env (P j 8%nat)) (T j) (TD j) /\
    N (S j) = uptake (tl_delta_t_mag env (P j 9%nat)) (tl_hcu_mag env (P j 11%nat)) (tl_hcl_mag env (P j 10%nat))
                (T j) (T (S j)) (TD j) (TD (S j)).

(** One step of a box of the impulse-response model: T exp(-dt/d) + F q (1 - exp(-dt/d)). *)
Definition box_step (dt q d T F : num env) : num env :=
  let decay := nexp env (ndiv env (nneg env dt) d) in
  nadd env (nmul env T decay) (nmul env (nmul env F q) (nsub env (nQ env 1) decay)).
(** The same for the impulse-response model, whose step [j] reads
    delta_t, q1, d1; delta_t, q2, d2. *)
Definition box_order (r : nat -> nat -> nat) : Prop :=
  (forall j i, (i < 5)%nat -> (r j i <= r j (S i))%nat) /\ (forall j, (r j 5 <= r (S j) 0)%nat).
Definition box_stepwise (P : nat -> nat -> IR env) (F : nat -> num env) (n : nat) (x : IR env) : Prop :=
  let T1 := entry (ir_temp1 env x) in let T2 := entry (ir_temp2 env x) in
  List.length (ir_temp1 env x) = n /\ List.length (ir_temp2 env x) = n /\
  ((0 < n)%nat -> T1 0%nat = nQ env 0 /\ T2 0%nat = nQ env 0) /\
  forall j, (S j < n)%nat ->
    T1 (S j) = box_step (ir_delta_t_mag env (P j 0%nat)) (ir_q1_mag env (P j 1%nat)) (ir_d1_mag env (P j 2%nat)) (T1 j) (F j) /\
    T2 (S j) = box_step (ir_delta_t_mag env (P j 3%nat)) (ir_q2_mag env (P j 4%nat)) (ir_d2_mag env (P j 5%nat)) (T2 j) (F j).
End During.
