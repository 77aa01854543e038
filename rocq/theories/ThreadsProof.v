(** Threads: general facts, and threads that run alone. *)
From Coq Require Import List String QArith ZArith Bool Arith Lia.
From RecordUpdate Require Import RecordUpdate.
From Verif Require Import Arith Pint Base TwoLayer Impulse Scm Api Spec Threads SpecThreads.
Import ListNotations.

(** ** Alone *)
Definition does {S A} (p : Prog S A) (m : Meth S A) : Prop := forall s, alone p s = m s.
Lemma does_atom {S A} (m : Meth S A) : does (patom m) m.
Proof. intros s. cbn. destruct (m s); reflexivity. Qed.
Lemma alone_bind {S A B} (p : Prog S A) (f : A -> Prog S B) s :
  alone (pbind p f) s = match alone p s with (s', Ok a) => alone (f a) s' | (s', Err e) => (s', Err e) end.
Proof. revert s. induction p as [[a|e]|w k IH]; intros s; cbn; try reflexivity. apply IH. Qed.
Lemma alone_catch {S A B} (p : Prog S A) (f : Res A -> Prog S B) s :
  alone (pcatch p f) s = let (s', r) := alone p s in alone (f r) s'.
Proof. revert s. induction p as [r|w k IH]; intros s; cbn; try reflexivity. apply IH. Qed.
Lemma does_bind {S A B} (p : Prog S A) m (f : A -> Prog S B) g :
  does p m -> (forall a, does (f a) (g a)) -> does (pbind p f) (mbind m g).
Proof.
  intros H1 H2 s. rewrite alone_bind, H1. unfold mbind. destruct (m s) as [s1 [a|e]]; [apply H2|reflexivity].
Qed.
Lemma does_val {S A} (r : Res A) : does (S := S) (pval r) (fun s => (s, r)).
Proof. intros s. reflexivity. Qed.
Lemma does_pval_read {S A} (r : Res A) : does (S := S) (pval r) (mread (fun _ => r)).
Proof. intros s. reflexivity. Qed.
Lemma does_ext {S A} (p : Prog S A) m m' : (forall s, m s = m' s) -> does p m -> does p m'.
Proof. intros E H s. rewrite H. apply E. Qed.

Section ATL.
Variable env : Env.
Lemma does_tl_set p v : does (match p with
    | Pdu => ptl_set_du env | Pdl => ptl_set_dl env | Plambda0 => ptl_set_lambda0 env
    | Pa => ptl_set_a env | Pefficacy => ptl_set_efficacy env | Peta => ptl_set_eta env
    | Pdelta_t => ptl_set_delta_t env end v) (tl_param_set env p v).
Proof.
  destruct p; (apply does_bind; [apply does_pval_read|intros q]; apply does_bind; [apply does_atom|intros _];
    apply does_bind; [apply does_pval_read|intros m]); try apply does_atom;
    (apply does_bind; [apply does_atom|intros _]; apply does_bind; [apply does_atom|intros h]; apply does_atom).
Qed.
Lemma does_tl_set_erf v : does (ptl_set_erf env v) (tl_set_erf env v).
Proof.
  apply does_bind; [apply does_pval_read|intros q]. apply does_bind; [apply does_atom|intros _].
  apply does_bind; [apply does_pval_read|intros m]. apply does_atom.
Qed.
Lemma does_tl_set_drivers e : does (ptl_set_drivers env e) (tl_set_drivers env e).
Proof. destruct e; cbn [ptl_set_drivers tl_set_drivers]; try apply does_val; apply does_tl_set_erf. Qed.
Lemma does_tl_reset : does (ptl_reset env) (tl_reset env).
Proof.
  intros s. unfold ptl_reset, tl_reset. rewrite alone_bind. cbn [alone patom pget mread fst snd]. unfold mbind at 1, mread at 1.
  destruct (match tl_erf env s with None => true | Some q => existsb (nisnan env) (mags q) end); [reflexivity|].
  unfold ptl_nans, mbind, mmod, mread. cbn [alone patom pread pwrite pbind mread mmod fst snd tl_erf_mag set].
  destruct (tl_erf_mag env s) as [m|] eqn:E.
  - cbn [alone patom pread pwrite pbind mread mmod fst snd tl_erf_mag set]. rewrite E.
    cbn [alone patom pread pwrite pbind mread mmod fst snd tl_erf_mag set]. rewrite E.
    cbn [alone patom pread pwrite pbind mread mmod fst snd tl_erf_mag set]. reflexivity.
  - cbn [alone patom pread pwrite pbind mread mmod fst snd tl_erf_mag set]. reflexivity.
Qed.
Lemma does_tl_step : does (ptl_step env) (tl_step env).
Proof.
  intros s. unfold ptl_step, tl_step, ptl_advance. rewrite !alone_bind.
  cbn [alone patom pget mread fst snd]. unfold mbind at 1, mmod at 1.
  destruct (tl_idx env s) as [j|] eqn:Ei.
  - rewrite alone_bind. cbn [alone patom pget pwrite mread mmod fst snd].
    rewrite alone_bind. cbn [alone patom pget pwrite mread mmod fst snd tl_idx set]. rewrite Ei. cbn [option_map].
    unfold mbind at 1, mread at 1. cbn [tl_idx set]. rewrite ?Ei.
    unfold tl_step_at, ptl_next_upper, ptl_next_lower, ptl_next_rndt, ptl_put_upper, ptl_put_lower, ptl_put_rndt,
      tl_put_upper, tl_put_lower, tl_put_rndt, mbind, mread, mmod, tl_erf_before, tl_erf_at.
    repeat (cbn [alone patom pget pread pwrite pbind mread mmod fst snd set before here put bind
        tl_idx tl_temp_upper tl_temp_lower tl_rndt tl_erf_mag tl_delta_t_mag tl_lambda0_mag tl_a_mag tl_efficacy_mag
        tl_eta_mag tl_hcu_mag tl_hcl_mag];
      match goal with
      | |- context [match ?x with Ok _ => _ | Err _ => _ end] =>
          lazymatch x with
          | lget _ _ => destruct x
          | lset _ _ _ => destruct x
          | match tl_erf_mag env s with _ => _ end => destruct (tl_erf_mag env s)
          end
      end); try reflexivity.
  - cbn [alone patom pget pwrite mread mmod fst snd].
    rewrite alone_bind. cbn [alone patom pget pwrite mread mmod fst snd tl_idx set].
    unfold mbind at 1, mread at 1. cbn [tl_idx set].
    unfold tl_step_at, ptl_put_upper, ptl_put_lower, ptl_put_rndt, tl_put_upper, tl_put_lower, tl_put_rndt, mbind, mread, mmod.
    repeat (cbn [alone patom pget pread pwrite pbind mread mmod fst snd set before here put bind
        tl_idx tl_temp_upper tl_temp_lower tl_rndt];
      match goal with
      | |- context [match ?x with Ok _ => _ | Err _ => _ end] =>
          lazymatch x with
          | lset _ _ _ => destruct x
          end
      end); try reflexivity.
Qed.
Lemma does_tl_steps n : does (ptl_steps env n) (tl_steps env n).
Proof. induction n; [apply does_val|]. apply does_bind; [apply does_tl_step|]. intros _. exact IHn. Qed.
Lemma does_tl_run : does (ptl_run env) (tl_run env).
Proof. intros s. unfold ptl_run, tl_run. cbn [pbind pget patom alone mread fst snd]. apply does_tl_steps. Qed.
End ATL.
Section AIR.
Variable env : Env.
Lemma does_ir_set p v : does (match p with
    | Pq1 => pir_set_q1 env | Pq2 => pir_set_q2 env | Pd1 => pir_set_d1 env
    | Pd2 => pir_set_d2 env | Peff => pir_set_efficacy env | Pdt => pir_set_delta_t env end v) (ir_param_set env p v).
Proof.
  destruct p; (apply does_bind; [apply does_pval_read|intros q]; apply does_bind; [apply does_atom|intros _];
    apply does_bind; [apply does_pval_read|intros m]); try apply does_atom;
    (apply does_bind; [apply does_atom|intros _]; apply does_bind; [apply does_atom|intros h]; apply does_atom).
Qed.
Lemma does_ir_set_erf v : does (pir_set_erf env v) (ir_set_erf env v).
Proof.
  apply does_bind; [apply does_pval_read|intros q]. apply does_bind; [apply does_atom|intros _].
  apply does_bind; [apply does_pval_read|intros m]. apply does_atom.
Qed.
Lemma does_ir_set_drivers e : does (pir_set_drivers env e) (ir_set_drivers env e).
Proof. destruct e; cbn [pir_set_drivers ir_set_drivers]; try apply does_val; apply does_ir_set_erf. Qed.
Lemma does_ir_reset : does (pir_reset env) (ir_reset env).
Proof.
  intros s. unfold pir_reset, ir_reset. rewrite alone_bind. cbn [alone patom pget mread fst snd]. unfold mbind at 1, mread at 1.
  destruct (match ir_erf env s with None => true | Some q => existsb (nisnan env) (mags q) end); [reflexivity|].
  unfold pir_nans, mbind, mmod, mread. cbn [alone patom pread pwrite pbind mread mmod fst snd ir_erf_mag set].
  destruct (ir_erf_mag env s) as [m|] eqn:E.
  - cbn [alone patom pread pwrite pbind mread mmod fst snd ir_erf_mag set]. rewrite E.
    cbn [alone patom pread pwrite pbind mread mmod fst snd ir_erf_mag set]. rewrite E.
    cbn [alone patom pread pwrite pbind mread mmod fst snd ir_erf_mag set]. reflexivity.
  - cbn [alone patom pread pwrite pbind mread mmod fst snd ir_erf_mag set]. reflexivity.
Qed.
Lemma does_ir_step : does (pir_step env) (ir_step env).
Proof.
  intros s. unfold pir_step, ir_step, pir_advance. rewrite !alone_bind.
  cbn [alone patom pget mread fst snd]. unfold mbind at 1, mmod at 1.
  destruct (ir_idx env s) as [j|] eqn:Ei.
  - rewrite alone_bind. cbn [alone patom pget pwrite mread mmod fst snd].
    rewrite alone_bind. cbn [alone patom pget pwrite mread mmod fst snd ir_idx set]. rewrite Ei. cbn [option_map].
    unfold mbind at 1, mread at 1. cbn [ir_idx set]. rewrite ?Ei.
    unfold ir_step_at, pir_next_temp1, pir_next_temp2, pir_next_rndt, pir_put_temp1, pir_put_temp2, pir_put_rndt,
      ir_put_temp1, ir_put_temp2, ir_put_rndt, mbind, mread, mmod, ir_erf_before, ir_erf_at.
    repeat (cbn [alone patom pget pread pwrite pbind mread mmod fst snd set before here put bind
        ir_idx ir_temp1 ir_temp2 ir_rndt ir_erf_mag ir_delta_t_mag ir_q1_mag ir_q2_mag ir_d1_mag ir_d2_mag ir_efficacy_mag pval];
      match goal with
      | |- context [match ?x with Ok _ => _ | Err _ => _ end] =>
          lazymatch x with
          | lget _ _ => destruct x
          | calculate_next_temp _ _ _ _ _ _ => destruct x
          | ir_calculate_next_rndt _ _ _ _ _ _ => destruct x
          | lset _ _ _ => destruct x
          | match ir_erf_mag env s with _ => _ end => destruct (ir_erf_mag env s)
          end
      end); try reflexivity.
  - cbn [alone patom pget pwrite mread mmod fst snd].
    rewrite alone_bind. cbn [alone patom pget pwrite mread mmod fst snd ir_idx set].
    unfold mbind at 1, mread at 1. cbn [ir_idx set].
    unfold ir_step_at, pir_put_temp1, pir_put_temp2, pir_put_rndt, ir_put_temp1, ir_put_temp2, ir_put_rndt, mbind, mread, mmod.
    repeat (cbn [alone patom pget pread pwrite pbind mread mmod fst snd set before here put bind
        ir_idx ir_temp1 ir_temp2 ir_rndt];
      match goal with
      | |- context [match ?x with Ok _ => _ | Err _ => _ end] =>
          lazymatch x with
          | lset _ _ _ => destruct x
          end
      end); try reflexivity.
Qed.
Lemma does_ir_steps n : does (pir_steps env n) (ir_steps env n).
Proof. induction n; [apply does_val|]. apply does_bind; [apply does_ir_step|]. intros _. exact IHn. Qed.
Lemma does_ir_run : does (pir_run env) (ir_run env).
Proof. intros s. unfold pir_run, ir_run. cbn [pbind pget patom alone mread fst snd]. apply does_ir_steps. Qed.
End AIR.

Section AScn.
Context (env : Env) (pu : string -> option (Qty env)) (V : Variant env).
Variable pdt : PyVal env -> Prog (v_state env V) unit.
Variable pdr : ErfArg env -> Prog (v_state env V) unit.
Variable pre : Prog (v_state env V) unit.
Variable pru : Prog (v_state env V) unit.
Hypothesis Hdt : forall v, does (pdt v) (v_set_delta_t env V v).
Hypothesis Hdr : forall e, does (pdr e) (v_set_drivers env V e).
Hypothesis Hre : does pre (v_reset env V).
Hypothesis Hru : does pru (v_run env V).
Lemma does_run_row i times r : does (prun_row env pu V pdr pre pru i times r) (run_row env pu V i times r).
Proof.
  unfold prun_row, run_row. apply does_bind; [apply does_pval_read|]. intros u.
  apply does_bind; [apply Hdr|]. intros _. apply does_bind; [apply Hre|]. intros _.
  apply does_bind; [apply Hru|]. intros _. apply does_bind; [apply does_atom|]. intros outs. cbv zeta.
  destruct (has_dup _ _); apply does_val.
Qed.
Lemma does_run_rows times rows : forall i, does (prun_rows env pu V pdr pre pru i times rows) (run_rows env pu V i times rows).
Proof.
  induction rows as [|r rows IH]; intros i; [apply does_val|]. cbn [prun_rows run_rows].
  apply does_bind; [apply does_run_row|]. intros x. apply does_bind; [apply IH|]. intros xs. apply does_val.
Qed.
Lemma does_run_scenarios sc dv : does (prun_scenarios env pu V pdt pdr pre pru sc dv) (run_scenarios env pu V sc dv).
Proof.
  unfold prun_scenarios, run_scenarios. apply does_bind; [apply does_atom|]. intros save. cbv zeta.
  destruct (Nat.eqb _ 0); [apply does_val|]. apply does_bind; [apply does_pval_read|]. intros ts.
  apply does_bind; [apply Hdt|]. intros _. destruct (has_dup _ _); [apply does_val|].
  apply does_bind; [apply does_run_rows|]. intros out. destruct (has_dup _ _); apply does_val.
Qed.
End AScn.

Section AApi.
Context (env : Env) (pu : string -> option (Qty env)).
Lemma does_tl_run_scenarios sc dv : does (ptl_run_scenarios env pu sc dv) (run_scenarios env pu (tl_variant env) sc dv).
Proof.
  apply (does_run_scenarios env pu (tl_variant env) (ptl_set_delta_t env) (ptl_set_drivers env) (ptl_reset env) (ptl_run env)).
  - intros v. apply (does_tl_set env Pdelta_t v).
  - apply does_tl_set_drivers.
  - apply does_tl_reset.
  - apply does_tl_run.
Qed.
Lemma does_ir_run_scenarios sc dv : does (pir_run_scenarios env pu sc dv) (run_scenarios env pu (ir_variant env) sc dv).
Proof.
  apply (does_run_scenarios env pu (ir_variant env) (pir_set_delta_t env) (pir_set_drivers env) (pir_reset env) (pir_run env)).
  - intros v. apply (does_ir_set env Pdt v).
  - apply does_ir_set_drivers.
  - apply does_ir_reset.
  - apply does_ir_run.
Qed.
Lemma none_alone {S} (p : Prog S unit) m s : does p m ->
  alone (pnone env p) s = (fst (m s), match snd (m s) with Ok _ => Ok [] | Err e => Err e end).
Proof. intros H. unfold pnone. rewrite alone_bind, H. destruct (m s) as [s' [[]|e]]; reflexivity. Qed.
Lemma alone_tl_call o s : alone (ptl_call env pu o) s = (fst (tl_call env pu o s), tl_returns env pu o s).
Proof.
  destruct o; cbn [ptl_call tl_call tl_returns].
  - apply none_alone, (does_tl_set env Pdu).
  - apply none_alone, (does_tl_set env Pdl).
  - apply none_alone, (does_tl_set env Plambda0).
  - apply none_alone, (does_tl_set env Pa).
  - apply none_alone, (does_tl_set env Pefficacy).
  - apply none_alone, (does_tl_set env Peta).
  - apply none_alone, (does_tl_set env Pdelta_t).
  - apply none_alone, does_tl_set_erf.
  - apply none_alone, does_tl_set_drivers.
  - apply none_alone, does_tl_reset.
  - apply none_alone, does_tl_step.
  - apply none_alone, does_tl_run.
  - rewrite does_tl_run_scenarios. unfold forget, mbind. match goal with |- context [run_scenarios ?a ?b ?c ?d ?e s] => destruct (run_scenarios a b c d e s) as [? [?|?]]; reflexivity end.
Qed.
Lemma alone_ir_call o s : alone (pir_call env pu o) s = (fst (ir_call env pu o s), ir_returns env pu o s).
Proof.
  destruct o; cbn [pir_call ir_call ir_returns].
  - apply none_alone, (does_ir_set env Pq1).
  - apply none_alone, (does_ir_set env Pq2).
  - apply none_alone, (does_ir_set env Pd1).
  - apply none_alone, (does_ir_set env Pd2).
  - apply none_alone, (does_ir_set env Peff).
  - apply none_alone, (does_ir_set env Pdt).
  - apply none_alone, does_ir_set_erf.
  - apply none_alone, does_ir_set_drivers.
  - apply none_alone, does_ir_reset.
  - apply none_alone, does_ir_step.
  - apply none_alone, does_ir_run.
  - rewrite does_ir_run_scenarios. unfold forget, mbind. match goal with |- context [run_scenarios ?a ?b ?c ?d ?e s] => destruct (run_scenarios a b c d e s) as [? [?|?]]; reflexivity end.
Qed.
Lemma alone_tl_thread ops s : alone (ptl_thread env pu ops) s = (tl_calls env pu ops s, Ok (tl_outcomes env pu ops s)).
Proof.
  revert s. induction ops as [|o ops IH]; intros s; [reflexivity|]. unfold ptl_thread. cbn [pcalls].
  rewrite alone_catch, alone_tl_call, alone_catch. unfold ptl_thread in IH. rewrite IH. reflexivity.
Qed.
Lemma alone_ir_thread ops s : alone (pir_thread env pu ops) s = (ir_calls env pu ops s, Ok (ir_outcomes env pu ops s)).
Proof.
  revert s. induction ops as [|o ops IH]; intros s; [reflexivity|]. unfold pir_thread. cbn [pcalls].
  rewrite alone_catch, alone_ir_call, alone_catch. unfold pir_thread in IH. rewrite IH. reflexivity.
Qed.
End AApi.
