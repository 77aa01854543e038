(** Interruptible methods: without interruption they are the methods of the model;
    what holds wherever they stop. *)
From Coq Require Import List String QArith ZArith Bool Arith Lia.
From RecordUpdate Require Import RecordUpdate.
From Verif Require Import Arith Pint Base TwoLayer Impulse Scm Api Spec GenTL GenTLHist Interrupt SpecInterrupt.
Import ListNotations.

(** ** Counting writes *)
Definition counted {S A} (im : IMeth S A) (m : Meth S A) : Prop :=
  (forall s, im None s = (fst (m s), None, Fin (snd (m s)))) /\
  (forall s, exists n, (forall j, im (Some (n + j)%nat) s = (fst (m s), Some j, Fin (snd (m s)))) /\
                       (forall k, (k < n)%nat -> exists s', im (Some k) s = (s', Some O, Stopped))).

Lemma counted_ret {S A} (a : A) : counted (S := S) (iret a) (mret a).
Proof. split; [reflexivity|]. intros s. exists 0%nat. split; [reflexivity|]. intros k H. lia. Qed.
Lemma counted_raise {S A} e : counted (S := S) (A := A) (iraise e) (mraise e).
Proof. split; [reflexivity|]. intros s. exists 0%nat. split; [reflexivity|]. intros k H. lia. Qed.
Lemma counted_read {S A} (r : S -> Res A) : counted (iread r) (mread r).
Proof. split; [reflexivity|]. intros s. exists 0%nat. split; [reflexivity|]. intros k H. lia. Qed.
Lemma counted_write {S} (f : S -> S) : counted (iwrite f) (mmod f).
Proof.
  split; [reflexivity|]. intros s. exists 1%nat. split; [reflexivity|]. intros k H.
  replace k with 0%nat by lia. exists s. reflexivity.
Qed.
Lemma counted_bind {S A B} (im : IMeth S A) m (jf : A -> IMeth S B) f :
  counted im m -> (forall a, counted (jf a) (f a)) -> counted (ibind im jf) (mbind m f).
Proof.
  intros [N1 C1] H2. split.
  - intros s. unfold ibind, mbind. rewrite N1. destruct (m s) as [s1 [a|e]]; cbn [fst snd]; [|reflexivity].
    apply H2.
  - intros s. destruct (C1 s) as (n & P & Q). unfold ibind, mbind. destruct (m s) as [s1 [a|e]]; cbn [fst snd] in *.
    + destruct (proj2 (H2 a) s1) as (n2 & P2 & Q2). exists (n + n2)%nat. split.
      * intros j. rewrite <- Nat.add_assoc, P. apply P2.
      * intros k Hk. destruct (le_lt_dec n k) as [L|L].
        -- replace k with (n + (k - n))%nat by lia. rewrite P. apply Q2. lia.
        -- destruct (Q k L) as (s' & ->). now exists s'.
    + exists n. split; [intros j; now rewrite P|]. intros k Hk. destruct (Q k Hk) as (s' & ->). now exists s'.
Qed.

Lemma counted_ext {S A} (im : IMeth S A) m m' : (forall s, m s = m' s) -> counted im m -> counted im m'.
Proof.
  intros E [N C]. split.
  - intros s. rewrite <- E. apply N.
  - intros s. destruct (C s) as (n & P & Q). exists n. split; [|exact Q]. intros j. rewrite <- E. apply P.
Qed.

Ltac counted_auto :=
  repeat first [apply counted_ret | apply counted_raise | apply counted_read | apply counted_write
               | apply counted_bind; [|intros ?] ].

Section CTL.
Variable env : Env.
Lemma counted_itl_set p v : counted (match p with
    | Pdu => itl_set_du env | Pdl => itl_set_dl env | Plambda0 => itl_set_lambda0 env
    | Pa => itl_set_a env | Pefficacy => itl_set_efficacy env | Peta => itl_set_eta env
    | Pdelta_t => itl_set_delta_t env end v) (tl_param_set env p v).
Proof. destruct p; counted_auto. Qed.
Lemma counted_itl_set_erf v : counted (itl_set_erf env v) (tl_set_erf env v).
Proof. counted_auto. Qed.
Lemma counted_itl_set_drivers e : counted (itl_set_drivers env e) (tl_set_drivers env e).
Proof. destruct e; cbn [itl_set_drivers tl_set_drivers]; try apply counted_raise; apply counted_itl_set_erf. Qed.
Lemma counted_itl_reset : counted (itl_reset env) (tl_reset env).
Proof.
  unfold itl_reset, tl_reset. apply counted_bind; [apply counted_read|]. intros [|]; [apply counted_raise|].
  apply counted_bind; [apply counted_write|]. intros _. apply counted_bind; [apply counted_read|]. intros m. cbv zeta.
  eapply counted_ext; [|counted_auto]. intros s. reflexivity.
Qed.
Lemma counted_itl_step : counted (itl_step env) (tl_step env).
Proof.
  unfold itl_step, tl_step. apply counted_bind; [apply counted_write|]. intros _.
  apply counted_bind; [apply counted_read|]. intros [|j]; cbn [itl_step_at tl_step_at];
    unfold itl_put_upper, itl_put_lower, itl_put_rndt, tl_put_upper, tl_put_lower, tl_put_rndt; counted_auto.
Qed.
Lemma counted_itl_steps n : counted (itl_steps env n) (tl_steps env n).
Proof. induction n; [apply counted_ret|]. apply counted_bind; [apply counted_itl_step|]. intros _. exact IHn. Qed.
Lemma counted_itl_run : counted (itl_run env) (tl_run env).
Proof.
  split; intros s; unfold itl_run, tl_run; [apply counted_itl_steps|].
  exact (proj2 (counted_itl_steps (tl_erf_len env s)) s).
Qed.
End CTL.

Section CIR.
Variable env : Env.
Lemma counted_iir_set p v : counted (match p with
    | Pq1 => iir_set_q1 env | Pq2 => iir_set_q2 env | Pd1 => iir_set_d1 env
    | Pd2 => iir_set_d2 env | Peff => iir_set_efficacy env | Pdt => iir_set_delta_t env end v) (ir_param_set env p v).
Proof. destruct p; counted_auto. Qed.
Lemma counted_iir_set_erf v : counted (iir_set_erf env v) (ir_set_erf env v).
Proof. counted_auto. Qed.
Lemma counted_iir_set_drivers e : counted (iir_set_drivers env e) (ir_set_drivers env e).
Proof. destruct e; cbn [iir_set_drivers ir_set_drivers]; try apply counted_raise; apply counted_iir_set_erf. Qed.
Lemma counted_iir_reset : counted (iir_reset env) (ir_reset env).
Proof.
  unfold iir_reset, ir_reset. apply counted_bind; [apply counted_read|]. intros [|]; [apply counted_raise|].
  apply counted_bind; [apply counted_write|]. intros _. apply counted_bind; [apply counted_read|]. intros m. cbv zeta.
  eapply counted_ext; [|counted_auto]. intros s. reflexivity.
Qed.
Lemma counted_iir_step : counted (iir_step env) (ir_step env).
Proof.
  unfold iir_step, ir_step. apply counted_bind; [apply counted_write|]. intros _.
  apply counted_bind; [apply counted_read|]. intros [|j]; cbn [iir_step_at ir_step_at];
    unfold iir_put_temp1, iir_put_temp2, iir_put_rndt, ir_put_temp1, ir_put_temp2, ir_put_rndt; counted_auto.
Qed.
Lemma counted_iir_steps n : counted (iir_steps env n) (ir_steps env n).
Proof. induction n; [apply counted_ret|]. apply counted_bind; [apply counted_iir_step|]. intros _. exact IHn. Qed.
Lemma counted_iir_run : counted (iir_run env) (ir_run env).
Proof.
  split; intros s; unfold iir_run, ir_run; [apply counted_iir_steps|].
  exact (proj2 (counted_iir_steps (ir_erf_len env s)) s).
Qed.
End CIR.

Section CScn.
Context (env : Env) (pu : string -> option (Qty env)) (V : Variant env).
Variable idt : PyVal env -> IMeth (v_state env V) unit.
Variable idr : ErfArg env -> IMeth (v_state env V) unit.
Variable ire : IMeth (v_state env V) unit.
Variable iru : IMeth (v_state env V) unit.
Hypothesis Hdt : forall v, counted (idt v) (v_set_delta_t env V v).
Hypothesis Hdr : forall e, counted (idr e) (v_set_drivers env V e).
Hypothesis Hre : counted ire (v_reset env V).
Hypothesis Hru : counted iru (v_run env V).
Lemma counted_irun_row i times r : counted (irun_row env pu V idr ire iru i times r) (run_row env pu V i times r).
Proof.
  unfold irun_row, run_row. apply counted_bind; [apply counted_read|]. intros u.
  apply counted_bind; [apply Hdr|]. intros _. apply counted_bind; [apply Hre|]. intros _.
  apply counted_bind; [apply Hru|]. intros _. apply counted_bind; [apply counted_read|]. intros outs. cbv zeta.
  destruct (has_dup _ _); [apply counted_raise|apply counted_ret].
Qed.
Lemma counted_irun_rows times rows : forall i, counted (irun_rows env pu V idr ire iru i times rows) (run_rows env pu V i times rows).
Proof.
  induction rows as [|r rows IH]; intros i; [apply counted_ret|]. cbn [irun_rows run_rows].
  apply counted_bind; [apply counted_irun_row|]. intros x. apply counted_bind; [apply IH|]. intros xs. apply counted_ret.
Qed.
Lemma counted_irun_scenarios sc dv : counted (irun_scenarios env pu V idt idr ire iru sc dv) (run_scenarios env pu V sc dv).
Proof.
  unfold irun_scenarios, run_scenarios. apply counted_bind; [apply counted_read|]. intros save. cbv zeta.
  destruct (Nat.eqb _ 0); [apply counted_raise|]. apply counted_bind; [apply counted_read|]. intros ts.
  apply counted_bind; [apply Hdt|]. intros _. destruct (has_dup _ _); [apply counted_raise|].
  apply counted_bind; [apply counted_irun_rows|]. intros out. destruct (has_dup _ _); [apply counted_raise|apply counted_ret].
Qed.
End CScn.

Section CApi.
Context (env : Env) (pu : string -> option (Qty env)).
Lemma counted_forget {S A} (im : IMeth S A) m : counted im m -> counted (iforget im) (forget m).
Proof. intros H. apply counted_bind; [exact H|]. intros x. apply counted_ret. Qed.
Lemma counted_itl_run_scenarios sc dv : counted (itl_run_scenarios env pu sc dv) (run_scenarios env pu (tl_variant env) sc dv).
Proof.
  apply (counted_irun_scenarios env pu (tl_variant env) (itl_set_delta_t env) (itl_set_drivers env) (itl_reset env) (itl_run env)).
  - intros v. apply (counted_itl_set env Pdelta_t v).
  - apply counted_itl_set_drivers.
  - apply counted_itl_reset.
  - apply counted_itl_run.
Qed.
Lemma counted_iir_run_scenarios sc dv : counted (iir_run_scenarios env pu sc dv) (run_scenarios env pu (ir_variant env) sc dv).
Proof.
  apply (counted_irun_scenarios env pu (ir_variant env) (iir_set_delta_t env) (iir_set_drivers env) (iir_reset env) (iir_run env)).
  - intros v. apply (counted_iir_set env Pdt v).
  - apply counted_iir_set_drivers.
  - apply counted_iir_reset.
  - apply counted_iir_run.
Qed.
Lemma counted_itl_call o : counted (itl_call env pu o) (tl_call env pu o).
Proof.
  destruct o; cbn [itl_call tl_call].
  - apply (counted_itl_set env Pdu).
  - apply (counted_itl_set env Pdl).
  - apply (counted_itl_set env Plambda0).
  - apply (counted_itl_set env Pa).
  - apply (counted_itl_set env Pefficacy).
  - apply (counted_itl_set env Peta).
  - apply (counted_itl_set env Pdelta_t).
  - apply counted_itl_set_erf.
  - apply counted_itl_set_drivers.
  - apply counted_itl_reset.
  - apply counted_itl_step.
  - apply counted_itl_run.
  - apply counted_forget, counted_itl_run_scenarios.
Qed.
Lemma counted_iir_call o : counted (iir_call env pu o) (ir_call env pu o).
Proof.
  destruct o; cbn [iir_call ir_call].
  - apply (counted_iir_set env Pq1).
  - apply (counted_iir_set env Pq2).
  - apply (counted_iir_set env Pd1).
  - apply (counted_iir_set env Pd2).
  - apply (counted_iir_set env Peff).
  - apply (counted_iir_set env Pdt).
  - apply counted_iir_set_erf.
  - apply counted_iir_set_drivers.
  - apply counted_iir_reset.
  - apply counted_iir_step.
  - apply counted_iir_run.
  - apply counted_forget, counted_iir_run_scenarios.
Qed.
End CApi.

(** ** What is kept wherever a call stops *)
Definition ikept {S A} (P : S -> Prop) (im : IMeth S A) : Prop := forall k s, P s -> P (fst (fst (im k s))).
Lemma ikept_ret {S A} P (a : A) : ikept (S := S) P (iret a).
Proof. intros k s H. exact H. Qed.
Lemma ikept_raise {S A} P e : ikept (S := S) (A := A) P (iraise e).
Proof. intros k s H. exact H. Qed.
Lemma ikept_read {S A} P (r : S -> Res A) : ikept P (iread r).
Proof. intros k s H. exact H. Qed.
Lemma ikept_write {S} (P : S -> Prop) f : (forall s, P s -> P (f s)) -> ikept P (iwrite f).
Proof. intros F [[|k]|] s H; cbn; auto. Qed.
Lemma ikept_bind {S A B} P (im : IMeth S A) (jf : A -> IMeth S B) :
  ikept P im -> (forall a, ikept P (jf a)) -> ikept P (ibind im jf).
Proof.
  intros H1 H2 k s H. unfold ibind. specialize (H1 k s H). destruct (im k s) as [[s1 k1] [[a|e]|]]; cbn [fst] in *; [|exact H1|exact H1].
  apply H2. exact H1.
Qed.
Ltac ikept_auto :=
  repeat first [apply ikept_ret | apply ikept_raise | apply ikept_read | (apply ikept_write; intros ? ?)
               | apply ikept_bind; [|intros ?] ].

Section KScn.
Context (env : Env) (pu : string -> option (Qty env)) (V : Variant env).
Variable P : v_state env V -> Prop.
Variable idt : PyVal env -> IMeth (v_state env V) unit.
Variable idr : ErfArg env -> IMeth (v_state env V) unit.
Variable ire : IMeth (v_state env V) unit.
Variable iru : IMeth (v_state env V) unit.
Hypothesis Hdt : forall v, ikept P (idt v).
Hypothesis Hdr : forall e, ikept P (idr e).
Hypothesis Hre : ikept P ire.
Hypothesis Hru : ikept P iru.
Lemma ikept_run_rows times rows : forall i, ikept P (irun_rows env pu V idr ire iru i times rows).
Proof.
  induction rows as [|r rows IH]; intros i; [apply ikept_ret|]. cbn [irun_rows].
  apply ikept_bind.
  - unfold irun_row. apply ikept_bind; [apply ikept_read|]. intros u.
    apply ikept_bind; [apply Hdr|]. intros _. apply ikept_bind; [apply Hre|]. intros _.
    apply ikept_bind; [apply Hru|]. intros _. apply ikept_bind; [apply ikept_read|]. intros outs. cbv zeta.
    destruct (has_dup _ _); [apply ikept_raise|apply ikept_ret].
  - intros x. apply ikept_bind; [apply IH|]. intros xs. apply ikept_ret.
Qed.
Lemma ikept_run_scenarios sc dv : ikept P (irun_scenarios env pu V idt idr ire iru sc dv).
Proof.
  unfold irun_scenarios. apply ikept_bind; [apply ikept_read|]. intros save. cbv zeta.
  destruct (Nat.eqb _ 0); [apply ikept_raise|]. apply ikept_bind; [apply ikept_read|]. intros ts.
  apply ikept_bind; [apply Hdt|]. intros _. destruct (has_dup _ _); [apply ikept_raise|].
  apply ikept_bind; [apply ikept_run_rows|]. intros out. destruct (has_dup _ _); [apply ikept_raise|apply ikept_ret].
Qed.
End KScn.
