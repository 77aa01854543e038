(** A run that is interrupted: how far the three series have got. *)
From Coq Require Import List String QArith ZArith Bool Arith Lia.
From RecordUpdate Require Import RecordUpdate.
From Verif Require Import Arith Pint Base TwoLayer Impulse Scm Api Spec GenTL GenTLHist GenIR GenIRHist Interrupt SpecInterrupt InterruptProof.
Import ListNotations.

Section RTL.
Variable env : Env.
Notation TL := (TL env).

(** One step: index, upper temperature, lower temperature, heat uptake. *)
Definition tl_part (s s1 : TL) (r : nat) : TL :=
  with_run env s (if Nat.leb 1 r then tl_idx env s1 else tl_idx env s)
    (if Nat.leb 2 r then tl_temp_upper env s1 else tl_temp_upper env s)
    (if Nat.leb 3 r then tl_temp_lower env s1 else tl_temp_lower env s)
    (if Nat.leb 4 r then tl_rndt env s1 else tl_rndt env s).
Lemma itl_step_cut s s1 : tl_step env s = (s1, Ok tt) ->
  (forall r, (r < 4)%nat -> itl_step env (Some r) s = (tl_part s s1 r, Some O, Stopped)) /\
  (forall k, itl_step env (Some (4 + k)%nat) s = (s1, Some k, Fin (Ok tt))).
Proof.
  assert (C : forall r, (r < 4)%nat -> r = 0%nat \/ r = 1%nat \/ r = 2%nat \/ r = 3%nat) by (intros; lia).
  destruct s as [s01 s02 s03 s04 s05 s06 s07 m01 m02 m03 m04 m05 m06 m07 h1 h2 e em U L R i].
  unfold tl_step, itl_step, tl_step_at, itl_step_at, tl_put_upper, tl_put_lower, tl_put_rndt,
    itl_put_upper, itl_put_lower, itl_put_rndt, tl_part, with_run.
  set (b := match i with None => 0%nat | Some j => S j end).
  assert (Ei : match i with None => Some 0%nat | Some j => Some (S j) end = Some b) by (destruct i; reflexivity).
  destruct b as [|j]; cbv [mbind mread mmod mret mraise ibind iread iwrite iret];
    cbn [set tl_idx]; rewrite Ei; unfold tl_erf_at; cbn [set tl_erf_mag tl_temp_upper tl_temp_lower tl_rndt bind];
    repeat (match goal with
    | |- context [lget ?a ?b] => destruct (lget a b) as [?|?] eqn:?
    | |- context [lset ?a ?b ?c] => destruct (lset a b c) as [?|?] eqn:?
    | |- context [match em with _ => _ end] => destruct em as [?|] eqn:?
    end; cbn [bind set tl_idx tl_erf_mag tl_temp_upper tl_temp_lower tl_rndt tl_delta_t_mag tl_lambda0_mag
              tl_a_mag tl_efficacy_mag tl_eta_mag tl_hcu_mag tl_hcl_mag]; try discriminate);
    intros [= <-]; (split; [intros r Hr; destruct (C r Hr) as [->|[->|[->| ->]]]|intros k]);
    repeat match goal with H : Ok _ = Ok _ |- _ => injection H as H; subst end; try subst em;
    repeat (cbn [Nat.add bind set tl_idx tl_erf_mag tl_temp_upper tl_temp_lower tl_rndt tl_delta_t_mag tl_lambda0_mag
              tl_a_mag tl_efficacy_mag tl_eta_mag tl_hcu_mag tl_hcl_mag];
      match goal with
      | H : _ = Some _ |- _ => rewrite H
      | H : lget _ _ = Ok _ |- _ => rewrite H
      | H : lset _ _ _ = Ok _ |- _ => rewrite H
      end); reflexivity.
Qed.

(** A run from the state after [reset], [a] entries being done. *)
Definition tl_cut (s : TL) (m : list (num env)) (a k : nat) : TL :=
  with_run env s (idx_of (a + (k + 3) / 4)) (fill (nnan env) (trajU env s (at_ env m)) (a + (k + 2) / 4) (List.length m))
    (fill (nnan env) (trajL env s (at_ env m)) (a + (k + 1) / 4) (List.length m))
    (fill (nnan env) (trajR env s (at_ env m)) (a + k / 4) (List.length m)).
Lemma itl_steps_cut s m : tl_erf_mag env s = Some m -> forall n a k,
  (a + n <= List.length m)%nat -> (k < 4 * n)%nat ->
  itl_steps env n (Some k) (filled env s m a) = (tl_cut s m a k, Some O, Stopped).
Proof.
  intros Hm. induction n as [|n IH]; intros a k Ha Hk; [lia|].
  destruct (itl_step_cut _ _ (step_filled env s m a Hm ltac:(lia))) as [P Q].
  cbn [itl_steps]. unfold ibind.
  destruct (le_lt_dec 4 k) as [L|L].
  - destruct (Nat.le_exists_sub 4 k L) as (k' & -> & _). rewrite (Nat.add_comm k' 4), Q.
    rewrite IH by lia. f_equal. f_equal. unfold tl_cut.
    replace (4 + k' + 3)%nat with (k' + 3 + 1 * 4)%nat by lia. replace (4 + k' + 2)%nat with (k' + 2 + 1 * 4)%nat by lia.
    replace (4 + k' + 1)%nat with (k' + 1 + 1 * 4)%nat by lia. replace (4 + k')%nat with (k' + 1 * 4)%nat by lia.
    rewrite !Nat.div_add by lia. rewrite !Nat.add_1_r, <- !Nat.add_succ_comm. reflexivity.
  - rewrite P by exact L. f_equal. f_equal. unfold tl_part, tl_cut.
    assert (C : k = 0%nat \/ k = 1%nat \/ k = 2%nat \/ k = 3%nat) by lia.
    destruct C as [->|[->|[->| ->]]]; cbn [Nat.leb Nat.add Nat.div Nat.divmod fst snd];
      change ((0+3)/4)%nat with 0%nat; rewrite ?Nat.add_0_r, ?(Nat.add_comm a 1); reflexivity.
Qed.
End RTL.

Section RIR.
Variable env : Env.
Notation IR := (IR env).

(** One step: index, upper temperature, lower temperature, heat uptake. *)
Definition ir_part (s s1 : IR) (r : nat) : IR :=
  iwith_run env s (if Nat.leb 1 r then ir_idx env s1 else ir_idx env s)
    (if Nat.leb 2 r then ir_temp1 env s1 else ir_temp1 env s)
    (if Nat.leb 3 r then ir_temp2 env s1 else ir_temp2 env s)
    (if Nat.leb 4 r then ir_rndt env s1 else ir_rndt env s).
Lemma iir_step_cut s s1 : ir_step env s = (s1, Ok tt) ->
  (forall r, (r < 4)%nat -> iir_step env (Some r) s = (ir_part s s1 r, Some O, Stopped)) /\
  (forall k, iir_step env (Some (4 + k)%nat) s = (s1, Some k, Fin (Ok tt))).
Proof.
  assert (C : forall r, (r < 4)%nat -> r = 0%nat \/ r = 1%nat \/ r = 2%nat \/ r = 3%nat) by (intros; lia).
  destruct s as [s01 s02 s03 s04 s05 s06 m01 m02 m03 m04 m05 m06 e em U L R i].
  unfold ir_step, iir_step, ir_step_at, iir_step_at, ir_put_temp1, ir_put_temp2, ir_put_rndt,
    iir_put_temp1, iir_put_temp2, iir_put_rndt, ir_part, iwith_run.
  set (b := match i with None => 0%nat | Some j => S j end).
  assert (Ei : match i with None => Some 0%nat | Some j => Some (S j) end = Some b) by (destruct i; reflexivity).
  destruct b as [|j]; cbv [mbind mread mmod mret mraise ibind iread iwrite iret];
    cbn [set ir_idx]; rewrite Ei; unfold ir_erf_at; cbn [set ir_erf_mag ir_temp1 ir_temp2 ir_rndt bind];
    repeat (match goal with
    | |- context [lget ?a ?b] => destruct (lget a b) as [?|?] eqn:?
    | |- context [lset ?a ?b ?c] => destruct (lset a b c) as [?|?] eqn:?
    | |- context [calculate_next_temp env ?a ?b ?c ?d ?e] => destruct (calculate_next_temp env a b c d e) as [?|?] eqn:?
    | |- context [ir_calculate_next_rndt env ?a ?b ?c ?d ?e] => destruct (ir_calculate_next_rndt env a b c d e) as [?|?] eqn:?
    | |- context [match em with _ => _ end] => destruct em as [?|] eqn:?
    end; cbn [bind set ir_idx ir_erf_mag ir_temp1 ir_temp2 ir_rndt ir_delta_t_mag ir_q1_mag
              ir_q2_mag ir_d1_mag ir_d2_mag ir_efficacy_mag]; try discriminate);
    intros [= <-]; (split; [intros r Hr; destruct (C r Hr) as [->|[->|[->| ->]]]|intros k]);
    repeat match goal with H : Ok _ = Ok _ |- _ => injection H as H; subst end; try subst em;
    repeat (cbn [Nat.add bind set ir_idx ir_erf_mag ir_temp1 ir_temp2 ir_rndt ir_delta_t_mag ir_q1_mag
              ir_q2_mag ir_d1_mag ir_d2_mag ir_efficacy_mag];
      match goal with
      | H : _ = Some _ |- _ => rewrite H
      | H : lget _ _ = Ok _ |- _ => rewrite H
      | H : lset _ _ _ = Ok _ |- _ => rewrite H
      | H : calculate_next_temp _ _ _ _ _ _ = Ok _ |- _ => rewrite H
      | H : ir_calculate_next_rndt _ _ _ _ _ _ = Ok _ |- _ => rewrite H
      end); reflexivity.
Qed.

(** A run from the state after [reset], [a] entries being done. *)
Definition ir_cut (s : IR) hp (m : list (num env)) (a k : nat) : IR :=
  iwith_run env s (idx_of (a + (k + 3) / 4)) (fill (nnan env) (iT1 env s (iat env m)) (a + (k + 2) / 4) (List.length m))
    (fill (nnan env) (iT2 env s (iat env m)) (a + (k + 1) / 4) (List.length m))
    (fill (nnan env) (iR env s hp (iat env m)) (a + k / 4) (List.length m)).
Lemma iir_steps_cut s hp m : ir_erf_mag env s = Some m -> (List.length m <= 1)%nat \/ step_status env s = Ok hp -> forall n a k,
  (a + n <= List.length m)%nat -> (k < 4 * n)%nat ->
  iir_steps env n (Some k) (ifilled env s hp m a) = (ir_cut s hp m a k, Some O, Stopped).
Proof.
  intros Hm Hst. induction n as [|n IH]; intros a k Ha Hk; [lia|].
  assert (E : ir_step env (ifilled env s hp m a) = (ifilled env s hp m (S a), Ok tt)).
  { destruct a as [|j]; [apply istep_first; lia|].
    destruct Hst as [Hst|Hst]; [lia|]. apply istep_next; auto; lia. }
  destruct (iir_step_cut _ _ E) as [P Q].
  cbn [iir_steps]. unfold ibind.
  destruct (le_lt_dec 4 k) as [L|L].
  - destruct (Nat.le_exists_sub 4 k L) as (k' & -> & _). rewrite (Nat.add_comm k' 4), Q.
    rewrite IH by lia. f_equal. f_equal. unfold ir_cut.
    replace (4 + k' + 3)%nat with (k' + 3 + 1 * 4)%nat by lia. replace (4 + k' + 2)%nat with (k' + 2 + 1 * 4)%nat by lia.
    replace (4 + k' + 1)%nat with (k' + 1 + 1 * 4)%nat by lia. replace (4 + k')%nat with (k' + 1 * 4)%nat by lia.
    rewrite !Nat.div_add by lia. rewrite !Nat.add_1_r, <- !Nat.add_succ_comm. reflexivity.
  - rewrite P by exact L. f_equal. f_equal. unfold ir_part, ir_cut.
    assert (C : k = 0%nat \/ k = 1%nat \/ k = 2%nat \/ k = 3%nat) by lia.
    destruct C as [->|[->|[->| ->]]]; cbn [Nat.leb Nat.add Nat.div Nat.divmod fst snd];
      change ((0+3)/4)%nat with 0%nat; rewrite ?Nat.add_0_r, ?(Nat.add_comm a 1); reflexivity.
Qed.
End RIR.
