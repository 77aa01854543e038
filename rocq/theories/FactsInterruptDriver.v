(** Property C67, continued: an interrupted set_drivers of an impulse-response model. *)
From Coq Require Import List String QArith ZArith Bool Arith Lia.
From RecordUpdate Require Import RecordUpdate.
From Verif Require Import Arith Pint Base TwoLayer Impulse Scm Api Spec Demo GenTL GenTLHist GenIR GenIRHist
  GenScm GenMeta GenRun GenRunInst GenLayout GenModel Interrupt SpecInterrupt InterruptProof InterruptRun GenInterrupt FactsRun FactsInterrupt.
Import ListNotations.

Section Env.
Variable env : Env.
Lemma isteps_app k1 k2 s : ir_steps env (k1 + k2) s = mbind (ir_steps env k1) (fun _ => ir_steps env k2) s.
Proof.
  revert s; induction k1 as [|k1 IH]; intros s; [reflexivity|].
  cbn [Nat.add ir_steps]. unfold mbind at 1 3. unfold mbind.
  destruct (ir_step env s) as [s' [[]|e]]; [|reflexivity].
  rewrite IH. reflexivity.
Qed.
End Env.

(** On an object that has been run with [e0]: the object is unchanged, or shows the new
    driver and runs with the old one for the length of the new one: a shorter run, or
    IndexError (ZeroDivisionError if the first run had only the one point that needs no
    division and the first timescale is zero). *)
Theorem c67_impulse_response_cut_driver : forall (env : Env) e0 s0 s e k s',
  ir_drive env e0 s0 = (s, Ok tt) -> stops (iir_set_drivers env (EQ1 e)) k s s' -> nan_free env e ->
  s' = s \/
  ir_erf env s' = Some e /\ exists t, ir_reset env s' = (t, Ok tt) /\
  ((List.length (mags e) <= List.length (mags e0))%nat -> exists t', ir_run env t = (t', Ok tt) /\
     begun (List.length (mags e)) (ir_temp1 env s) (ir_temp1 env t') /\
     begun (List.length (mags e)) (ir_temp2 env s) (ir_temp2 env t') /\
     begun (List.length (mags e)) (ir_rndt env s) (ir_rndt env t')) /\
  ((List.length (mags e0) < List.length (mags e))%nat ->
     snd (ir_run env t) = Err IndexError \/
     snd (ir_run env t) = Err ZeroDivisionError /\ List.length (mags e0) = 1%nat /\
       neqb env (ir_d1_mag env s) (nQ env 0) = true).
Proof.
  intros env e0 s0 s e k s' Hd [H H4] Hf. apply nan_free_existsb in Hf.
  pose proof (idrive_outcome env s0 e0) as O. rewrite Hd in O. cbn [snd] in O.
  destruct O as (m & hp & Hm & Hn0 & Hst & E). injection E as ->.
  set (t0 := iwith_erf env s0 (Some e0) (Some m)) in *.
  assert (Hst' : (List.length m <= 1)%nat \/ step_status env t0 = Ok hp).
  { destruct Hst as [Hst|Hst]; [left; exact Hst|right; exact Hst]. }
  revert H H4. unfold object_after, how_ended. cbn [iir_set_drivers]. unfold iir_set_erf. cbv [ibind iread iwrite].
  destruct (assert_quantity_arr env (Some e) u_Wm2) as [q|x] eqn:EA; [|intros _; discriminate].
  rewrite assert_quantity_arr_spec in EA. destruct (same_dim_dec env (aunits e) u_Wm2) as [D|]; [|discriminate].
  injection EA as <-. apply to_mags_ok_iff in D as [me He].
  destruct k as [|[|k]]; cbv beta iota; rewrite ?He; cbv beta iota; intros <- ?; try discriminate; [left; reflexivity|].
  right. split; [reflexivity|].
  pose proof (to_mags_length env e0 _ m Hm) as Hl.
  set (t1 := iwith_erf env t0 (Some e) (Some m)).
  assert (Hst1 : (List.length m <= 1)%nat \/ step_status env t1 = Ok hp).
  { destruct Hst' as [K|K]; [left; exact K|right; exact K]. }
  match goal with |- exists t, ir_reset env ?s1 = _ /\ _ =>
    assert (R : ir_reset env s1 = (ifilled env t1 hp m 0, Ok tt));
    [rewrite (ireset_ok env s1 e m) by (auto; reflexivity); unfold ifilled; rewrite !fill_0; reflexivity|] end.
  exists (ifilled env t1 hp m 0). split; [exact R|].
  unfold ir_run. change (ir_erf_len env (ifilled env t1 hp m 0)) with (List.length (mags e)).
  split; intros HL.
  - exists (ifilled env t1 hp m (List.length (mags e))).
    assert (Q : (0 + List.length (mags e) <= 1)%nat \/ step_status env t1 = Ok hp) by (destruct Hst1; [left; lia|right; assumption]).
    rewrite (isteps_filled env t1 hp m (List.length (mags e)) 0 eq_refl ltac:(lia) Q).
    split; [reflexivity|].
    unfold ifilled, iwith_run. cbn [ir_temp1 ir_temp2 ir_rndt].
    split; [|split]; apply begun_fill; lia.
  - replace (List.length (mags e)) with (List.length m + S (List.length (mags e) - List.length m - 1))%nat by lia.
    rewrite isteps_app. unfold mbind. rewrite (isteps_filled env t1 hp m (List.length m) 0 eq_refl (le_n _) Hst1).
    cbn [Nat.add ir_steps].
    destruct (istep_overrun env t1 hp m eq_refl) as (i & x & Eo & Hx); [destruct Hst1; [left; lia|right; assumption]|].
    unfold mbind. rewrite Eo. cbn [snd]. destruct Hx as [->|(-> & Hx1 & Hx2)]; [left; reflexivity|right]. split; [reflexivity|].
    split; [lia|exact Hx2].
Qed.

(** If there was no driver before, [reset] then raises AttributeError. *)
Theorem c67_impulse_response_first_driver : forall (env : Env) g s e k s',
  ir_new env g = Ok s -> stops (iir_set_drivers env (EQ1 e)) k s s' -> nan_free env e ->
  s' = s \/ ir_erf env s' = Some e /\ snd (ir_reset env s') = Err AttributeError.
Proof.
  intros env g s e k s' Hg [H H4] Hf. apply nan_free_existsb in Hf.
  assert (N : ir_erf_mag env s = None).
  { destruct (ir_new_inv env g s Hg) as (G & d1 & d2 & G1 & G2 & G3).
    destruct (ir_new_ok env g d1 d2 G G1 G2 G3) as (s1 & E & C & _ & N & _). rewrite E in Hg. injection Hg as <-.
    destruct C. rewrite N in ic_erf. destruct (ir_erf_mag env s1); [contradiction|reflexivity]. }
  revert H H4. unfold object_after, how_ended. cbn [iir_set_drivers]. unfold iir_set_erf. cbv [ibind iread iwrite].
  destruct (assert_quantity_arr env (Some e) u_Wm2) as [q|x] eqn:EA; [|intros _; discriminate].
  rewrite assert_quantity_arr_spec in EA. destruct (same_dim_dec env (aunits e) u_Wm2) as [D|]; [|discriminate].
  injection EA as <-. apply to_mags_ok_iff in D as [me He].
  destruct k as [|[|k]]; cbv beta iota; rewrite ?He; cbv beta iota; intros <- ?; try discriminate; [left; reflexivity|].
  right. split; [reflexivity|]. unfold ir_reset. cbv [mbind mread mmod mret mraise]. cbn [fst ir_erf ir_erf_mag set]. rewrite Hf.
  cbn [ir_erf ir_erf_mag set]. rewrite N. reflexivity.
Qed.

(** ** Cases *)
Ltac vmrefl := match goal with |- _ = ?y => exact_no_check (eq_refl y) end.
Definition demo_two : QArr demo := mkQA (env := demo) [Some 2; Some 3] u_Wm2.
Notation demo_ir_run := (fst (ir_drive demo demo_two demo_ir)).
Notation demo_ir_cut := (object_after (iir_set_drivers demo (EQ1 demo_one) (Some 1%nat) demo_ir_run)).
Example c67_impulse_response_cut_driver_case :
  ir_drive demo demo_two demo_ir = (demo_ir_run, Ok tt) /\
  stops (iir_set_drivers demo (EQ1 demo_one)) 1 demo_ir_run demo_ir_cut /\ nan_free demo demo_one /\
  ir_erf demo demo_ir_cut = Some demo_one /\ (List.length (mags demo_one) <= List.length (mags demo_two))%nat.
Proof.
  assert (H : snd (ir_drive demo demo_two demo_ir) = Ok tt) by vmrefl.
  split; [rewrite <- H; apply surjective_pairing|]. split; [split; [reflexivity|vmrefl]|]. split.
  - intros x [<-|[]]. reflexivity.
  - split; [vmrefl|]. cbn. lia.
Qed.
Example c67_impulse_response_first_driver_case :
  ir_new demo (ir_defaults demo) = Ok demo_ir /\
  stops (iir_set_drivers demo (EQ1 demo_one)) 1 demo_ir (object_after (iir_set_drivers demo (EQ1 demo_one) (Some 1%nat) demo_ir)) /\
  nan_free demo demo_one.
Proof.
  split; [vmrefl|]. split; [split; [reflexivity|vmrefl]|]. intros x [<-|[]]. reflexivity.
Qed.
