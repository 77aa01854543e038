(** Proofs about [run_scenarios], for every number system and both models. *)
From Coq Require Import List String Ascii QArith ZArith Bool Arith Lia.
From Verif Require Import Arith Pint Base TwoLayer Impulse Scm Api Spec GenTL GenTLHist GenIR GenIRHist.
Import ListNotations.
Local Open Scope list_scope.

(** ** Wildcards *)

Lemma glob_star p s :
  glob (String "*" p) s = true <-> exists s1 s2, s = (s1 ++ s2)%string /\ glob p s2 = true.
Proof.
  cbn [glob]. change (Ascii.eqb "*" "*") with true. cbv iota.
  induction s as [|c s IH].
  - split.
    + intros H. apply orb_true_iff in H as [H|H]; [|discriminate].
      exists EmptyString, EmptyString. auto.
    + intros (s1 & s2 & E & H). destruct s1; [|discriminate]. cbn in E. subst s2.
      apply orb_true_iff. auto.
  - split.
    + intros H. apply orb_true_iff in H as [H|H].
      * exists EmptyString, (String c s). auto.
      * apply IH in H as (s1 & s2 & -> & H). exists (String c s1), s2. auto.
    + intros (s1 & s2 & E & H). apply orb_true_iff. destruct s1 as [|c1 s1]; cbn in E.
      * left. subst s2. exact H.
      * right. injection E as -> ->. apply IH. eauto.
Qed.

Lemma glob_spec p : forall s, glob p s = true <-> Matches p s.
Proof.
  induction p as [|c p IH]; intros s.
  - destruct s; cbn; split; intros H; try discriminate; try constructor; inversion H.
  - destruct (Ascii.ascii_dec c "*") as [->|Hc].
    + rewrite glob_star. split.
      * intros (s1 & s2 & -> & H). constructor. apply IH, H.
      * intros H. inversion H; subst; [congruence|]. exists s1, s2. split; [reflexivity|]. apply IH; assumption.
    + cbn [glob]. rewrite (proj2 (Ascii.eqb_neq c "*") Hc). destruct s as [|c' s].
      * split; [discriminate|]. intros H. inversion H; subst. congruence.
      * rewrite andb_true_iff, Ascii.eqb_eq, IH. split.
        -- intros [-> H]. constructor; assumption.
        -- intros H. inversion H; subst; [auto|congruence].
Qed.

Lemma matches_literal p s : star_free p -> (Matches p s <-> s = p).
Proof.
  revert s; induction p as [|c p IH]; intros s; cbn.
  - intros _. split; intros H; [inversion H; reflexivity|subst; constructor].
  - intros [Hc Hp]. split; intros H.
    + inversion H; subst; [|congruence]. f_equal. apply IH; assumption.
    + subst. constructor; [assumption|]. apply IH; auto.
Qed.

(** ** Calendar *)

Lemma days_step y : (days_before_year (y + 1) - days_before_year y = 365 + (if leap y then 1 else 0))%Z.
Proof.
  unfold days_before_year, leap.
  pose proof (Z.div_mod y 4 ltac:(lia)). pose proof (Z.mod_pos_bound y 4 ltac:(lia)).
  pose proof (Z.div_mod y 100 ltac:(lia)). pose proof (Z.mod_pos_bound y 100 ltac:(lia)).
  pose proof (Z.div_mod y 400 ltac:(lia)). pose proof (Z.mod_pos_bound y 400 ltac:(lia)).
  assert (A : ((y + 1 + 3) / 4 = (y + 3) / 4 + (if Z.eqb (y mod 4) 0 then 1 else 0))%Z).
  { destruct (Z.eqb_spec (y mod 4) 0); Z.div_mod_to_equations; lia. }
  assert (B : ((y + 1 + 99) / 100 = (y + 99) / 100 + (if Z.eqb (y mod 100) 0 then 1 else 0))%Z).
  { destruct (Z.eqb_spec (y mod 100) 0); Z.div_mod_to_equations; lia. }
  assert (C : ((y + 1 + 399) / 400 = (y + 399) / 400 + (if Z.eqb (y mod 400) 0 then 1 else 0))%Z).
  { destruct (Z.eqb_spec (y mod 400) 0); Z.div_mod_to_equations; lia. }
  assert (D : (y mod 100 = 0 -> y mod 4 = 0)%Z) by (clear; Z.div_mod_to_equations; lia).
  assert (E : (y mod 400 = 0 -> y mod 100 = 0)%Z) by (clear; Z.div_mod_to_equations; lia).
  rewrite A, B, C.
  destruct (Z.eqb_spec (y mod 4) 0); destruct (Z.eqb_spec (y mod 100) 0); destruct (Z.eqb_spec (y mod 400) 0);
    cbn [negb andb orb]; lia.
Qed.

Lemma year_of_spec t : (year_start (year_of t) <= t < year_start (year_of t + 1))%Z.
Proof.
  unfold year_of, year_start.
  assert (K : forall y, (days_before_year y <= day_number t < days_before_year (y + 1))%Z ->
     (86400 * (days_before_year y - 719528) <= t < 86400 * (days_before_year (y + 1) - 719528))%Z).
  { unfold day_number. intros y. Z.div_mod_to_equations. lia. }
  set (d := day_number t) in *. set (y := (d * 400 / 146097)%Z).
  assert (B : (days_before_year (y - 1) <= d < days_before_year (y + 2))%Z).
  { unfold days_before_year, y. Z.div_mod_to_equations. lia. }
  destruct (Z.ltb_spec d (days_before_year y)).
  - apply K. replace (y - 1 + 1)%Z with y by lia. lia.
  - destruct (Z.leb_spec (days_before_year (y + 1)) d).
    + apply K. replace (y + 1 + 1)%Z with (y + 2)%Z by lia. lia.
    + apply K. lia.
Qed.

Lemma year_start_mono y y' : (y < y')%Z -> (year_start y < year_start y')%Z.
Proof.
  intros H. unfold year_start, days_before_year. Z.div_mod_to_equations. lia.
Qed.

Lemma year_of_unique t y : (year_start y <= t < year_start (y + 1))%Z -> year_of t = y.
Proof.
  intros H. pose proof (year_of_spec t) as K.
  destruct (Z.lt_trichotomy (year_of t) y) as [L|[E|L]]; [|exact E|].
  - assert (year_start (year_of t + 1) <= year_start y)%Z; [|lia].
    destruct (Z.eq_dec (year_of t + 1) y) as [->|]; [lia|].
    apply Z.lt_le_incl, year_start_mono. lia.
  - assert (year_start (y + 1) <= year_start (year_of t))%Z; [|lia].
    destruct (Z.eq_dec (y + 1) (year_of t)) as [->|]; [lia|].
    apply Z.lt_le_incl, year_start_mono. lia.
Qed.

(** ** Timestep *)

Lemma diffs_forall (f : Z -> bool) l :
  forallb f (diffs l) = true <-> consecutive (fun x y => f (y - x)%Z = true) l.
Proof.
  induction l as [|x l IH].
  - cbn. split; [intros _ i a b H; destruct i; discriminate|reflexivity].
  - destruct l as [|y l].
    + cbn. split; [|reflexivity]. intros _ i a b H1 H2. destruct i as [|[|i]]; discriminate.
    + cbn [diffs]. cbn [forallb]. rewrite andb_true_iff.
      change (diffs (y :: l)) with (diffs (y :: l)) in IH. rewrite IH. split.
      * intros [H0 H] i a b H1 H2. destruct i as [|i].
        -- cbn in H1, H2. injection H1 as <-. injection H2 as <-. exact H0.
        -- exact (H i a b H1 H2).
      * intros H. split; [exact (H 0%nat x y eq_refl eq_refl)|].
        intros i a b H1 H2. exact (H (S i) a b H1 H2).
Qed.

Lemma consecutive_map {A B} (g : A -> B) R l :
  consecutive R (map g l) <-> consecutive (fun x y => R (g x) (g y)) l.
Proof.
  unfold consecutive. split; intros H i x y H1 H2.
  - apply (H i); rewrite nth_error_map; [rewrite H1|rewrite H2]; reflexivity.
  - rewrite nth_error_map in H1, H2.
    destruct (nth_error l i) eqn:E1; [|discriminate].
    destruct (nth_error l (S i)) eqn:E2; [|discriminate].
    cbn in H1, H2. injection H1 as <-. injection H2 as <-. apply (H i); assumption.
Qed.

Lemma consecutive_impl {A} (R R' : A -> A -> Prop) l :
  (forall x y, R x y <-> R' x y) -> (consecutive R l <-> consecutive R' l).
Proof. intros H. unfold consecutive. split; intros K i x y H1 H2; apply H; eapply K; eauto. Qed.

Section Sel.
Variable env : Env.
Notation one_year := (one_year env).
Notation one_month := (one_month env).

Lemma yearly_spec times :
  forallb (fun d => Z.eqb d 1) (diffs (map year_of times)) = true <-> yearly times.
Proof.
  rewrite diffs_forall, consecutive_map. unfold yearly.
  apply consecutive_impl. intros x y. rewrite Z.eqb_eq. lia.
Qed.
Lemma monthly_spec times :
  forallb (fun d => Z.leb d (31 * day_s) && Z.leb (28 * day_s) d) (diffs times) = true <-> monthly times.
Proof.
  rewrite diffs_forall. unfold monthly, day_s.
  apply consecutive_impl. intros x y. rewrite andb_true_iff, !Z.leb_le. lia.
Qed.

Lemma select_timestep_spec times :
  (yearly times -> select_timestep env times = Ok one_year) /\
  (~ yearly times -> monthly times -> select_timestep env times = Ok one_month) /\
  (~ yearly times -> ~ monthly times -> select_timestep env times = Err NotImplementedError).
Proof.
  unfold select_timestep.
  pose proof (yearly_spec times) as Y. pose proof (monthly_spec times) as M.
  destruct (forallb _ (diffs (map year_of times))).
  - split; [reflexivity|]. split; intros H; destruct H; tauto.
  - split; [intros H; exfalso; apply Y in H; discriminate|].
    destruct (forallb _ (diffs times)).
    + split; [reflexivity|]. intros _ H. destruct H; tauto.
    + split; [intros _ H; apply M in H; discriminate|reflexivity].
Qed.
End Sel.

(** ** Independence of the scenarios *)
Section Runs.
Context (env : Env) (parse_unit : string -> option (Qty env)) (V : Variant env).
Notation num := (num env).
Notation S_ := (v_state env V).
Notation selected := (selected env).

Notation v_drive := (v_drive env V).
Notation row_driver := (row_driver env).

(** [Rel s s0]: same behaviour in runs. *)
Variable Rel : S_ -> S_ -> Prop.
Hypothesis Rel_drive : forall s s0 e, Rel s s0 ->
  snd (v_drive e s) = snd (v_drive e s0) /\
  (snd (v_drive e s) = Ok tt -> fst (v_drive e s) = fst (v_drive e s0)).
Hypothesis Rel_after : forall s s0 e, Rel s s0 -> Rel (fst (v_drive e s)) s0.

(** What is made of a finished run: the driver row and the output rows. *)
Definition package (i : nat) (times : list Z) (r : Row env) (s : S_) : Res (list (OutRow env)) :=
  let pts := drop_nan env times (r_vals env r) in
  do outs <- create_tss env (r_meta env r) pts (v_outputs env V s);
  let rows := mkOut env (r_meta env r) pts :: outs in
  if has_dup env (map (o_meta env) rows) then Err NonUniqueMetadataError
  else Ok (map (fun o => mkOut env (mset env (o_meta env o) (KName "run_idx") (MI env i)) (o_points env o)) rows).

(** The result for one scenario, run on its own from state [s]. *)
Definition scenario_result (i : nat) (times : list Z) (r : Row env) (s : S_) : Res (list (OutRow env)) :=
  do u <- row_unit env parse_unit r;
  match v_drive (row_driver times r u) s with
  | (s', Ok _) => package i times r s'
  | (_, Err e) => Err e
  end.

Lemma run_row_eq i times r s :
  run_row env parse_unit V i times r s =
  match row_unit env parse_unit r with
  | Err e => (s, Err e)
  | Ok u => match v_drive (row_driver times r u) s with
            | (s', Ok _) => (s', package i times r s')
            | (s', Err e) => (s', Err e)
            end
  end.
Proof.
  unfold run_row, v_drive, row_driver, package. cbv [mbind mread].
  destruct (row_unit env parse_unit r) as [u|e]; [|reflexivity].
  destruct (v_set_drivers env V _ s) as [s1 [[]|e]]; [|reflexivity].
  destruct (v_reset env V s1) as [s2 [[]|e]]; [|reflexivity].
  destruct (v_run env V s2) as [s3 [[]|e]]; [|reflexivity].
  destruct (create_tss _ _ _ _) as [outs|e]; [|reflexivity]. cbn [bind].
  destruct (has_dup _ _); reflexivity.
Qed.

Lemma run_row_snd i times r s : snd (run_row env parse_unit V i times r s) = scenario_result i times r s.
Proof.
  rewrite run_row_eq. unfold scenario_result. destruct (row_unit env parse_unit r) as [u|e]; [|reflexivity].
  cbn [bind]. destruct (v_drive _ s) as [s' [[]|e]]; reflexivity.
Qed.

Lemma run_row_rel i times r s s0 : Rel s s0 -> Rel (fst (run_row env parse_unit V i times r s)) s0.
Proof.
  intros H. rewrite run_row_eq. destruct (row_unit env parse_unit r) as [u|e]; [|exact H].
  pose proof (Rel_after s s0 (row_driver times r u) H) as K.
  destruct (v_drive _ s) as [s' [[]|e]]; exact K.
Qed.

Lemma scenario_result_rel i times r s s0 : Rel s s0 -> scenario_result i times r s = scenario_result i times r s0.
Proof.
  intros H. unfold scenario_result. destruct (row_unit env parse_unit r) as [u|e]; [|reflexivity].
  cbn [bind]. destruct (Rel_drive s s0 (row_driver times r u) H) as [K1 K2].
  destruct (v_drive _ s) as [s' [[]|e]], (v_drive _ s0) as [s0' [[]|e']]; cbn in K1, K2; try discriminate.
  - rewrite K2 by reflexivity. reflexivity.
  - congruence.
Qed.

(** First error, or all results. *)
Fixpoint collect {A} (l : list (Res (list A))) : Res (list A) :=
  match l with
  | [] => Ok []
  | r :: rest => do x <- r; do xs <- collect rest; Ok (x ++ xs)
  end.

(** [f i x] for the elements numbered from [i]. *)
Fixpoint mapi {A B} (f : nat -> A -> B) (i : nat) (l : list A) : list B :=
  match l with [] => [] | x :: r => f i x :: mapi f (S i) r end.

Lemma run_rows_snd times rows : forall i s s0, Rel s s0 ->
  snd (run_rows env parse_unit V i times rows s) =
  collect (mapi (fun i r => scenario_result i times r s0) i rows).
Proof.
  induction rows as [|r rows IH]; intros i s s0 H; [reflexivity|].
  cbn [run_rows mapi collect]. cbv [mbind mret].
  pose proof (run_row_snd i times r s) as E. rewrite (scenario_result_rel i times r s s0 H) in E.
  pose proof (run_row_rel i times r s s0 H) as K.
  destruct (run_row env parse_unit V i times r s) as [s1 [x|e]]; cbn [snd fst] in E, K; rewrite <- E; cbn [bind].
  - specialize (IH (S i) s1 s0 K).
    destruct (run_rows env parse_unit V (S i) times rows s1) as [s2 [y|e]]; cbn [snd] in IH; rewrite <- IH; reflexivity.
  - reflexivity.
Qed.

Definition driver_rows (save : list (Key * MVal env)) (dv : string) (sc : Scm env) : list (Row env) :=
  map (fun r => mkRow env (annotate env V save (r_meta env r)) (r_vals env r)) (selected dv sc).

Lemma run_scenarios_eq sc dv s :
  run_scenarios env parse_unit V sc dv s =
  if Nat.eqb (List.length (selected dv sc)) 0 then (s, Err ValueError) else
  match select_timestep env (s_times env sc) with
  | Err e => (s, Err e)
  | Ok ts =>
      match v_set_delta_t env V (PQ ts) s with
      | (s1, Err e) => (s1, Err e)
      | (s1, Ok _) =>
          let rows := driver_rows (save_paras_meta env V s) dv sc in
          if has_dup env (map (r_meta env) rows) then (s1, Err NonUniqueMetadataError) else
          match run_rows env parse_unit V 0 (s_times env sc) rows s1 with
          | (s2, Err e) => (s2, Err e)
          | (s2, Ok out) => if has_dup env (map (o_meta env) out) then (s2, Err NonUniqueMetadataError)
                            else (s2, Ok out)
          end
      end
  end.
Proof.
  unfold run_scenarios. cbv [mbind mread mret mraise]. fold (selected dv sc).
  destruct (Nat.eqb _ 0); [reflexivity|].
  destruct (select_timestep env (s_times env sc)) as [ts|e]; [|reflexivity].
  destruct (v_set_delta_t env V (PQ ts) s) as [s1 [[]|e]]; [|reflexivity].
  fold (driver_rows (save_paras_meta env V s) dv sc).
  destruct (has_dup _ _); [reflexivity|].
  destruct (run_rows env parse_unit V 0 (s_times env sc) (driver_rows (save_paras_meta env V s) dv sc) s1) as [s2 [out|e]]; [|reflexivity].
  destruct (has_dup _ _); reflexivity.
Qed.

End Runs.
