(** Properties C50-C53: which arrays the models share with their caller. *)
From Coq Require Import List String QArith Bool Arith Lia.
From Verif Require Import Arith Pint Base TwoLayer Impulse Scm Api Spec Heap SpecHeap GenTL GenIR GenHeap GenWorld GenShare Demo FactsRun.
Import ListNotations.
Local Open Scope nat_scope.

(** *** Concrete cases: two arrays of the caller, a driver in W/m^2 and one in
    W/km^2 on them, a two-layer and an impulse-response model. *)
Definition u_Wkm2 : Units := [("watt"%string, 1%Q); ("kilometer"%string, (-2)%Q)].
Definition case_setup : list (WOp demo) :=
  [WArray (env := demo) [Some 0; Some 1; Some 2; Some 3]%Q; WQuantity 0 u_Wm2;
   WArray (env := demo) [Some 0; Some 1000000; Some 2000000]%Q; WQuantity 1 u_Wkm2;
   WNewTL demo_args; WNewIR (ir_defaults demo)].
Definition case_world : World demo := w_steps demo demo_parse case_setup (w_empty demo).
(** Two models that share a driver, used alternately. *)
Definition case_calls : list (WOp demo) :=
  [WTL 0 (HTSetDrivers 0); WIR 1 (HISetDrivers 0); WTL 0 (HT (TReset demo)); WIR 1 (HI (IReset demo));
   WTL 0 (HT (TStep demo)); WTL 0 (HT (TStep demo)); WTL 0 (HTSetErf 1); WIR 1 (HI (IRun demo));
   WTL 0 (HT (TReset demo)); WNewTL demo_args; WTL 0 (HT (TRun demo))].
Definition case_results (ops : list (WOp demo)) (w : World demo) : list (Res unit) :=
  snd (fold_left (fun p op => let '(w, r) := w_step demo demo_parse op (fst p) in (w, snd p ++ [r])) ops (w, [])).
Definition tl_of (x : option (ObjState demo)) : TL demo := match x with Some (STL s) => s | _ => demo_tl end.
Definition ir_of (x : option (ObjState demo)) : IR demo := match x with Some (SIR s) => s | _ => demo_ir end.
Lemma case_reach : w_reachable demo demo_parse case_world.
Proof. exists case_setup. reflexivity. Qed.
(** The cases are decided by booleans, which the kernel evaluates quickly. *)
Definition is_tl (x : option (ObjState demo)) : bool := match x with Some (STL _) => true | _ => false end.
Definition is_ir (x : option (ObjState demo)) : bool := match x with Some (SIR _) => true | _ => false end.
Definition is_ok (r : Res unit) : bool := match r with Ok tt => true | _ => false end.
Lemma is_tl_ok x : is_tl x = true -> exists s, x = Some (STL s).
Proof. destruct x as [[s|s]|]; try discriminate. intros _. now exists s. Qed.
Lemma is_ir_ok x : is_ir x = true -> exists s, x = Some (SIR s).
Proof. destruct x as [[s|s]|]; try discriminate. intros _. now exists s. Qed.
Lemma all_ok l : forallb is_ok l = true -> Forall (fun r => r = Ok tt) l.
Proof. intros H. apply Forall_forall. intros r Hr. apply (proj1 (forallb_forall _ _) H) in Hr. destruct r as [[]|]; [reflexivity|discriminate]. Qed.
Ltac vmrefl := match goal with |- _ = ?y => exact_no_check (eq_refl y) end.
Ltac arg_there := cbn [arg_exists]; first [exact I | apply Nat.ltb_lt; vmrefl].
Ltac args_exist := repeat (apply Forall_cons; [arg_there|]); apply Forall_nil.
Lemma case_package : Forall (package_call demo) case_calls.
Proof. repeat constructor. Qed.


(** ** C50 *)
(** No call on a model, and no constructor, changes an array that the caller
    can reach or a quantity object that exists: neither its values nor its
    units, nor which array it points to. *)
Theorem c50_callers_arrays_untouched : forall (env : Env) parse_unit w ops,
  w_reachable env parse_unit w -> Forall (package_call env) ops ->
  let w' := w_steps env parse_unit ops w in
  (forall a, hpublic env (w_heap w) a = true -> harr env (w_heap w') a = harr env (w_heap w) a) /\
  (forall q k, nth_error (h_qtys (w_heap w)) q = Some k ->
     nth_error (h_qtys (w_heap w')) q = Some k /\ hqty env (w_heap w') q = hqty env (w_heap w) q).
Proof.
  intros env pu w ops Hr Hp w'. apply reachable_wf in Hr.
  pose proof (packages_keep env pu ops w Hr Hp) as K. split.
  - intros a P. exact (proj1 (proj1 K a P)).
  - intros q k E. split; [exact (proj2 K q k E)|]. apply keeps_qty; [apply (ww_heap _ _ Hr)|exact K|].
    apply nth_error_Some. now rewrite E.
Qed.

Example c50_case : w_reachable demo demo_parse case_world /\ Forall (package_call demo) case_calls /\
  hpublic demo (w_heap case_world) 0 = true /\ hpublic demo (w_heap case_world) 1 = true /\
  nth_error (h_qtys (w_heap case_world)) 1 = Some (mkQObj 1 u_Wkm2) /\
  Forall (fun r => r = Ok tt) (case_results case_calls case_world).
Proof.
  split; [exact case_reach|]. split; [exact case_package|].
  split; [vmrefl|]. split; [vmrefl|]. split; [vmrefl|].
  apply all_ok. vmrefl.
Qed.

(** ** C51 *)
(** Calls on other models, and constructors, do not change a model. *)
Theorem c51_other_models_untouched : forall (env : Env) parse_unit w ops j x,
  w_reachable env parse_unit w ->
  Forall (fun op => package_call env op /\ call_on env op <> Some j) ops ->
  model_state env w j = Some x -> model_state env (w_steps env parse_unit ops w) j = Some x.
Proof. intros env pu w ops j x Hr. apply others_keep. eapply reachable_wf; eauto. Qed.

(** However the calls on several models that share their driver are
    interleaved, each model ends in the state that its own calls alone give. *)
Theorem c51_two_layer_interleaving : forall (env : Env) parse_unit w ops k s,
  w_reachable env parse_unit w -> Forall (package_call env) ops ->
  Forall (arg_exists env (w_heap w)) ops -> model_state env w k = Some (STL s) ->
  model_state env (w_steps env parse_unit ops w) k =
    Some (STL (tl_calls env parse_unit (map (tl_by_value env (w_heap w)) (tl_calls_on env k ops)) s)).
Proof.
  intros env pu w ops k s Hr Hp Ha Hm. apply reachable_wf in Hr.
  apply interleave_tl; auto using keeps_refl. apply (ww_heap _ _ Hr).
Qed.
Theorem c51_impulse_response_interleaving : forall (env : Env) parse_unit w ops k s,
  w_reachable env parse_unit w -> Forall (package_call env) ops ->
  Forall (arg_exists env (w_heap w)) ops -> model_state env w k = Some (SIR s) ->
  model_state env (w_steps env parse_unit ops w) k =
    Some (SIR (ir_calls env parse_unit (map (ir_by_value env (w_heap w)) (ir_calls_on env k ops)) s)).
Proof.
  intros env pu w ops k s Hr Hp Ha Hm. apply reachable_wf in Hr.
  apply interleave_ir; auto using keeps_refl. apply (ww_heap _ _ Hr).
Qed.

Example c51_case : w_reachable demo demo_parse case_world /\ Forall (package_call demo) case_calls /\
  Forall (arg_exists demo (w_heap case_world)) case_calls /\
  (exists s, model_state demo case_world 0 = Some (STL s)) /\ (exists s, model_state demo case_world 1 = Some (SIR s)) /\
  Forall (fun op => package_call demo op /\ call_on demo op <> Some 1)
    [WTL 0 (HTSetDrivers 0); WTL 0 (HT (TReset demo)); WTL 0 (HT (TRun demo)); WNewIR (ir_defaults demo)] /\
  tl_calls_on demo 0 case_calls = [HTSetDrivers 0; HT (TReset demo); HT (TStep demo); HT (TStep demo); HTSetErf 1;
    HT (TReset demo); HT (TRun demo)] /\
  ir_calls_on demo 1 case_calls = [HISetDrivers 0; HI (IReset demo); HI (IRun demo)].
Proof.
  split; [exact case_reach|]. split; [exact case_package|].
  split; [args_exist|]. split; [apply is_tl_ok; vmrefl|]. split; [apply is_ir_ok; vmrefl|].
  split; [repeat constructor; cbn; discriminate|]. split; reflexivity.
Qed.

(** ** C52 *)
(** One call acts on the model as if every argument were passed by value, and
    gives the same result. *)
Theorem c52_two_layer_call_by_value : forall (env : Env) parse_unit w k c s,
  w_reachable env parse_unit w -> model_state env w k = Some (STL s) -> arg_exists env (w_heap w) (WTL k c) ->
  let r := w_step env parse_unit (WTL k c) w in
  let r' := tl_call env parse_unit (tl_by_value env (w_heap w) c) s in
  model_state env (fst r) k = Some (STL (fst r')) /\ snd r = snd r'.
Proof.
  intros env pu w k c s Hr Hm Ha. apply reachable_wf in Hr. apply call_value_tl; auto. now apply (arg_qarg_tl env (w_heap w) k).
Qed.
Theorem c52_impulse_response_call_by_value : forall (env : Env) parse_unit w k c s,
  w_reachable env parse_unit w -> model_state env w k = Some (SIR s) -> arg_exists env (w_heap w) (WIR k c) ->
  let r := w_step env parse_unit (WIR k c) w in
  let r' := ir_call env parse_unit (ir_by_value env (w_heap w) c) s in
  model_state env (fst r) k = Some (SIR (fst r')) /\ snd r = snd r'.
Proof.
  intros env pu w k c s Hr Hm Ha. apply reachable_wf in Hr. apply call_value_ir; auto. now apply (arg_qarg_ir env (w_heap w) k).
Qed.

(** If the caller never modifies in place an array that drives a model, every
    model of the process is in a state of the by-value models, so that all the
    theorems about those hold for it. *)
Theorem c52_quiet_histories_by_value : forall (env : Env) parse_unit ops,
  quiet env parse_unit ops (w_empty env) ->
  forall k x, model_state env (w_steps env parse_unit ops (w_empty env)) k = Some x ->
  match x with
  | STL s => tl_reachable env parse_unit s
  | SIR s => ir_reachable env parse_unit s
  end.
Proof.
  intros env pu ops Hq k x Hm. unfold model_state in Hm.
  destruct (nth_error (w_objs (w_steps env pu ops (w_empty env))) k) as [o|] eqn:E; [|discriminate].
  injection Hm as <-.
  assert (R0 : all_reach env pu (w_empty env)) by (intros j y Ej; destruct j; discriminate).
  pose proof (quiet_reach env pu ops (w_empty env) (empty_wf env) R0 Hq k o E) as R. destruct o; exact R.
Qed.

(** A quiet history: the caller goes on to change the array of the driver that
    is no longer in use. *)
Definition case_quiet : list (WOp demo) :=
  case_setup ++ [WTL 0 (HTSetDrivers 0); WWrite 1 0 (Some 5%Q : num demo); WTL 0 (HTSetDrivers 1); WWrite 0 0 (Some 5%Q : num demo);
                 WIto 0 u_Wkm2; WTL 0 (HT (TReset demo)); WTL 0 (HT (TRun demo))].
Definition drives_b {env : Env} {S} (h : Heap env) (o : HObj S) (a : nat) : bool :=
  match o_erf_mag o with Some b => Nat.eqb b a | None => false end ||
  match o_erf o with
  | Some q => match nth_error (h_qtys h) q with Some k => Nat.eqb (q_arr k) a | None => false end
  | None => false
  end.
Definition in_use_b {env : Env} (w : World env) (a : nat) : bool :=
  existsb (fun x => match x with OTL o => drives_b (w_heap w) o a | OIR o => drives_b (w_heap w) o a end) (w_objs w).
Lemma drives_b_ok {env : Env} {S} (h : Heap env) (o : HObj S) a : drives env h o a -> drives_b h o a = true.
Proof.
  unfold drives_b. intros [->|(q & k & -> & -> & E)]; [rewrite Nat.eqb_refl; reflexivity|].
  rewrite (proj2 (Nat.eqb_eq _ _) E). apply orb_true_r.
Qed.
Lemma not_in_use (env : Env) (w : World env) a : in_use_b w a = false -> ~ in_use env w a.
Proof.
  intros H [(k & o & E & D)|(k & o & E & D)]; apply drives_b_ok in D; apply nth_error_In in E;
    assert (T : in_use_b w a = true) by (apply existsb_exists; eexists; split; [exact E|exact D]); congruence.
Qed.
Example c52_case : quiet demo demo_parse case_quiet (w_empty demo) /\
  Forall (fun r => r = Ok tt) (case_results case_quiet (w_empty demo)) /\
  (exists s, model_state demo (w_steps demo demo_parse case_quiet (w_empty demo)) 0 = Some (STL s)) /\
  arg_exists demo (w_heap case_world) (WTL 0 (HTSetDrivers 1)) /\
  arg_exists demo (w_heap case_world) (WIR 1 (HISetDrivers 0)).
Proof.
  split.
  - unfold case_quiet, case_setup. cbn [app quiet].
    repeat (split; [try exact I|]); try exact I.
    + apply not_in_use. vmrefl.
    + apply not_in_use. vmrefl.
    + cbn [quiet_op]. intros k' E'. apply not_in_use.
      match type of E' with ?x = _ => assert (E2 : x = Some (mkQObj 0 u_Wm2)) by vmrefl end.
      rewrite E2 in E'. injection E' as <-. cbn [q_arr]. vmrefl.
  - split; [apply all_ok; vmrefl|]. split; [apply is_tl_ok; vmrefl|]. split; arg_there.
Qed.

(** ** C53 *)

Lemma tl_reset_ok' (env : Env) s e m : existsb (nisnan env) (mags e) = false ->
  exists s1, tl_reset env (with_erf env s (Some e) (Some m)) = (s1, Ok tt).
Proof. intros N. eexists. apply (reset_ok env _ e m); auto. Qed.
Lemma ir_reset_ok' (env : Env) s e m : existsb (nisnan env) (mags e) = false ->
  exists s1, ir_reset env (iwith_erf env s (Some e) (Some m)) = (s1, Ok tt).
Proof. intros N. eexists. apply (ireset_ok env _ e m); auto. Qed.

Lemma tl_rerun (env : Env) pu w op1 op2 k s e m e' :
  world_wf env w -> model_state env (w_steps env pu [op1; op2] w) k = Some (STL (with_erf env s (Some e) (Some m))) ->
  to_mags env e' u_Wm2 = Ok m ->
  existsb (nisnan env) (mags e) = false -> existsb (nisnan env) (mags e') = false ->
  List.length (mags e) = List.length (mags e') ->
  exists s', model_state env (w_steps env pu [op1; op2; WTL k (HT (TReset env)); WTL k (HT (TRun env))] w) k = Some (STL s') /\
    tl_erf env s' = Some e /\ tl_outputs env s' = tl_outputs env (fst (tl_drive env e' s)).
Proof.
  intros Ww Hm Ht N1 N2 L.
  pose proof (steps_wf env pu [op1; op2] w Ww) as W2.
  destruct (call_value_tl env pu _ k (HT (TReset env)) _ W2 Hm eq_refl) as [E1 _].
  pose proof (step_wf env pu (WTL k (HT (TReset env))) _ W2) as W3.
  destruct (call_value_tl env pu _ k (HT (TRun env)) _ W3 E1 eq_refl) as [E2 _].
  eexists. split; [exact E2|]. cbn [tl_by_value tl_call].
  destruct (tl_stale env s e e' m Ht N1 N2 L) as (_ & O & F).
  destruct (tl_reset_ok' env s e m N1) as [s1 R]. unfold mbind in O, F. rewrite R in O, F |- *. cbn [fst snd] in *.
  split; assumption.
Qed.

Lemma ir_rerun (env : Env) pu w op1 op2 k s e m e' :
  world_wf env w -> model_state env (w_steps env pu [op1; op2] w) k = Some (SIR (iwith_erf env s (Some e) (Some m))) ->
  to_mags env e' u_Wm2 = Ok m ->
  existsb (nisnan env) (mags e) = false -> existsb (nisnan env) (mags e') = false ->
  List.length (mags e) = List.length (mags e') ->
  exists s', model_state env (w_steps env pu [op1; op2; WIR k (HI (IReset env)); WIR k (HI (IRun env))] w) k = Some (SIR s') /\
    ir_erf env s' = Some e /\ ir_outputs env s' = ir_outputs env (fst (ir_drive env e' s)).
Proof.
  intros Ww Hm Ht N1 N2 L.
  pose proof (steps_wf env pu [op1; op2] w Ww) as W2.
  destruct (call_value_ir env pu _ k (HI (IReset env)) _ W2 Hm eq_refl) as [E1 _].
  pose proof (step_wf env pu (WIR k (HI (IReset env))) _ W2) as W3.
  destruct (call_value_ir env pu _ k (HI (IRun env)) _ W3 E1 eq_refl) as [E2 _].
  eexists. split; [exact E2|]. cbn [ir_by_value ir_call].
  destruct (ir_stale env s e e' m Ht N1 N2 L) as (_ & O & F).
  destruct (ir_reset_ok' env s e m N1) as [s1 R]. unfold mbind in O, F. rewrite R in O, F |- *. cbn [fst snd] in *.
  split; assumption.
Qed.

(** Two-layer model: the driver's array is written after [set_drivers].  If the driver is in
    W/m^2 the model works on the caller's array: it is in the state that
    [set_drivers] with the new contents gives. *)
Theorem c53_two_layer_shared_driver : forall (env : Env) parse_unit w k s q a u i v l,
  w_reachable env parse_unit w -> model_state env w k = Some (STL s) ->
  nth_error (h_qtys (w_heap w)) q = Some (mkQObj a u) -> same_dim env u u_Wm2 -> units_eqb u u_Wm2 = true ->
  lset (harr env (w_heap w) a) i v = Ok l ->
  let w' := w_steps env parse_unit [WTL k (HTSetDrivers q); WWrite a i v] w in
  model_state env w' k = Some (STL (fst (tl_set_drivers env (EQ1 (mkQA l u)) s))).
Proof.
  intros env pu w k s q a u i v l Hr Hm Hq Hd He Hl w'. apply reachable_wf in Hr.
  assert (Eq : hqty env (w_heap w) q = mkQA (harr env (w_heap w) a) u) by (unfold hqty; now rewrite Hq).
  destruct (proj2 (to_mags_ok_iff env (hqty env (w_heap w) q) u_Wm2) ltac:(rewrite Eq; exact Hd)) as [m Em].
  destruct (tl_write env pu w k s q a u m i v l Hr Hm Hq Em Hl) as [H _]. unfold w'. rewrite H, He. do 2 f_equal.
  cbn [tl_set_drivers]. rewrite (set_erf_ok env s (mkQA l u) l); [reflexivity|].
  unfold to_mags. cbn [aunits mags]. rewrite He, (proj2 (dim_eqb_spec env u u_Wm2) Hd). reflexivity.
Qed.

(** In any other unit the model has converted a copy: [model.erf] shows the new
    contents, but a run gives the results of the old ones. *)
Theorem c53_two_layer_converted_driver : forall (env : Env) parse_unit w k s q a u i v l,
  w_reachable env parse_unit w -> model_state env w k = Some (STL s) ->
  nth_error (h_qtys (w_heap w)) q = Some (mkQObj a u) -> same_dim env u u_Wm2 -> units_eqb u u_Wm2 = false ->
  lset (harr env (w_heap w) a) i v = Ok l -> nan_free env (hqty env (w_heap w) q) -> nan_free env (mkQA l u) ->
  let w' := w_steps env parse_unit [WTL k (HTSetDrivers q); WWrite a i v; WTL k (HT (TReset env)); WTL k (HT (TRun env))] w in
  exists s', model_state env w' k = Some (STL s') /\ tl_erf env s' = Some (mkQA l u) /\
    tl_outputs env s' = tl_outputs env (fst (tl_drive env (hqty env (w_heap w) q) s)).
Proof.
  intros env pu w k s q a u i v l Hr Hm Hq Hd He Hl N1 N2 w'. apply reachable_wf in Hr.
  assert (Eq : hqty env (w_heap w) q = mkQA (harr env (w_heap w) a) u) by (unfold hqty; now rewrite Hq).
  destruct (proj2 (to_mags_ok_iff env (hqty env (w_heap w) q) u_Wm2) ltac:(rewrite Eq; exact Hd)) as [m Em].
  destruct (tl_write env pu w k s q a u m i v l Hr Hm Hq Em Hl) as [H _]. rewrite He in H.
  assert (L : List.length l = List.length (harr env (w_heap w) a)).
  { unfold lset in Hl. destruct (Nat.ltb _ _); [|discriminate]. injection Hl as <-. apply upd_length. }
  apply nan_free_existsb in N1, N2.
  eapply tl_rerun; eauto. rewrite Eq. exact L.
Qed.

(** [q.ito(u2)] on a driver in W/m^2 leaves the forcing physically the same, and
    [model.erf] reports it so; but the model goes on taking the numbers, now in
    the other unit, as W/m^2. *)
Theorem c53_two_layer_ito_driver : forall (env : Env) parse_unit w k s q a u u2 l,
  w_reachable env parse_unit w -> model_state env w k = Some (STL s) ->
  nth_error (h_qtys (w_heap w)) q = Some (mkQObj a u) -> same_dim env u u_Wm2 -> units_eqb u u_Wm2 = true ->
  to_mags env (hqty env (w_heap w) q) u2 = Ok l -> nan_free env (mkQA l u2) ->
  let w' := w_steps env parse_unit [WTL k (HTSetDrivers q); WIto q u2; WTL k (HT (TReset env)); WTL k (HT (TRun env))] w in
  exists s', model_state env w' k = Some (STL s') /\ tl_erf env s' = Some (mkQA l u2) /\
    tl_outputs env s' = tl_outputs env (fst (tl_drive env (mkQA l u_Wm2) s)).
Proof.
  intros env pu w k s q a u u2 l Hr Hm Hq Hd He Hl N w'. apply reachable_wf in Hr.
  assert (Eq : hqty env (w_heap w) q = mkQA (harr env (w_heap w) a) u) by (unfold hqty; now rewrite Hq).
  destruct (proj2 (to_mags_ok_iff env (hqty env (w_heap w) q) u_Wm2) ltac:(rewrite Eq; exact Hd)) as [m Em].
  destruct (tl_ito env pu w k s q a u m u2 l Hr Hm Hq Em Hl) as [H _]. rewrite He in H.
  apply nan_free_existsb in N.
  eapply tl_rerun; eauto.
  unfold to_mags. cbn [aunits mags]. rewrite (proj2 (dim_eqb_spec env u_Wm2 u_Wm2) (fun _ _ => Qeq_refl _)).
  reflexivity.
Qed.

(** Impulse-response model: the driver's array is written after [set_drivers].  If the driver is in
    W/m^2 the model works on the caller's array: it is in the state that
    [set_drivers] with the new contents gives. *)
Theorem c53_impulse_response_shared_driver : forall (env : Env) parse_unit w k s q a u i v l,
  w_reachable env parse_unit w -> model_state env w k = Some (SIR s) ->
  nth_error (h_qtys (w_heap w)) q = Some (mkQObj a u) -> same_dim env u u_Wm2 -> units_eqb u u_Wm2 = true ->
  lset (harr env (w_heap w) a) i v = Ok l ->
  let w' := w_steps env parse_unit [WIR k (HISetDrivers q); WWrite a i v] w in
  model_state env w' k = Some (SIR (fst (ir_set_drivers env (EQ1 (mkQA l u)) s))).
Proof.
  intros env pu w k s q a u i v l Hr Hm Hq Hd He Hl w'. apply reachable_wf in Hr.
  assert (Eq : hqty env (w_heap w) q = mkQA (harr env (w_heap w) a) u) by (unfold hqty; now rewrite Hq).
  destruct (proj2 (to_mags_ok_iff env (hqty env (w_heap w) q) u_Wm2) ltac:(rewrite Eq; exact Hd)) as [m Em].
  destruct (ir_write env pu w k s q a u m i v l Hr Hm Hq Em Hl) as [H _]. unfold w'. rewrite H, He. do 2 f_equal.
  cbn [ir_set_drivers]. rewrite (iset_erf_ok env s (mkQA l u) l); [reflexivity|].
  unfold to_mags. cbn [aunits mags]. rewrite He, (proj2 (dim_eqb_spec env u u_Wm2) Hd). reflexivity.
Qed.

(** In any other unit the model has converted a copy: [model.erf] shows the new
    contents, but a run gives the results of the old ones. *)
Theorem c53_impulse_response_converted_driver : forall (env : Env) parse_unit w k s q a u i v l,
  w_reachable env parse_unit w -> model_state env w k = Some (SIR s) ->
  nth_error (h_qtys (w_heap w)) q = Some (mkQObj a u) -> same_dim env u u_Wm2 -> units_eqb u u_Wm2 = false ->
  lset (harr env (w_heap w) a) i v = Ok l -> nan_free env (hqty env (w_heap w) q) -> nan_free env (mkQA l u) ->
  let w' := w_steps env parse_unit [WIR k (HISetDrivers q); WWrite a i v; WIR k (HI (IReset env)); WIR k (HI (IRun env))] w in
  exists s', model_state env w' k = Some (SIR s') /\ ir_erf env s' = Some (mkQA l u) /\
    ir_outputs env s' = ir_outputs env (fst (ir_drive env (hqty env (w_heap w) q) s)).
Proof.
  intros env pu w k s q a u i v l Hr Hm Hq Hd He Hl N1 N2 w'. apply reachable_wf in Hr.
  assert (Eq : hqty env (w_heap w) q = mkQA (harr env (w_heap w) a) u) by (unfold hqty; now rewrite Hq).
  destruct (proj2 (to_mags_ok_iff env (hqty env (w_heap w) q) u_Wm2) ltac:(rewrite Eq; exact Hd)) as [m Em].
  destruct (ir_write env pu w k s q a u m i v l Hr Hm Hq Em Hl) as [H _]. rewrite He in H.
  assert (L : List.length l = List.length (harr env (w_heap w) a)).
  { unfold lset in Hl. destruct (Nat.ltb _ _); [|discriminate]. injection Hl as <-. apply upd_length. }
  apply nan_free_existsb in N1, N2.
  eapply ir_rerun; eauto. rewrite Eq. exact L.
Qed.

(** [q.ito(u2)] on a driver in W/m^2 leaves the forcing physically the same, and
    [model.erf] reports it so; but the model goes on taking the numbers, now in
    the other unit, as W/m^2. *)
Theorem c53_impulse_response_ito_driver : forall (env : Env) parse_unit w k s q a u u2 l,
  w_reachable env parse_unit w -> model_state env w k = Some (SIR s) ->
  nth_error (h_qtys (w_heap w)) q = Some (mkQObj a u) -> same_dim env u u_Wm2 -> units_eqb u u_Wm2 = true ->
  to_mags env (hqty env (w_heap w) q) u2 = Ok l -> nan_free env (mkQA l u2) ->
  let w' := w_steps env parse_unit [WIR k (HISetDrivers q); WIto q u2; WIR k (HI (IReset env)); WIR k (HI (IRun env))] w in
  exists s', model_state env w' k = Some (SIR s') /\ ir_erf env s' = Some (mkQA l u2) /\
    ir_outputs env s' = ir_outputs env (fst (ir_drive env (mkQA l u_Wm2) s)).
Proof.
  intros env pu w k s q a u u2 l Hr Hm Hq Hd He Hl N w'. apply reachable_wf in Hr.
  assert (Eq : hqty env (w_heap w) q = mkQA (harr env (w_heap w) a) u) by (unfold hqty; now rewrite Hq).
  destruct (proj2 (to_mags_ok_iff env (hqty env (w_heap w) q) u_Wm2) ltac:(rewrite Eq; exact Hd)) as [m Em].
  destruct (ir_ito env pu w k s q a u m u2 l Hr Hm Hq Em Hl) as [H _]. rewrite He in H.
  apply nan_free_existsb in N.
  eapply ir_rerun; eauto.
  unfold to_mags. cbn [aunits mags]. rewrite (proj2 (dim_eqb_spec env u_Wm2 u_Wm2) (fun _ _ => Qeq_refl _)).
  reflexivity.
Qed.

Example c53_case : w_reachable demo demo_parse case_world /\
  (exists s, model_state demo case_world 0 = Some (STL s)) /\ (exists s, model_state demo case_world 1 = Some (SIR s)) /\
  nth_error (h_qtys (w_heap case_world)) 0 = Some (mkQObj 0 u_Wm2) /\ units_eqb u_Wm2 u_Wm2 = true /\
  nth_error (h_qtys (w_heap case_world)) 1 = Some (mkQObj 1 u_Wkm2) /\ units_eqb u_Wkm2 u_Wm2 = false /\
  same_dim demo u_Wkm2 u_Wm2 /\
  lset (harr demo (w_heap case_world) 0) 2 (Some 7%Q) = Ok [Some 0; Some 1; Some 7; Some 3]%Q /\
  lset (harr demo (w_heap case_world) 1) 2 (Some 7%Q) = Ok [Some 0; Some 1000000; Some 7]%Q /\
  to_mags demo (hqty demo (w_heap case_world) 0) u_Wkm2 = Ok [Some 0; Some 1000000; Some 2000000; Some 3000000]%Q /\
  nan_free demo (hqty demo (w_heap case_world) 1) /\ nan_free demo (mkQA (env := demo) [Some 0; Some 1000000; Some 7]%Q u_Wkm2) /\
  nan_free demo (mkQA (env := demo) [Some 0; Some 1000000; Some 2000000; Some 3000000]%Q u_Wkm2).
Proof.
  split; [exact case_reach|]. split; [apply is_tl_ok; vmrefl|]. split; [apply is_ir_ok; vmrefl|].
  split; [vmrefl|]. split; [vmrefl|]. split; [vmrefl|].
  split; [vmrefl|].
  split; [apply dim_eqb_spec; vmrefl|].
  split; [vmrefl|]. split; [vmrefl|]. split; [vmrefl|].
  split; [apply nan_free_existsb; vmrefl|].
  split; apply nan_free_existsb; vmrefl.
Qed.

(** The three cases differ: the surface temperature after two years of the
    case above, as driven and after the array was changed. *)
Definition warming (ops : list (WOp demo)) : list (num demo) :=
  tl_temp_upper demo (tl_of (model_state demo (w_steps demo demo_parse ops case_world) 0)).
Definition same_num (x y : num demo) : bool :=
  match (x : on), (y : on) with Some p, Some q => Z.eqb (Qnum p) (Qnum q) && Pos.eqb (Qden p) (Qden q) | None, None => true | _, _ => false end.
Fixpoint same_list (l1 l2 : list (num demo)) : bool :=
  match l1, l2 with [], [] => true | x :: l1, y :: l2 => same_num x y && same_list l1 l2 | _, _ => false end.
Lemma same_num_eq x y : same_num x y = true <-> x = y.
Proof.
  unfold same_num. destruct x as [[n1 d1]|], y as [[n2 d2]|]; cbn; split; try discriminate; try reflexivity.
  - intros H. apply andb_true_iff in H as [H1 H2]. apply Z.eqb_eq in H1. apply Pos.eqb_eq in H2. now subst.
  - intros H. injection H as -> ->. now rewrite Z.eqb_refl, Pos.eqb_refl.
Qed.
Lemma same_list_eq l1 : forall l2, same_list l1 l2 = true <-> l1 = l2.
Proof.
  induction l1 as [|x l1 IH]; intros [|y l2]; cbn; split; try discriminate; try reflexivity.
  - intros H. apply andb_true_iff in H as [H1 H2]. apply same_num_eq in H1. apply IH in H2. now subst.
  - intros H. injection H as -> ->. now rewrite (proj2 (same_num_eq y y) eq_refl), (proj2 (IH l2) eq_refl).
Qed.
Lemma same_list_neq l1 l2 : same_list l1 l2 = false -> l1 <> l2.
Proof. intros H E. apply same_list_eq in E. congruence. Qed.
Example c53_difference :
  let run := [WTL 0 (HT (TReset demo)); WTL 0 (HT (TRun demo))] in
  warming (WTL 0 (HTSetDrivers 0) :: run) <> warming ([WTL 0 (HTSetDrivers 0); WWrite 0 2 (Some 7%Q : num demo)] ++ run) /\
  warming (WTL 0 (HTSetDrivers 0) :: run) <> warming ([WTL 0 (HTSetDrivers 0); WIto 0 u_Wkm2] ++ run) /\
  warming (WTL 0 (HTSetDrivers 1) :: run) = warming ([WTL 0 (HTSetDrivers 1); WWrite 1 1 (Some 7%Q : num demo)] ++ run).
Proof. split; [apply same_list_neq; vmrefl|]. split; [apply same_list_neq; vmrefl|]. apply same_list_eq. vmrefl. Qed.
