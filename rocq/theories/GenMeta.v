(** Metadata of scenario tables. *)
From Coq Require Import List String Ascii QArith ZArith Bool Arith Lia.
From Verif Require Import Arith Pint Base TwoLayer Impulse Scm Api Spec GenTL GenTLHist GenIR GenIRHist GenScm.
Import ListNotations.
Local Open Scope list_scope.

(** ** Units *)
Lemma expo_notin u s : ~ In s (map fst u) -> expo u s = 0.
Proof.
  induction u as [|[t e] u IH]; cbn; [reflexivity|].
  intros H. destruct (String.eqb_spec t s) as [->|]; [exfalso; auto|]. apply IH. auto.
Qed.

Lemma units_eqb_spec u v : units_eqb u v = true <-> forall s, expo u s == expo v s.
Proof.
  unfold units_eqb. rewrite forallb_forall. split.
  - intros H s. destruct (in_dec string_dec s (map fst (u ++ v))) as [Hi|Hn].
    + apply Qeq_bool_iff, H, Hi.
    + rewrite map_app in Hn. rewrite !expo_notin; [reflexivity| |];
        intros K; apply Hn, in_or_app; auto.
  - intros H s _. apply Qeq_bool_iff, H.
Qed.

Lemma units_eqb_sym u v : units_eqb u v = units_eqb v u.
Proof.
  apply eq_iff_eq_true. rewrite !units_eqb_spec. split; intros H s; symmetry; apply H.
Qed.
Lemma units_eqb_trans u v w : units_eqb u v = true -> units_eqb v w = true -> units_eqb u w = true.
Proof. rewrite !units_eqb_spec. intros H1 H2 s. rewrite H1. apply H2. Qed.

Lemma key_eqb_refl k : key_eqb k k = true.
Proof. destruct k; cbn; [apply String.eqb_refl|]. rewrite String.eqb_refl, units_eqb_refl. reflexivity. Qed.
Lemma key_eqb_sym a b : key_eqb a b = key_eqb b a.
Proof.
  destruct a, b; cbn; auto using String.eqb_sym.
  rewrite units_eqb_sym. f_equal. apply String.eqb_sym.
Qed.
Lemma key_eqb_trans a b c : key_eqb a b = true -> key_eqb b c = true -> key_eqb a c = true.
Proof.
  destruct a, b, c; cbn; try discriminate.
  - rewrite !String.eqb_eq. congruence.
  - rewrite !andb_true_iff, !String.eqb_eq. intros [-> H1] [-> H2]. split; [reflexivity|].
    eauto using units_eqb_trans.
Qed.
Lemma key_eqb_cong a b c : key_eqb a b = true -> key_eqb a c = key_eqb b c.
Proof.
  intros H. apply eq_iff_eq_true. split; intros K.
  - rewrite key_eqb_sym in H. eauto using key_eqb_trans.
  - eauto using key_eqb_trans.
Qed.

Section Meta.
Variable env : Env.
Notation mkeys := (mkeys env).
Notation distinct_keys := (distinct_keys env).
Notation refl_num := (refl_num env).
Notation clash := (clash env).
Notation Meta := (Meta env).
Notation mget := (mget env).
Notation mset := (mset env).
Notation meta_eqb := (meta_eqb env).
Notation mval_eqb := (mval_eqb env).

Lemma mget_cong (m : Meta) k k' : key_eqb k k' = true -> mget m k = mget m k'.
Proof.
  intros H. induction m as [|[k0 v0] m IH]; [reflexivity|]. cbn.
  rewrite (key_eqb_sym k0 k), (key_eqb_sym k0 k'), (key_eqb_cong k k' k0 H), IH. reflexivity.
Qed.

Lemma mget_mset (m : Meta) k v k' :
  mget (mset m k v) k' = if key_eqb k k' then Some v else mget m k'.
Proof.
  induction m as [|[k0 v0] m IH]; cbn; [reflexivity|].
  destruct (key_eqb k0 k) eqn:E; cbn.
  - rewrite (key_eqb_cong k0 k k' E). destruct (key_eqb k k'); reflexivity.
  - rewrite IH. destruct (key_eqb k0 k') eqn:E1; [|reflexivity].
    destruct (key_eqb k k') eqn:E2; [|reflexivity].
    rewrite key_eqb_sym in E2. rewrite (key_eqb_trans k0 k' k E1 E2) in E. discriminate.
Qed.

Lemma mget_none (m : Meta) k : mget m k = None <-> forall k', In k' (mkeys m) -> key_eqb k' k = false.
Proof.
  induction m as [|[k0 v0] m IH]; cbn.
  - split; [intros _ ? []|reflexivity].
  - destruct (key_eqb k0 k) eqn:E.
    + split; [discriminate|]. intros H. rewrite (H k0 (or_introl eq_refl)) in E. discriminate.
    + rewrite IH. split; intros H k' Hk; [destruct Hk as [<-|Hk]; auto|auto].
Qed.

Lemma mkeys_mset (m m' : Meta) k v v' : mkeys m = mkeys m' -> mkeys (mset m k v) = mkeys (mset m' k v').
Proof.
  revert m'; induction m as [|[k0 v0] m IH]; intros [|[k1 v1] m'] H; try discriminate; [reflexivity|].
  cbn in *. injection H as -> H. destruct (key_eqb k1 k); cbn; [f_equal; exact H|].
  f_equal. apply IH, H.
Qed.

Notation mrel := (mrel env).

Lemma meta_eqb_mget (a b : Meta) : meta_eqb a b = true -> forall k, mrel (mget a k) (mget b k).
Proof.
  revert b; induction a as [|[k0 v0] a IH]; intros [|[k1 v1] b] H k; try discriminate; cbn in *; [exact I|].
  apply andb_true_iff in H as [H H2]. apply andb_true_iff in H as [H0 H1].
  rewrite (key_eqb_cong k0 k1 k H0). destruct (key_eqb k1 k); [exact H1|]. apply IH, H2.
Qed.

Lemma meta_eqb_of_mget (a b : Meta) :
  mkeys a = mkeys b -> distinct_keys a -> (forall k, mrel (mget a k) (mget b k)) -> meta_eqb a b = true.
Proof.
  revert b; induction a as [|[k0 v0] a IH]; intros [|[k1 v1] b] Hk Hd H; try discriminate; [reflexivity|].
  cbn in *. injection Hk as -> Hk. change (mkeys a = mkeys b) in Hk. inversion Hd as [|x l Hx Hd']; subst.
  pose proof (H k1) as H0. rewrite !key_eqb_refl in H0. cbn in H0.
  rewrite key_eqb_refl, H0. cbn. apply IH; auto. intros k.
  destruct (key_eqb k1 k) eqn:E; [|specialize (H k); rewrite E in H; exact H].
  rewrite Forall_forall in Hx.
  assert (A : mget a k = None).
  { apply mget_none. intros k' Hi. specialize (Hx k' Hi).
    destruct (key_eqb k' k) eqn:E2; [|reflexivity]. rewrite key_eqb_sym in E2.
    rewrite (key_eqb_trans k1 k k' E E2) in Hx. discriminate. }
  assert (B : mget b k = None).
  { apply mget_none. intros k' Hi. rewrite <- Hk in Hi. specialize (Hx k' Hi).
    destruct (key_eqb k' k) eqn:E2; [|reflexivity]. rewrite key_eqb_sym in E2.
    rewrite (key_eqb_trans k1 k k' E E2) in Hx. discriminate. }
  rewrite A, B. exact I.
Qed.

Lemma distinct_mset (m : Meta) k v : distinct_keys m -> distinct_keys (mset m k v).
Proof.
  unfold distinct_keys. induction m as [|[k0 v0] m IH]; cbn; intros H.
  - repeat constructor.
  - destruct (key_eqb k0 k) eqn:E; [exact H|]. cbn. inversion H as [|x l Hx Hd]; subst.
    constructor; [|apply IH, Hd]. rewrite Forall_forall in *. intros k' Hi.
    assert (K : In k' (mkeys m) \/ k' = k).
    { clear - Hi. induction m as [|[k1 v1] m IH]; cbn in *; [intuition auto|].
      destruct (key_eqb k1 k); cbn in *; intuition auto. }
    destruct K as [K| ->]; [apply Hx, K|exact E].
Qed.

Lemma has_dup_false (l : list Meta) :
  has_dup env l = false <-> ForallOrdPairs (fun a b => meta_eqb a b = false) l.
Proof.
  induction l as [|m l IH]; cbn.
  - split; [constructor|reflexivity].
  - rewrite orb_false_iff, IH. split.
    + intros [H1 H2]. constructor; [|exact H2]. rewrite Forall_forall. intros x Hx.
      destruct (meta_eqb m x) eqn:E; [|reflexivity].
      assert (existsb (meta_eqb m) l = true) by (apply existsb_exists; eauto). congruence.
    + intros H. inversion H as [|x r Hx Hd]; subst. split; [|exact Hd].
      destruct (existsb (meta_eqb m) l) eqn:E; [|reflexivity].
      apply existsb_exists in E as (x & Hi & E). rewrite Forall_forall in Hx. rewrite Hx in E by assumption. discriminate.
Qed.

(** ** The blocks of output rows *)

Lemma mval_refl : refl_num -> forall v, mval_eqb v v = true.
Proof.
  intros H [s|x|n]; cbn; [apply String.eqb_refl| |apply Nat.eqb_refl].
  destruct (H x) as [-> | ->]; [reflexivity|]. apply orb_true_r.
Qed.

Lemma mrel_refl : refl_num -> forall o, mrel o o.
Proof. intros H [v|]; cbn; [apply mval_refl, H|exact I]. Qed.

Lemma mkeys_mset_present (m : Meta) k v : mget m k <> None -> mkeys (mset m k v) = mkeys m.
Proof.
  induction m as [|[k0 v0] m IH]; cbn; [congruence|].
  destruct (key_eqb k0 k); cbn; [reflexivity|]. intros H. f_equal. apply IH, H.
Qed.

(** Metadata of an output row: other unit and variable (base.py:144-151). *)
Definition out_meta (m : Meta) (o : string * string * list (num env)) : Meta :=
  mset (mset m (KName "unit") (MS env (snd (fst o)))) (KName "variable") (MS env (fst (fst o))).
Definition out_row (m : Meta) (pts : list (Z * num env)) (o : string * string * list (num env)) : OutRow env :=
  mkOut env (out_meta m o) (combine (map fst pts) (snd o)).

Lemma create_tss_ok m pts os :
  (forall o, In o os -> List.length (snd o) = List.length pts) ->
  create_tss env m pts os = Ok (map (out_row m pts) os).
Proof.
  induction os as [|o os IH]; intros H; [reflexivity|].
  cbn [create_tss map]. unfold create_ts. destruct o as [[v u] vals].
  pose proof (H _ (or_introl eq_refl)) as H0. cbn [snd] in H0. rewrite H0, Nat.eqb_refl. cbn [bind].
  rewrite IH by (intros; apply H; right; assumption). reflexivity.
Qed.

Lemma clash_iff m o v0 u0 :
  refl_num -> distinct_keys m ->
  mget m (KName "variable") = Some (MS env v0) -> mget m (KName "unit") = Some (MS env u0) ->
  (meta_eqb m (out_meta m o) = true <-> clash m o).
Proof.
  intros Hr Hd Hv Hu. unfold clash, out_meta. destruct o as [[v u] vals]. cbn [fst snd].
  rewrite Hv, Hu. split.
  - intros H. pose proof (meta_eqb_mget _ _ H (KName "variable")) as K1.
    pose proof (meta_eqb_mget _ _ H (KName "unit")) as K2.
    rewrite !mget_mset in K1, K2. cbn in K1, K2. rewrite Hv in K1. rewrite Hu in K2. cbn in K1, K2.
    apply String.eqb_eq in K1, K2. subst. auto.
  - intros [H1 H2]. injection H1 as ->. injection H2 as ->.
    apply meta_eqb_of_mget; [|exact Hd|].
    + rewrite !mkeys_mset_present; [reflexivity|congruence|]. rewrite mget_mset. cbn. congruence.
    + intros k. rewrite !mget_mset.
      destruct (key_eqb (KName "variable") k) eqn:E1.
      { rewrite <- (mget_cong m _ _ E1), Hv. cbn. apply String.eqb_refl. }
      destruct (key_eqb (KName "unit") k) eqn:E2.
      { rewrite <- (mget_cong m _ _ E2), Hu. cbn. apply String.eqb_refl. }
      apply mrel_refl, Hr.
Qed.

Lemma clash_dec m o v0 u0 :
  mget m (KName "variable") = Some (MS env v0) -> mget m (KName "unit") = Some (MS env u0) ->
  {clash m o} + {~ clash m o}.
Proof.
  intros Hv Hu. unfold clash. rewrite Hv, Hu. destruct o as [[v u] vals]. cbn [fst snd].
  destruct (string_dec v0 v) as [->|]; [|right; intros [? ?]; congruence].
  destruct (string_dec u0 u) as [->|]; [left; auto|right; intros [? ?]; congruence].
Qed.

(** Rows distinguishable by variable or unit. *)
Definition differ (a b : Meta) : Prop :=
  ~ mrel (mget a (KName "variable")) (mget b (KName "variable")) \/
  ~ mrel (mget a (KName "unit")) (mget b (KName "unit")).

Lemma differ_neq a b : differ a b -> meta_eqb a b = false.
Proof.
  intros H. destruct (meta_eqb a b) eqn:E; [|reflexivity].
  pose proof (meta_eqb_mget a b E) as K. destruct H as [H|H]; destruct (H (K _)).
Qed.
Lemma differ_mset a b i j : differ a b -> differ (mset a (KName "run_idx") i) (mset b (KName "run_idx") j).
Proof. unfold differ. rewrite !mget_mset. cbn. auto. Qed.

Definition vars_distinct (os : list (string * string * list (num env))) : Prop :=
  NoDup (map (fun o => fst (fst o)) os).

Lemma block_differ m os v0 u0 :
  mget m (KName "variable") = Some (MS env v0) -> mget m (KName "unit") = Some (MS env u0) ->
  vars_distinct os -> (forall o, In o os -> ~ clash m o) ->
  ForallOrdPairs differ (m :: map (out_meta m) os).
Proof.
  intros Hv Hu Hd Hc. constructor.
  - rewrite Forall_forall. intros x Hx. apply in_map_iff in Hx as (o & <- & Ho).
    specialize (Hc o Ho). unfold differ, out_meta. rewrite !mget_mset. cbn.
    unfold clash in Hc. rewrite Hv, Hu in *. cbn.
    destruct (string_dec v0 (fst (fst o))) as [E|E].
    + right. intros K. apply String.eqb_eq in K. apply Hc. subst; auto.
    + left. intros K. apply String.eqb_eq in K. auto.
  - clear Hc. induction os as [|o os IH]; [constructor|].
    inversion Hd as [|x l Hn Hd']; subst. cbn [map]. constructor; [|apply IH, Hd'].
    rewrite Forall_forall. intros x Hx. apply in_map_iff in Hx as (o' & <- & Ho).
    left. unfold out_meta. rewrite !mget_mset. cbn. intros K. apply String.eqb_eq in K.
    apply Hn. rewrite K. apply (in_map (fun o => fst (fst o))), Ho.
Qed.

Lemma FOP_map {A B} (f : A -> B) (R : B -> B -> Prop) (l : list A) :
  ForallOrdPairs (fun a b => R (f a) (f b)) l -> ForallOrdPairs R (map f l).
Proof.
  induction 1 as [|a l Ha _ IH]; [constructor|]. cbn. constructor; [|exact IH].
  rewrite Forall_forall in *. intros x Hx. apply in_map_iff in Hx as (y & <- & Hy). auto.
Qed.
Lemma FOP_impl {A} (R R' : A -> A -> Prop) l : (forall a b, R a b -> R' a b) ->
  ForallOrdPairs R l -> ForallOrdPairs R' l.
Proof.
  intros H. induction 1 as [|a l Ha _ IH]; constructor; [|exact IH].
  eapply Forall_impl; [|exact Ha]. auto.
Qed.
Lemma FOP_app {A} (R : A -> A -> Prop) l1 l2 :
  ForallOrdPairs R l1 -> ForallOrdPairs R l2 -> (forall a b, In a l1 -> In b l2 -> R a b) ->
  ForallOrdPairs R (l1 ++ l2).
Proof.
  induction 1 as [|a l Ha _ IH]; intros H2 H; [exact H2|]. cbn. constructor.
  - rewrite Forall_forall in *. intros x Hx. apply in_app_or in Hx as [Hx|Hx]; [auto|].
    apply H; [left; reflexivity|exact Hx].
  - apply IH; [exact H2|]. intros; apply H; [right|]; assumption.
Qed.

End Meta.

Section Blocks.
Context (env : Env) (parse_unit : string -> option (Qty env)) (V : Variant env).

(** A finished block: the driver row followed by the model's output rows. *)
Definition block (i : nat) (times : list Z) (r : Row env) (s : v_state env V) : list (OutRow env) :=
  let pts := drop_nan env times (r_vals env r) in
  map (fun o => mkOut env (mset env (o_meta env o) (KName "run_idx") (MI env i)) (o_points env o))
      (mkOut env (r_meta env r) pts :: map (out_row env (r_meta env r) pts) (v_outputs env V s)).

Lemma package_eq i times r s v0 u0 :
  refl_num env -> distinct_keys env (r_meta env r) ->
  mget env (r_meta env r) (KName "variable") = Some (MS env v0) ->
  mget env (r_meta env r) (KName "unit") = Some (MS env u0) ->
  vars_distinct env (v_outputs env V s) ->
  (forall o, In o (v_outputs env V s) ->
     List.length (snd o) = List.length (drop_nan env times (r_vals env r))) ->
  (package env V i times r s = Ok (block i times r s) /\
     (forall o, In o (v_outputs env V s) -> ~ clash env (r_meta env r) o)) \/
  (package env V i times r s = Err NonUniqueMetadataError /\
     exists o, In o (v_outputs env V s) /\ clash env (r_meta env r) o).
Proof.
  intros Hr Hd Hv Hu Hn Hl. unfold package. rewrite create_tss_ok by exact Hl. cbn [bind].
  assert (D : (exists o, In o (v_outputs env V s) /\ clash env (r_meta env r) o) \/
              (forall o, In o (v_outputs env V s) -> ~ clash env (r_meta env r) o)).
  { generalize (v_outputs env V s). intros os. induction os as [|o os IH]; [right; intros ? []|].
    destruct (clash_dec env (r_meta env r) o v0 u0 Hv Hu) as [C|C]; [left; exists o; cbn; auto|].
    destruct IH as [(o' & H1 & H2)|H]; [left; exists o'; cbn; auto|].
    right. intros o' [<-|Ho]; auto. }
  cbn [map o_meta]. rewrite map_map. cbn [out_row o_meta].
  destruct D as [(o & Ho & C)|D].
  - right. split; [|eauto].
    destruct (has_dup _ _) eqn:E; [reflexivity|]. exfalso.
    apply has_dup_false in E. inversion E as [|x l Hx _]; subst.
    rewrite Forall_forall in Hx. specialize (Hx (out_meta env (r_meta env r) o)).
    rewrite (proj2 (clash_iff env _ o v0 u0 Hr Hd Hv Hu) C) in Hx. discriminate Hx.
    apply in_map_iff. exists o. split; [reflexivity|exact Ho].
  - left. split; [|exact D].
    destruct (has_dup _ _) eqn:E; [|reflexivity]. exfalso.
    assert (has_dup env (r_meta env r :: map (fun x => out_meta env (r_meta env r) x) (v_outputs env V s)) = false); [|congruence].
    apply has_dup_false. eapply FOP_impl; [exact (differ_neq env)|].
    exact (block_differ env (r_meta env r) (v_outputs env V s) v0 u0 Hv Hu Hn D).
Qed.

(** All rows of a block carry its number, and are pairwise different. *)
Lemma block_idx i times r s o : In o (block i times r s) ->
  mget env (o_meta env o) (KName "run_idx") = Some (MI env i).
Proof.
  unfold block. intros H. apply in_map_iff in H as (o' & <- & _). cbn [o_meta].
  rewrite mget_mset. reflexivity.
Qed.

Lemma block_nodup i times r s v0 u0 :
  mget env (r_meta env r) (KName "variable") = Some (MS env v0) ->
  mget env (r_meta env r) (KName "unit") = Some (MS env u0) ->
  vars_distinct env (v_outputs env V s) ->
  (forall o, In o (v_outputs env V s) -> ~ clash env (r_meta env r) o) ->
  ForallOrdPairs (fun a b => meta_eqb env a b = false) (map (o_meta env) (block i times r s)).
Proof.
  intros Hv Hu Hn Hc. unfold block. rewrite map_map. cbn [o_meta].
  apply FOP_map.
  pose proof (block_differ env (r_meta env r) (v_outputs env V s) v0 u0 Hv Hu Hn Hc) as H.
  inversion H as [|x l Hx Hl]; subst. rewrite Forall_forall in Hx.
  constructor.
  - rewrite Forall_forall. intros o Ho. apply in_map_iff in Ho as (o' & <- & Ho). cbn [o_meta out_row].
    apply differ_neq, differ_mset, Hx. apply in_map_iff. eauto.
  - apply FOP_map. cbn [out_row o_meta].
    clear Hx H. induction (v_outputs env V s) as [|o os IH]; [constructor|].
    inversion Hl as [|x l Hx Hl']; subst. inversion Hn; subst. constructor.
    + rewrite Forall_forall in *. intros o' Ho. apply differ_neq, differ_mset, Hx.
      apply in_map_iff. eauto.
    + apply IH; auto. intros; apply Hc; right; assumption.
Qed.

End Blocks.
