(** Threads on disjoint parts of the state do not interfere. *)
From Coq Require Import List Arith Bool Lia.
From Verif Require Import Arith Base Threads SpecThreads.
Import ListNotations.

Lemma nth_error_put {X} (l : list X) i j y : (i < List.length l)%nat ->
  nth_error (firstn i l ++ y :: skipn (S i) l) j = if Nat.eqb i j then Some y else nth_error l j.
Proof.
  revert i j. induction l as [|x l IH]; intros i j H; [cbn in H; lia|].
  destruct i as [|i]; destruct j as [|j]; cbn; try reflexivity.
  cbn in H. rewrite IH by lia. reflexivity.
Qed.
Lemma put_length {X} (l : list X) i y : (i < List.length l)%nat -> List.length (firstn i l ++ y :: skipn (S i) l) = List.length l.
Proof. intros H. rewrite app_length, firstn_length. cbn [List.length]. rewrite skipn_length. lia. Qed.

(** [n] actions of a thread that is alone. *)
Fixpoint ahead {S A} (n : nat) (p : Prog S A) (s : S) : S * Prog S A :=
  match n, p with
  | Datatypes.S n, Act w k => ahead n (k s) (w s)
  | _, _ => (s, p)
  end.
Lemma ahead_S {S A} n (p : Prog S A) s :
  ahead (Datatypes.S n) p s = let (s', p') := ahead n p s in ahead 1 p' s'.
Proof.
  revert p s. induction n as [|n IH]; intros p s; [destruct p; reflexivity|].
  destruct p as [r|w k]; [reflexivity|]. change (ahead (Datatypes.S (Datatypes.S n)) (Act w k) s) with (ahead (Datatypes.S n) (k s) (w s)).
  rewrite IH. reflexivity.
Qed.
Lemma ahead_alone {S A} n (p : Prog S A) s : alone p s = let (s', p') := ahead n p s in alone p' s'.
Proof. revert p s. induction n as [|n IH]; intros p s; [destruct p; reflexivity|]. destruct p as [r|w k]; [reflexivity|]. exact (IH (k s) (w s)). Qed.
Lemma ahead_ends {S A} (p : Prog S A) s : exists n, forall m, (n <= m)%nat -> exists r, ahead m p s = (fst (alone p s), Done r) /\ r = snd (alone p s).
Proof.
  revert s. induction p as [r|w k IH]; intros s.
  - exists 0%nat. intros [|m] _; exists r; split; reflexivity.
  - destruct (IH s (w s)) as (n & H). exists (Datatypes.S n). intros [|m] Hm; [lia|]. apply H. lia.
Qed.

Lemma Forall2_nth {X Y} (R : X -> Y -> Prop) l m i x : Forall2 R l m -> nth_error l i = Some x ->
  exists y, nth_error m i = Some y /\ R x y.
Proof.
  intros H. revert i. induction H as [|a b l m Hab H IH]; intros [|i] E; cbn in *; try discriminate.
  - injection E as <-. exists b. auto.
  - apply IH, E.
Qed.
Lemma nth_error_Some_lt {X} (l : list X) i x : nth_error l i = Some x -> (i < List.length l)%nat.
Proof. intros H. apply nth_error_Some. congruence. Qed.

Section NI.
Context {S A X : Type} (same : X -> S -> S -> Prop).
Hypothesis same_refl : forall x s, same x s s.
Hypothesis same_sym : forall x s s', same x s s' -> same x s' s.
Hypothesis same_trans : forall x s s' s'', same x s s' -> same x s' s'' -> same x s s''.
Definition agree (D : X -> Prop) (s s' : S) : Prop := forall x, D x -> same x s s'.

(** The thread reads and writes only the parts in [D]. *)
Inductive within (D : X -> Prop) {B} : Prog S B -> Prop :=
| wi_done r : within D (Done r)
| wi_act w k : (forall s x, ~ D x -> same x (w s) s) ->
    (forall s s', agree D s s' -> agree D (w s) (w s') /\ k s = k s') ->
    (forall s, within D (k s)) -> within D (Act w k).

Lemma within_bind (D : X -> Prop) {B C} (p : Prog S B) (f : B -> Prog S C) :
  within D p -> (forall a, within D (f a)) -> within D (pbind p f).
Proof.
  intros H Hf. induction H as [[a|e]|w k H1 H2 H3 IH]; cbn; [apply Hf|constructor|].
  constructor; [exact H1| |exact IH]. intros s s' E. destruct (H2 s s' E) as [? ->]. split; [assumption|reflexivity].
Qed.
Lemma within_catch (D : X -> Prop) {B C} (p : Prog S B) (f : Res B -> Prog S C) :
  within D p -> (forall a, within D (f a)) -> within D (pcatch p f).
Proof.
  intros H Hf. induction H as [r|w k H1 H2 H3 IH]; cbn; [apply Hf|].
  constructor; [exact H1| |exact IH]. intros s s' E. destruct (H2 s s' E) as [? ->]. split; [assumption|reflexivity].
Qed.
Lemma within_calls (D : X -> Prop) {O B} (call : O -> Prog S B) ops :
  (forall o, In o ops -> within D (call o)) -> within D (pcalls call ops).
Proof.
  induction ops as [|o ops IH]; intros H; cbn [pcalls]; [constructor|].
  apply within_catch; [apply H; left; reflexivity|]. intros r. apply within_catch; [apply IH; intros o' Ho; apply H; right; exact Ho|].
  intros [l|e]; constructor.
Qed.
Lemma within_weaken (D E : X -> Prop) {B} (p : Prog S B) : (forall x, D x -> E x) -> (forall x, D x \/ ~ D x) -> within D p -> within E p.
Proof.
  intros H Dec W. induction W as [r|w k H1 H2 H3 IH]; constructor; try exact IH.
  - intros s x N. apply H1. intros Hx. apply N, H, Hx.
  - intros s s' Eq. destruct (H2 s s') as [P Q]; [intros x Hx; apply Eq, H, Hx|]. split; [|exact Q].
    intros x Hx. destruct (Dec x) as [d|d]; [apply P, d|].
    eapply same_trans; [apply H1, d|]. eapply same_trans; [apply Eq, Hx|]. apply same_sym, H1, d.
Qed.

Lemma within_ahead (D : X -> Prop) {B} n (p : Prog S B) s s' : within D p -> agree D s s' ->
  let '(t, q) := ahead n p s in let '(t', q') := ahead n p s' in
  agree D t t' /\ q = q' /\ within D q /\ (forall x, ~ D x -> same x t s).
Proof.
  revert p s s'. induction n as [|n IH]; intros p s s' W E.
  - destruct p; cbn; split; auto.
  - destruct p as [r|w k]; cbn; [split; auto|]. inversion W as [|w' k' H1 H2 H3]; subst.
    destruct (H2 s s' E) as [P Q]. specialize (IH (k s) (w s) (w s') (H3 s) P). rewrite <- Q.
    destruct (ahead n (k s) (w s)) as [t q], (ahead n (k s) (w s')) as [t' q']. destruct IH as (I1 & I2 & I3 & I4).
    split; [exact I1|]. split; [exact I2|]. split; [exact I3|]. intros x N. eapply same_trans; [apply I4, N|apply H1, N].
Qed.
Lemma within_alone (D : X -> Prop) {B} (p : Prog S B) s s' : within D p -> agree D s s' ->
  agree D (fst (alone p s)) (fst (alone p s')) /\ snd (alone p s) = snd (alone p s') /\ (forall x, ~ D x -> same x (fst (alone p s)) s).
Proof.
  intros W E. destruct (ahead_ends p s) as (n & Hn), (ahead_ends p s') as (n' & Hn').
  destruct (Hn (n + n')%nat) as (r & E1 & ->); [lia|]. destruct (Hn' (n + n')%nat) as (r' & E2 & ->); [lia|].
  pose proof (within_ahead D (n + n')%nat p s s' W E) as H. rewrite E1, E2 in H. destruct H as (H1 & H2 & _ & H4).
  injection H2 as H2. auto.
Qed.

(** ** Threads *)
Variable ps : list (Prog S A).
Variable Ds : list (X -> Prop).
Hypothesis Hw : Forall2 (fun p D => within D p) ps Ds.
Hypothesis Hd : forall i j D E x, i <> j -> nth_error Ds i = Some D -> nth_error Ds j = Some E -> D x -> E x -> False.
Variable s0 : S.

Lemma play_snoc sched i (x : S * list (Prog S A)) : play (sched ++ [i]) x = turn i (play sched x).
Proof. revert x. induction sched as [|j sched IH]; intros x; [reflexivity|]. apply IH. Qed.

(** Thread [i] is where it would be alone after as many turns. *)
Lemma play_apart sched :
  let x := play sched (s0, ps) in
  List.length (snd x) = List.length ps /\
  (forall i p D, nth_error ps i = Some p -> nth_error Ds i = Some D ->
     let y := ahead (count_occ Nat.eq_dec sched i) p s0 in
     nth_error (snd x) i = Some (snd y) /\ within D (snd y) /\ agree D (fst x) (fst y)) /\
  (forall z, (forall i D, nth_error Ds i = Some D -> ~ D z) -> same z (fst x) s0).
Proof.
  induction sched as [|i sched IH] using rev_ind.
  - cbn. split; [reflexivity|]. split; [|auto]. intros i p D Hp HD.
    assert (W : within D p). { destruct (Forall2_nth _ ps Ds i p Hw Hp) as (D' & E & W). congruence. }
    destruct p; cbn; (split; [exact Hp|split; [exact W|intros z _; apply same_refl]]).
  - cbv zeta in *. rewrite play_snoc. destruct (play sched (s0, ps)) as [s qs]. cbn [fst snd] in *. destruct IH as (L & I1 & I2).
    unfold turn. destruct (nth_error qs i) as [q|] eqn:Eq.
    2:{ split; [exact L|]. split; [|exact I2]. intros j p D Hp HD.
        assert (N : i <> j). { intros <-. apply nth_error_None in Eq. apply nth_error_Some_lt in Hp. lia. }
        rewrite count_occ_app. cbn [count_occ]. destruct (Nat.eq_dec i j); [contradiction|]. rewrite Nat.add_0_r. exact (I1 j p D Hp HD). }
    assert (Hi : (i < List.length ps)%nat) by (rewrite <- L; eapply nth_error_Some_lt, Eq).
    destruct (nth_error ps i) as [pi|] eqn:Epi; [|apply nth_error_None in Epi; lia].
    destruct (Forall2_nth _ ps Ds i pi Hw Epi) as (Di & EDi & _).
    destruct (I1 i pi Di Epi EDi) as (J1 & J2 & J3).
    assert (CC : count_occ Nat.eq_dec (sched ++ [i]) i = Datatypes.S (count_occ Nat.eq_dec sched i)).
    { rewrite count_occ_app. cbn [count_occ]. destruct (Nat.eq_dec i i); [lia|contradiction]. }
    assert (CN : forall j, i <> j -> count_occ Nat.eq_dec (sched ++ [i]) j = count_occ Nat.eq_dec sched j).
    { intros j N. rewrite count_occ_app. cbn [count_occ]. destruct (Nat.eq_dec i j); [contradiction|lia]. }
    assert (EqE : q = snd (ahead (count_occ Nat.eq_dec sched i) pi s0)) by congruence.
    destruct q as [r|w k]; cbn [fst snd].
    + split; [exact L|]. split; [|exact I2]. intros j p D Hp HD. destruct (Nat.eq_dec i j) as [<-|N].
      * rewrite CC, ahead_S. rewrite Epi in Hp. injection Hp as <-. specialize (I1 i pi D Epi HD).
        destruct (ahead (count_occ Nat.eq_dec sched i) pi s0) as [t qq]. cbn [fst snd] in *. subst qq. exact I1.
      * rewrite CN by exact N. exact (I1 j p D Hp HD).
    + rewrite put_length by lia. split; [exact L|]. split.
      * intros j p D Hp HD. rewrite nth_error_put by lia. destruct (Nat.eq_dec i j) as [<-|N].
        -- rewrite Nat.eqb_refl, CC, ahead_S. rewrite Epi in Hp. injection Hp as <-. specialize (I1 i pi D Epi HD).
           destruct (ahead (count_occ Nat.eq_dec sched i) pi s0) as [t qq]. cbn [fst snd] in *. subst qq.
           destruct I1 as (_ & W & E). inversion W as [|w' k' H1 H2 H3]; subst. cbn [ahead fst snd].
           destruct (H2 s t E) as [P Q]. rewrite Q. replace (ahead 0 (k t) (w t)) with (w t, k t) by (destruct (k t); reflexivity).
           cbn [fst snd]. split; [reflexivity|]. split; [apply H3|exact P].
        -- replace (Nat.eqb i j) with false by (symmetry; apply Nat.eqb_neq, N). rewrite CN by exact N.
           destruct (I1 j p D Hp HD) as (K1 & K2 & K3). split; [exact K1|]. split; [exact K2|].
           intros z Dz. eapply same_trans; [|apply K3, Dz].
           rewrite <- EqE in J2. inversion J2 as [|w' k' H1 H2 H3]; subst. apply H1. intros Dz'. exact (Hd i j Di D z N EDi HD Dz' Dz).
      * intros z Nz. eapply same_trans; [|apply I2, Nz].
        rewrite <- EqE in J2. inversion J2 as [|w' k' H1 H2 H3]; subst. apply H1. exact (Nz i Di EDi).
Qed.

Lemma play_apart_ends sched : finished (play sched (s0, ps)) ->
  (forall i p D, nth_error ps i = Some p -> nth_error Ds i = Some D ->
     ended (play sched (s0, ps)) i (snd (alone p s0)) /\ agree D (fst (play sched (s0, ps))) (fst (alone p s0))) /\
  (forall z, (forall i D, nth_error Ds i = Some D -> ~ D z) -> same z (fst (play sched (s0, ps))) s0).
Proof.
  intros F. destruct (play_apart sched) as (L & I1 & I2). split; [|exact I2]. intros i p D Hp HD.
  destruct (I1 i p D Hp HD) as (J1 & _ & J3). destruct (F _ (nth_error_In _ _ J1)) as (r & Er).
  rewrite (ahead_alone (count_occ Nat.eq_dec sched i) p s0). destruct (ahead _ p s0) as [t q]. cbn [fst snd] in *. subst q.
  split; [exact J1|exact J3].
Qed.
Lemma play_apart_turns : exists n, forall sched, turns_each (List.length ps) n sched -> finished (play sched (s0, ps)).
Proof.
  assert (N : exists n, forall p, In p ps -> exists r, forall m, (n <= m)%nat -> snd (ahead m p s0) = Done r).
  { clear Hw Hd. induction ps as [|p l IH].
    - exists 0%nat. intros p [].
    - destruct IH as (n & H). destruct (ahead_ends p s0) as (n' & H'). exists (n + n')%nat. intros q [<-|Hq].
      + exists (snd (alone p s0)). intros m Hm. destruct (H' m) as (r & E & ->); [lia|]. rewrite E. reflexivity.
      + destruct (H q Hq) as (r & Hr). exists r. intros m Hm. apply Hr. lia. }
  destruct N as (n & Hn). exists n. intros sched T p Hp. destruct (play_apart sched) as (L & I1 & _).
  apply In_nth_error in Hp as (i & Hi). assert (Hlt : (i < List.length ps)%nat) by (rewrite <- L; eapply nth_error_Some_lt, Hi).
  destruct (nth_error ps i) as [pi|] eqn:Epi; [|apply nth_error_None in Epi; lia].
  destruct (Forall2_nth _ ps Ds i pi Hw Epi) as (Di & EDi & _). destruct (I1 i pi Di Epi EDi) as (J1 & _).
  destruct (Hn pi (nth_error_In _ _ Epi)) as (r & Hr). exists r. rewrite Hi in J1. injection J1 as ->. apply Hr, T, Hlt.
Qed.

(** One thread after the other, without switching. *)
Definition in_turn (l : list (Prog S A)) (s : S) : S := fold_left (fun s p => fst (alone p s)) l s.
End NI.

Section Seq.
Context {S A X : Type} (same : X -> S -> S -> Prop).
Hypothesis same_refl : forall x s, same x s s.
Hypothesis same_sym : forall x s s', same x s s' -> same x s' s.
Hypothesis same_trans : forall x s s' s'', same x s s' -> same x s' s'' -> same x s s''.

Lemma in_turn_untouched (l : list (Prog S A)) Ds s z : Forall2 (fun p D => within same D p) l Ds ->
  (forall i D, nth_error Ds i = Some D -> ~ D z) -> same z (in_turn l s) s.
Proof.
  intros H. revert s. induction H as [|p D l Ds Hp H IH]; intros s N; [apply same_refl|]. cbn [in_turn fold_left].
  eapply same_trans; [apply (IH (fst (alone p s))); intros i E HE; exact (N (Datatypes.S i) E HE)|].
  destruct (within_alone same same_refl same_trans D p s s Hp) as (_ & _ & Q); [intros x _; apply same_refl|]. apply Q. exact (N 0%nat D eq_refl).
Qed.
Lemma in_turn_own (l : list (Prog S A)) Ds s : Forall2 (fun p D => within same D p) l Ds ->
  (forall i j D E x, i <> j -> nth_error Ds i = Some D -> nth_error Ds j = Some E -> D x -> E x -> False) ->
  forall k p D, nth_error l k = Some p -> nth_error Ds k = Some D -> agree same D (in_turn l s) (fst (alone p s)).
Proof.
  intros H. revert s. induction H as [|p D l Ds Hp H IH]; intros s N k q E Hq HE; [destruct k; discriminate|].
  assert (N' : forall i j D E x, i <> j -> nth_error Ds i = Some D -> nth_error Ds j = Some E -> D x -> E x -> False).
  { intros i j D1 E1 x Hij H1 H2. apply (N (Datatypes.S i) (Datatypes.S j) D1 E1 x); [lia|exact H1|exact H2]. }
  destruct k as [|k]; cbn in Hq, HE.
  - injection Hq as <-. injection HE as <-. intros x Dx. cbn [in_turn fold_left]. apply (in_turn_untouched l Ds).
    + exact H.
    + intros i E HE Ex. exact (N 0%nat (Datatypes.S i) D E x (Nat.neq_0_succ i) eq_refl HE Dx Ex).
  - intros x Ex. cbn [in_turn fold_left]. eapply same_trans; [apply (IH (fst (alone p s)) N' k q E Hq HE x Ex)|].
    destruct (Forall2_nth _ l Ds k q H Hq) as (E' & HE' & W). assert (E' = E) by congruence. subst E'.
    destruct (within_alone same same_refl same_trans E q (fst (alone p s)) s W) as (P & _ & _); [|apply P, Ex].
    intros z Ez. destruct (within_alone same same_refl same_trans D p s s Hp) as (_ & _ & Q); [intros y _; apply same_refl|].
    apply Q. intros Dz. exact (N 0%nat (Datatypes.S k) D E z (Nat.neq_0_succ k) eq_refl HE Dz Ez).
Qed.

(** Whatever the schedule, the end is that of one thread after the other. *)
Lemma play_in_turn (ps : list (Prog S A)) Ds s sched : Forall2 (fun p D => within same D p) ps Ds ->
  (forall i j D E x, i <> j -> nth_error Ds i = Some D -> nth_error Ds j = Some E -> D x -> E x -> False) ->
  (forall i D x, nth_error Ds i = Some D -> D x \/ ~ D x) ->
  finished (play sched (s, ps)) ->
  (forall x, same x (fst (play sched (s, ps))) (in_turn ps s)) /\
  (forall i p, nth_error ps i = Some p -> ended (play sched (s, ps)) i (snd (alone p s))).
Proof.
  intros H N Dec F. destruct (play_apart_ends same same_refl same_trans ps Ds H N s sched F) as [P Q].
  assert (C : forall x, (exists i p D, nth_error ps i = Some p /\ nth_error Ds i = Some D /\ D x) \/ (forall i D, nth_error Ds i = Some D -> ~ D x)).
  { intros x. clear N F P Q. induction H as [|p D ps Ds Hp H IH]; [right; intros [|i] D E; discriminate|].
    destruct (Dec 0%nat D x eq_refl) as [d|d]; [left; exists 0%nat, p, D; auto|].
    destruct IH as [(i & q & E & H1 & H2 & H3)|IH].
    - intros i E x' HE. exact (Dec (Datatypes.S i) E x' HE).
    - left. exists (Datatypes.S i), q, E. auto.
    - right. intros [|i] E HE; cbn in HE; [injection HE as <-; exact d|exact (IH i E HE)]. }
  split.
  - intros x. destruct (C x) as [(i & p & D & H1 & H2 & H3)|Nx].
    + destruct (P i p D H1 H2) as [_ P2]. eapply same_trans; [apply P2, H3|]. apply same_sym. exact (in_turn_own ps Ds s H N i p D H1 H2 x H3).
    + eapply same_trans; [apply Q, Nx|]. apply same_sym. exact (in_turn_untouched ps Ds s x H Nx).
  - intros i p Hp. destruct (Forall2_nth _ ps Ds i p H Hp) as (D & HD & _). apply (P i p D Hp HD).
Qed.
End Seq.
