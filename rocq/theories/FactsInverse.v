(** Property C61: what the results of a run determine. *)
From Coq Require Import List String QArith Reals Bool Arith Lra Lia Psatz.
From Verif Require Import Arith Pint Base TwoLayer Impulse Scm Api Spec Demo Exact SpecReal RealUnits RealTL RealEuler RealIR RealBox RealModels FactsTL FactsIR FactsIR2.
Import ListNotations.
Local Open Scope R_scope.

Lemma eu_0 p F : eu p F 0 = 0. Proof. reflexivity. Qed.
Lemma el_0 p F : el p F 0 = 0. Proof. reflexivity. Qed.

(** One step determines the forcing. *)
Lemma step_forcing p F G T TD : p_C p <> 0 -> p_dt p <> 0 ->
  T + p_dt p * dT_dt p F T TD = T + p_dt p * dT_dt p G T TD -> F = G.
Proof.
  intros HC Hd H. unfold dT_dt in H.
  assert (K : p_dt p * ((F - G) / p_C p) = 0).
  { replace (p_dt p * ((F - G) / p_C p)) with
      (p_dt p * ((F - (p_lambda0 p - p_a p * T) * T - p_eps p * p_eta p * (T - TD)) / p_C p) -
       p_dt p * ((G - (p_lambda0 p - p_a p * T) * T - p_eps p * p_eta p * (T - TD)) / p_C p)) by (field; exact HC). lra. }
  apply Rmult_integral in K. destruct K as [K|K]; [contradiction|]. unfold Rdiv in K. apply Rmult_integral in K.
  destruct K as [K|K]; [lra|]. apply Rinv_neq_0_compat in HC. contradiction.
Qed.

Section Forcing.
Variables (p : TLP) (F G : nat -> R) (n : nat).
Hypothesis HC : p_C p <> 0.
Hypothesis HCD : p_CD p <> 0.
Hypothesis Hd : p_dt p <> 0.

Lemma surface_determines : (forall i, (i < n)%nat -> eu p F i = eu p G i) ->
  forall i, (i < n)%nat -> el p F i = el p G i /\ forall j, (j < i)%nat -> F j = G j.
Proof using HC Hd.
  intros H. induction i as [|i IH]; intros Hi; [split; [reflexivity|lia]|].
  destruct (IH ltac:(lia)) as (I1 & I2). pose proof (H i ltac:(lia)) as Hu. split.
  - rewrite !el_S, I1, Hu. reflexivity.
  - intros j Hj. destruct (Nat.eq_dec j i) as [->|Nj]; [|apply I2; lia].
    pose proof (H (S i) Hi) as Hs. rewrite !eu_S, I1, Hu in Hs. exact (step_forcing _ _ _ _ _ HC Hd Hs).
Qed.

Lemma uptake_determines : (forall i, (i < n)%nat -> en p F i = en p G i) ->
  forall i, (i < n)%nat -> eu p F i = eu p G i /\ el p F i = el p G i /\ forall j, (j < i)%nat -> F j = G j.
Proof using HC HCD Hd.
  intros H. induction i as [|i IH]; intros Hi; [split; [reflexivity|split; [reflexivity|lia]]|].
  destruct (IH ltac:(lia)) as (I0 & I1 & I2).
  assert (K : F i = G i).
  { pose proof (H (S i) Hi) as Hs. rewrite !en_balance in Hs by assumption. rewrite I0, I1 in Hs. lra. }
  split; [rewrite !eu_S, I0, I1, K; reflexivity|]. split; [rewrite !el_S, I0, I1; reflexivity|].
  intros j Hj. destruct (Nat.eq_dec j i) as [->|Nj]; [exact K|apply I2; lia].
Qed.

Lemma deep_determines : p_eta p <> 0 -> (forall i, (i < n)%nat -> el p F i = el p G i) ->
  forall i, (S i < n)%nat -> eu p F i = eu p G i.
Proof using HCD Hd.
  intros He H i Hi. pose proof (H (S i) Hi) as Hs. rewrite !el_S, (H i ltac:(lia)) in Hs. unfold dTD_dt in Hs.
  assert (K : p_dt p * p_eta p * (eu p F i - eu p G i) / p_CD p = 0).
  { replace (p_dt p * p_eta p * (eu p F i - eu p G i) / p_CD p) with
      (p_dt p * (p_eta p * (eu p F i - el p G i) / p_CD p) - p_dt p * (p_eta p * (eu p G i - el p G i) / p_CD p)) by (field; exact HCD). lra. }
  assert (K2 : p_dt p * p_eta p * (eu p F i - eu p G i) = 0).
  { apply Rmult_eq_reg_r with (/ p_CD p); [unfold Rdiv in K; lra|apply Rinv_neq_0_compat, HCD]. }
  apply Rmult_integral in K2. destruct K2 as [K2|K2]; [|lra]. apply Rmult_integral in K2. tauto.
Qed.
End Forcing.

(** ** C61 *)
(** The surface temperature of a two-layer run determines the forcing, except
    for the last value, which no result depends on. *)
Theorem c61_forcing_from_surface_temperature : forall reg parse s s' p e e' F F' T TD N TD' N',
  tl_setup reg parse s p e F -> tl_setup reg parse s' p e' F' -> npoints e' = npoints e ->
  tl_reports reg s e T TD N -> tl_reports reg s' e' T TD' N' ->
  forall i, (S i < npoints e)%nat -> F i = F' i.
Proof.
  intros reg parse s s' p e e' F F' T TD N TD' N' S1 S2 Hn R1 R2 i Hi.
  destruct (setup_inv _ _ _ _ _ _ _ _ _ S1 R1) as (D & V). destruct (setup_inv _ _ _ _ _ _ _ _ _ S2 R2) as (_ & V').
  rewrite Hn in V'. destruct (caps p (D ltac:(lia))) as (HC & HCD & Hd).
  refine (proj2 (surface_determines p F F' (npoints e) HC Hd _ (S i) Hi) i ltac:(lia)).
  intros j Hj. destruct (V j Hj) as (A & _). destruct (V' j Hj) as (A' & _). congruence.
Qed.

(** So does the heat uptake alone. *)
Theorem c61_forcing_from_heat_uptake : forall reg parse s s' p e e' F F' T TD N T' TD',
  tl_setup reg parse s p e F -> tl_setup reg parse s' p e' F' -> npoints e' = npoints e ->
  tl_reports reg s e T TD N -> tl_reports reg s' e' T' TD' N ->
  forall i, (S i < npoints e)%nat -> F i = F' i.
Proof.
  intros reg parse s s' p e e' F F' T TD N T' TD' S1 S2 Hn R1 R2 i Hi.
  destruct (setup_inv _ _ _ _ _ _ _ _ _ S1 R1) as (D & V). destruct (setup_inv _ _ _ _ _ _ _ _ _ S2 R2) as (_ & V').
  rewrite Hn in V'. destruct (caps p (D ltac:(lia))) as (HC & HCD & Hd).
  refine (proj2 (proj2 (uptake_determines p F F' (npoints e) HC HCD Hd _ (S i) Hi)) i ltac:(lia)).
  intros j Hj. destruct (V j Hj) as (_ & _ & A). destruct (V' j Hj) as (_ & _ & A'). congruence.
Qed.

(** And, if the layers exchange heat, the temperature of the deep layer, one
    value later. *)
Theorem c61_forcing_from_deep_temperature : forall reg parse s s' p e e' F F' T TD N T' N',
  tl_setup reg parse s p e F -> tl_setup reg parse s' p e' F' -> npoints e' = npoints e -> p_eta p <> 0 ->
  tl_reports reg s e T TD N -> tl_reports reg s' e' T' TD N' ->
  forall i, (S (S i) < npoints e)%nat -> F i = F' i.
Proof.
  intros reg parse s s' p e e' F F' T TD N T' N' S1 S2 Hn He R1 R2 i Hi.
  destruct (setup_inv _ _ _ _ _ _ _ _ _ S1 R1) as (D & V). destruct (setup_inv _ _ _ _ _ _ _ _ _ S2 R2) as (_ & V').
  rewrite Hn in V'. destruct (caps p (D ltac:(lia))) as (HC & HCD & Hd).
  refine (proj2 (surface_determines p F F' (S (S i)) HC Hd _ (S i) ltac:(lia)) i ltac:(lia)).
  intros j Hj. apply (deep_determines p F F' (npoints e) HCD Hd He); [|lia].
  intros k Hk. destruct (V k Hk) as (_ & A & _). destruct (V' k Hk) as (_ & A' & _). congruence.
Qed.

(** Every series of surface temperatures from zero is the result of a forcing;
    so is every series of heat uptakes from zero, and every series of deep
    temperatures that starts with two zeros. *)
Fixpoint deep_of (p : TLP) (T : nat -> R) (i : nat) : R :=
  match i with O => 0 | S k => deep_of p T k + p_dt p * dTD_dt p (T k) (deep_of p T k) end.
Definition forcing_of (p : TLP) (T : nat -> R) (i : nat) : R :=
  p_C p * (T (S i) - T i) / p_dt p + (p_lambda0 p - p_a p * T i) * T i + p_eps p * p_eta p * (T i - deep_of p T i).
Lemma forcing_of_ok p T : p_C p <> 0 -> p_dt p <> 0 -> T 0%nat = 0 ->
  forall i, eu p (forcing_of p T) i = T i /\ el p (forcing_of p T) i = deep_of p T i.
Proof.
  intros HC Hd H0. induction i as [|i (I1 & I2)]; [split; [symmetry; exact H0|reflexivity]|].
  rewrite eu_S, el_S, I1, I2. split; [|reflexivity]. unfold dT_dt, forcing_of. field. auto.
Qed.
Fixpoint state_of (p : TLP) (N : nat -> R) (i : nat) : R * R :=
  match i with
  | O => (0, 0)
  | S k => let (T, TD) := state_of p N k in
           let F := N (S k) + (p_lambda0 p - p_a p * T) * T + (p_eps p - 1) * p_eta p * (T - TD) in
           (T + p_dt p * dT_dt p F T TD, TD + p_dt p * dTD_dt p T TD)
  end.
Definition forcing_of_uptake (p : TLP) (N : nat -> R) (i : nat) : R :=
  let (T, TD) := state_of p N i in N (S i) + (p_lambda0 p - p_a p * T) * T + (p_eps p - 1) * p_eta p * (T - TD).
Lemma forcing_of_uptake_state p N i : euler p (forcing_of_uptake p N) i = state_of p N i.
Proof.
  induction i as [|i IH]; [reflexivity|]. cbn [euler state_of]. rewrite IH. unfold forcing_of_uptake. destruct (state_of p N i) as [T TD]. reflexivity.
Qed.

Theorem c61_every_surface_temperature : forall reg p T, p_du p <> 0 -> p_dl p <> 0 -> p_dt p <> 0 -> T 0%nat = 0 ->
  exists F TD N, forall parse s e, tl_setup reg parse s p e F -> tl_reports reg s e T TD N.
Proof.
  intros reg p T H1 H2 H3 H0. destruct (caps p ltac:(auto)) as (HC & HCD & Hd).
  exists (forcing_of p T), (deep_of p T), (en p (forcing_of p T)). intros parse s e St.
  eapply reports_as; [|apply (reports_of _ _ _ _ _ _ St); auto].
  intros i _. destruct (forcing_of_ok p T HC Hd H0 i). auto.
Qed.
Theorem c61_every_heat_uptake : forall reg p N, p_du p <> 0 -> p_dl p <> 0 -> p_dt p <> 0 -> N 0%nat = 0 ->
  exists F T TD, forall parse s e, tl_setup reg parse s p e F -> tl_reports reg s e T TD N.
Proof.
  intros reg p N H1 H2 H3 H0. destruct (caps p ltac:(auto)) as (HC & HCD & Hd).
  exists (forcing_of_uptake p N), (eu p (forcing_of_uptake p N)), (el p (forcing_of_uptake p N)). intros parse s e St.
  eapply reports_as; [|apply (reports_of _ _ _ _ _ _ St); auto].
  intros i _. split; [reflexivity|]. split; [reflexivity|]. destruct i as [|i]; [symmetry; exact H0|].
  rewrite en_balance by assumption. unfold eu, el, forcing_of_uptake at 1. rewrite forcing_of_uptake_state.
  destruct (state_of p N i) as [T TD]. cbn [fst snd]. ring.
Qed.
Theorem c61_every_deep_temperature : forall reg p TD, p_du p <> 0 -> p_dl p <> 0 -> p_dt p <> 0 -> p_eta p <> 0 ->
  TD 0%nat = 0 -> TD 1%nat = 0 ->
  exists F T N, forall parse s e, tl_setup reg parse s p e F -> tl_reports reg s e T TD N.
Proof.
  intros reg p TD H1 H2 H3 H4 H0 H0'. destruct (caps p ltac:(auto)) as (HC & HCD & Hd).
  set (T := fun i => TD i + p_CD p * (TD (S i) - TD i) / (p_dt p * p_eta p)).
  assert (T0 : T 0%nat = 0) by (unfold T; rewrite H0, H0'; field; auto).
  assert (D : forall i, deep_of p T i = TD i).
  { induction i as [|i IH]; [symmetry; exact H0|]. cbn [deep_of]. rewrite IH. unfold dTD_dt, T. field. auto. }
  exists (forcing_of p T), T, (en p (forcing_of p T)). intros parse s e St.
  eapply reports_as; [|apply (reports_of _ _ _ _ _ _ St); auto].
  intros i _. destruct (forcing_of_ok p T HC Hd T0 i) as (A & B). rewrite B, D. auto.
Qed.

(** *** The impulse-response model *)
Lemma gain_pos dt d : 0 < dt -> 0 < d -> 0 < 1 - exp (- dt / d) < 1.
Proof. intros H1 H2. pose proof (k_range d dt H2 H1). lra. Qed.
Lemma bt_S q d dt F i : box_run q d dt F (S i) = exp (- dt / d) * box_run q d dt F i + q * (1 - exp (- dt / d)) * F i.
Proof. cbn [box_run]. unfold box_solution. ring. Qed.

Theorem c61_impulse_response_forcing_from_surface_temperature : forall reg parse s s' p e e' F F' T1 T2 T N T1' T2' N',
  ir_setup reg parse s p e F -> ir_setup reg parse s' p e' F' -> npoints e' = npoints e -> positive_ir p ->
  ir_reports reg s e T1 T2 T N -> ir_reports reg s' e' T1' T2' T N' ->
  forall i, (S i < npoints e)%nat -> F i = F' i.
Proof.
  intros reg parse s s' p e e' F F' T1 T2 T N T1' T2' N' S1 S2 Hn (P1 & P2 & P3 & P4 & P5) R1 R2.
  destruct (ir_setup_inv _ _ _ _ _ _ _ _ _ _ S1 R1) as (V & _). destruct (ir_setup_inv _ _ _ _ _ _ _ _ _ _ S2 R2) as (V' & _).
  rewrite Hn in V'.
  pose proof (gain_pos (p_idt p) (p_d1 p) P5 P3) as G1. pose proof (gain_pos (p_idt p) (p_d2 p) P5 P4) as G2.
  assert (K : forall i, (i < npoints e)%nat ->
    bt1 p F i = bt1 p F' i /\ bt2 p F i = bt2 p F' i /\ forall j, (j < i)%nat -> F j = F' j).
  { induction i as [|i IH]; intros Hi; [split; [reflexivity|split; [reflexivity|lia]]|].
    destruct (IH ltac:(lia)) as (I1 & I2 & I3).
    assert (Ef : F i = F' i).
    { destruct (V (S i) Hi) as (_ & _ & A). destruct (V' (S i) Hi) as (_ & _ & A'). rewrite A in A'.
      unfold bt1, bt2 in *. rewrite !bt_S, I1, I2 in A'.
      assert (0 < p_q1 p * (1 - exp (- p_idt p / p_d1 p)) + p_q2 p * (1 - exp (- p_idt p / p_d2 p))) by nra. nra. }
    unfold bt1, bt2 in *. rewrite !bt_S, I1, I2, Ef. split; [reflexivity|]. split; [reflexivity|].
    intros j Hj. destruct (Nat.eq_dec j i) as [->|Nj]; [exact Ef|apply I3; lia]. }
  intros i Hi. apply (K (S i) Hi). lia.
Qed.
Theorem c61_impulse_response_forcing_from_box_1 : forall reg parse s s' p e e' F F' T1 T2 T N T2' T' N',
  ir_setup reg parse s p e F -> ir_setup reg parse s' p e' F' -> npoints e' = npoints e -> p_q1 p <> 0 -> p_idt p <> 0 ->
  ir_reports reg s e T1 T2 T N -> ir_reports reg s' e' T1 T2' T' N' ->
  forall i, (S i < npoints e)%nat -> F i = F' i.
Proof.
  intros reg parse s s' p e e' F F' T1 T2 T N T2' T' N' S1 S2 Hn Q Hdt R1 R2 i Hi.
  destruct (ir_setup_inv _ _ _ _ _ _ _ _ _ _ S1 R1) as (V & k & m1 & m2 & HC & _). destruct (ir_setup_inv _ _ _ _ _ _ _ _ _ _ S2 R2) as (V' & _).
  rewrite Hn in V'. destruct (HC ltac:(lia)) as (_ & D & _).
  destruct (V (S i) Hi) as (A & _). destruct (V' (S i) Hi) as (A' & _). destruct (V i ltac:(lia)) as (B & _). destruct (V' i ltac:(lia)) as (B' & _).
  unfold bt1 in *. rewrite bt_S in A, A'. rewrite <- B in A. rewrite <- B' in A'. rewrite A in A'.
  assert (G : 1 - exp (- p_idt p / p_d1 p) <> 0).
  { intros Z. assert (exp (- p_idt p / p_d1 p) = exp 0) by (rewrite exp_0; lra). apply exp_inv in H.
    unfold Rdiv in H. apply Rmult_integral in H. destruct H as [H|H]; [lra|]. apply Rinv_neq_0_compat in D. contradiction. }
  apply Rmult_eq_reg_l with (p_q1 p * (1 - exp (- p_idt p / p_d1 p))); [lra|]. apply Rmult_integral_contrapositive. auto.
Qed.
(** The heat uptake of a model determines the forcing. *)
Theorem c61_impulse_response_forcing_from_heat_uptake : forall reg parse s p e e' F F' T1 T2 T N T1' T2' T',
  ir_setup reg parse s p e F -> ir_setup reg parse s p e' F' -> npoints e' = npoints e ->
  ir_reports reg s e T1 T2 T N -> ir_reports reg s e' T1' T2' T' N ->
  forall i, (S i < npoints e)%nat -> F i = F' i.
Proof.
  intros reg parse s p e e' F F' T1 T2 T N T1' T2' T' S1 S2 Hn R1 R2 i Hi.
  destruct (ir_setup_inv _ _ _ _ _ _ _ _ _ _ S1 R1) as (_ & k & m1 & m2 & HC & V).
  destruct (ir_setup_inv _ _ _ _ _ _ _ _ _ _ S2 R2) as (_ & k' & m1' & m2' & HC' & V'). rewrite Hn in V', HC'.
  destruct (HC ltac:(lia)) as (HC1 & _). destruct (HC' ltac:(lia)) as (HC2 & _).
  destruct (heat_const_unique _ _ _ _ _ _ _ _ HC1 HC2) as (<- & <- & <-).
  assert (K : forall i, (i < npoints e)%nat ->
    bt1 p F i = bt1 p F' i /\ bt2 p F i = bt2 p F' i /\ forall j, (j < i)%nat -> F j = F' j).
  { clear i Hi. induction i as [|i IH]; intros Hi; [split; [reflexivity|split; [reflexivity|lia]]|].
    destruct (IH ltac:(lia)) as (I1 & I2 & I3).
    assert (Ef : F i = F' i).
    { pose proof (V (S i) Hi) as A. pose proof (V' (S i) Hi) as A'. rewrite A in A'. unfold hn in A'.
      rewrite I1, I2 in A'. lra. }
    unfold bt1, bt2 in *. rewrite !bt_S, I1, I2, Ef. split; [reflexivity|]. split; [reflexivity|].
    intros j Hj. destruct (Nat.eq_dec j i) as [->|Nj]; [exact Ef|apply I3; lia]. }
  apply (K (S i) Hi). lia.
Qed.

(** *** The parameters *)
Lemma cap_inj x y : water_capacity x = water_capacity y -> x = y.
Proof. unfold water_capacity. lra. Qed.

(** The first five surface temperatures under a constant forcing. *)
Section Const.
Variable (p : TLP) (f : R).
Hypothesis Hp : positive_tl p.
Let r := p_dt p / p_C p.
Let b := p_lambda0 p + p_eps p * p_eta p.
Let x := p_eps p * p_eta p.
Let y := p_dt p * p_eta p / p_CD p.
Notation U := (eu p (fun _ => f)).
Notation L := (el p (fun _ => f)).
Lemma U_S i : U (S i) = U i + r * (f - b * U i + x * L i).
Proof using Hp.
  rewrite eu_S. unfold dT_dt. destruct Hp as (H1 & _ & _ & -> & _). pose proof (cap_neq (p_du p) ltac:(lra)) as HC. change (water_capacity (p_du p)) with (p_C p) in HC.
  unfold r, b, x. field. exact HC.
Qed.
Lemma L_S i : L (S i) = L i + y * (U i - L i).
Proof using Hp.
  rewrite el_S. unfold dTD_dt. destruct Hp as (_ & H1 & _). pose proof (cap_neq (p_dl p) ltac:(lra)) as HC. change (water_capacity (p_dl p)) with (p_CD p) in HC.
  unfold y. field. exact HC.
Qed.
Lemma first_temps : U 1%nat = r * f /\ L 1%nat = 0 /\ U 2%nat = U 1%nat + r * (f - b * U 1%nat) /\ L 2%nat = y * U 1%nat /\
  U 3%nat = U 2%nat + r * (f - b * U 2%nat + x * y * U 1%nat) /\ L 3%nat = y * U 1%nat + y * (U 2%nat - y * U 1%nat) /\
  U 4%nat = U 3%nat + r * (f - b * U 3%nat + x * y * (U 1%nat + U 2%nat - y * U 1%nat)).
Proof using Hp.
  assert (Z : U 0%nat = 0) by reflexivity. assert (Z' : L 0%nat = 0) by reflexivity.
  assert (A1 : U 1%nat = r * f) by (rewrite U_S, Z, Z'; ring). assert (B1 : L 1%nat = 0) by (rewrite L_S, Z, Z'; ring).
  assert (A2 : U 2%nat = U 1%nat + r * (f - b * U 1%nat)) by (rewrite (U_S 1), B1; ring).
  assert (B2 : L 2%nat = y * U 1%nat) by (rewrite (L_S 1), B1; ring).
  assert (A3 : U 3%nat = U 2%nat + r * (f - b * U 2%nat + x * y * U 1%nat)) by (rewrite (U_S 2), B2; ring).
  assert (B3 : L 3%nat = y * U 1%nat + y * (U 2%nat - y * U 1%nat)) by (rewrite (L_S 2), B2; ring).
  assert (A4 : U 4%nat = U 3%nat + r * (f - b * U 3%nat + x * y * (U 1%nat + U 2%nat - y * U 1%nat))) by (rewrite (U_S 3), B3; ring).
  auto 10.
Qed.
End Const.

Lemma cancel a u v : a <> 0 -> a * u = a * v -> u = v.
Proof. intros H G. exact (Rmult_eq_reg_l _ _ _ G H). Qed.

Lemma temps_identify p p' f : positive_tl p -> positive_tl p' -> p_dt p' = p_dt p -> f <> 0 ->
  (forall i, (i < 5)%nat -> eu p (fun _ => f) i = eu p' (fun _ => f) i) ->
  p_C p = p_C p' /\ p_lambda0 p = p_lambda0 p' /\ p_eps p * p_eta p = p_eps p' * p_eta p' /\ p_eta p / p_CD p = p_eta p' / p_CD p'.
Proof.
  intros Hp Hp' Ed Hf H.
  destruct (first_temps p f Hp) as (A1 & _ & A2 & _ & A3 & _ & A4). destruct (first_temps p' f Hp') as (A1' & _ & A2' & _ & A3' & _ & A4').
  rewrite <- (H 1%nat), ?Ed in * by lia. rewrite <- (H 2%nat) in * by lia. rewrite <- (H 3%nat) in * by lia. rewrite <- (H 4%nat) in * by lia.
  set (U1 := eu p (fun _ => f) 1) in *. set (U2 := eu p (fun _ => f) 2) in *. set (U3 := eu p (fun _ => f) 3) in *. set (U4 := eu p (fun _ => f) 4) in *.
  clear H. destruct Hp as (P1 & P2 & P3 & P4 & P5 & P6 & P7). destruct Hp' as (Q1 & Q2 & Q3 & Q4 & Q5 & Q6 & _).
  pose proof (cap_pos _ P1) as C1. pose proof (cap_pos _ P2) as C2. pose proof (cap_pos _ Q1) as C1'. pose proof (cap_pos _ Q2) as C2'.
  change (water_capacity (p_du p)) with (p_C p) in C1. change (water_capacity (p_dl p)) with (p_CD p) in C2.
  change (water_capacity (p_du p')) with (p_C p') in C1'. change (water_capacity (p_dl p')) with (p_CD p') in C2'.
  assert (Er : p_dt p / p_C p = p_dt p / p_C p') by (apply (cancel f); lra).
  assert (R : 0 < p_dt p / p_C p) by (apply Rdiv_lt_0_compat; lra).
  rewrite <- Er in *. set (r := p_dt p / p_C p) in *.
  assert (N1 : U1 <> 0) by (rewrite A1; apply Rmult_integral_contrapositive; split; lra).
  assert (N2 : r * U1 <> 0) by (apply Rmult_integral_contrapositive; split; lra).
  assert (Eb : p_lambda0 p + p_eps p * p_eta p = p_lambda0 p' + p_eps p' * p_eta p') by (apply (cancel (r * U1)); lra).
  rewrite <- Eb in *. set (b := p_lambda0 p + p_eps p * p_eta p) in *.
  set (x := p_eps p * p_eta p) in *. set (x' := p_eps p' * p_eta p') in *.
  set (y := p_dt p * p_eta p / p_CD p) in *. set (y' := p_dt p * p_eta p' / p_CD p') in *.
  assert (X : 0 < x) by (apply Rmult_lt_0_compat; lra). assert (Y : 0 < y) by (apply Rdiv_lt_0_compat; nra).
  assert (Exy : x * y = x' * y') by (apply (cancel (r * U1)); [exact N2|]; nra).
  rewrite <- Exy in *.
  assert (Ey : y = y').
  { assert (0 < x * y) by (apply Rmult_lt_0_compat; assumption).
    apply (cancel (r * (x * y) * U1)); [|nra]. apply Rmult_integral_contrapositive. split; [|exact N1]. apply Rmult_integral_contrapositive. split; lra. }
  assert (Ex : x = x') by (apply (cancel y); [lra|]; rewrite <- Ey in Exy; lra).
  split.
  { unfold r in Er. assert (I : / p_C p = / p_C p') by (apply (cancel (p_dt p)); [lra|exact Er]).
    rewrite <- (Rinv_inv (p_C p)), I. apply Rinv_inv. }
  split; [unfold b in Eb; fold x x' in Eb; lra|]. split; [exact Ex|].
  apply (cancel (p_dt p)); [lra|]. unfold y, y' in Ey. unfold Rdiv in *. lra.
Qed.

(** The surface temperatures of one run under a constant forcing, the first five
    of them, determine a two-layer model up to the exchange of C40. *)
Theorem c61_parameters_from_temperature : forall reg parse s s' p p' e e' f T TD N TD' N',
  tl_setup reg parse s p e (fun _ => f) -> tl_setup reg parse s' p' e' (fun _ => f) ->
  positive_tl p -> positive_tl p' -> p_dt p' = p_dt p -> f <> 0 -> npoints e = 5%nat -> npoints e' = 5%nat ->
  tl_reports reg s e T TD N -> tl_reports reg s' e' T TD' N' ->
  exists k, 0 < k /\
    p' = mkTLPhys (p_du p) (p_dl p / k) (p_lambda0 p) 0 (k * p_eps p) (p_eta p / k) (p_dt p).
Proof.
  intros reg parse s s' p p' e e' f T TD N TD' N' S1 S2 Hp Hp' Ed Hf Hn Hn' R1 R2.
  destruct (setup_inv _ _ _ _ _ _ _ _ _ S1 R1) as (_ & V). destruct (setup_inv _ _ _ _ _ _ _ _ _ S2 R2) as (_ & V').
  rewrite Hn in V. rewrite Hn' in V'.
  destruct (temps_identify p p' f Hp Hp' Ed Hf) as (E1 & E2 & E3 & E4).
  { intros i Hi. destruct (V i Hi) as (A & _). destruct (V' i Hi) as (A' & _). congruence. }
  destruct p as [du dl lam a eps eta dt]. destruct p' as [du' dl' lam' a' eps' eta' dt']. unfold positive_tl, p_C, p_CD in *.
  cbn [p_du p_dl p_lambda0 p_a p_eps p_eta p_dt] in *. apply cap_inj in E1.
  destruct Hp as (P1 & P2 & P3 & P4 & P5 & P6 & P7). destruct Hp' as (Q1 & Q2 & Q3 & Q4 & Q5 & Q6 & Q7). subst.
  exists (eta / eta'). split; [apply Rdiv_lt_0_compat; lra|].
  assert (Z : eta' <> 0 /\ eta <> 0 /\ dl <> 0 /\ dl' <> 0 /\ eps <> 0) by (repeat split; lra). destruct Z as (Z1 & Z2 & Z3 & Z4 & Z5).
  f_equal.
  - unfold water_capacity in E4. replace (dl / (eta / eta')) with (eta' / (eta / dl)) by (field; auto).
    assert (E5 : eta / dl = eta' / dl').
    { apply (cancel (/ (1000 * 4181))); [lra|]. replace (/ (1000 * 4181) * (eta / dl)) with (eta / (1000 * 4181 * dl)) by (field; auto).
      rewrite E4. field. auto. }
    rewrite E5. field. auto.
  - apply (cancel eta'); [exact Z1|]. replace (eta' * (eta / eta' * eps)) with (eps * eta) by (field; auto). lra.
  - field. auto.
Qed.

(** With the heat uptake they determine it completely. *)
Theorem c61_parameters_from_temperature_and_heat_uptake : forall reg parse s s' p p' e e' f T TD N TD',
  tl_setup reg parse s p e (fun _ => f) -> tl_setup reg parse s' p' e' (fun _ => f) ->
  positive_tl p -> positive_tl p' -> p_dt p' = p_dt p -> f <> 0 -> npoints e = 5%nat -> npoints e' = 5%nat ->
  tl_reports reg s e T TD N -> tl_reports reg s' e' T TD' N -> p' = p.
Proof.
  intros reg parse s s' p p' e e' f T TD N TD' S1 S2 Hp Hp' Ed Hf Hn Hn' R1 R2.
  destruct (c61_parameters_from_temperature _ _ _ _ _ _ _ _ _ _ _ _ _ _ S1 S2 Hp Hp' Ed Hf Hn Hn' R1 R2) as (k & Hk & Ep).
  destruct (setup_inv _ _ _ _ _ _ _ _ _ S1 R1) as (D & V). destruct (setup_inv _ _ _ _ _ _ _ _ _ S2 R2) as (_ & V').
  rewrite Hn in V, D. rewrite Hn' in V'. destruct (caps p (D ltac:(lia))) as (HC & HCD & Hd).
  pose proof (cap_pos _ (proj1 Hp')) as C1. pose proof (cap_pos _ (proj1 (proj2 Hp'))) as C2.
  destruct (V 2%nat ltac:(lia)) as (_ & _ & B). destruct (V' 2%nat ltac:(lia)) as (_ & _ & B').
  destruct (V 1%nat ltac:(lia)) as (B1 & _). destruct (V' 1%nat ltac:(lia)) as (B1' & _).
  rewrite en_balance in B, B' by (try assumption; try (unfold p_C, p_CD; lra); destruct Hp' as (_ & _ & _ & _ & _ & _ & Q); lra).
  destruct (first_temps p f Hp) as (A1 & A1l & _). destruct (first_temps p' f Hp') as (A1' & A1l' & _).
  rewrite A1l in B. rewrite A1l' in B'. rewrite <- B1 in B. rewrite <- B1' in B'. rewrite B1, A1 in B, B'.
  assert (NU : p_dt p / p_C p * f <> 0).
  { apply Rmult_integral_contrapositive. split; [|exact Hf]. unfold Rdiv. apply Rmult_integral_contrapositive. split; [exact Hd|apply Rinv_neq_0_compat, HC]. }
  set (u := p_dt p / p_C p * f) in *. destruct Hp as (P1 & P2 & P3 & P4 & P5 & P6 & P7).
  subst p'. cbn [p_du p_dl p_lambda0 p_a p_eps p_eta p_dt] in *.
  assert (K : p_eta p / k = p_eta p).
  { apply (cancel u); [exact NU|]. rewrite B in B'. rewrite P4 in B'.
    assert ((k * p_eps p - 1) * (p_eta p / k) = p_eps p * p_eta p - p_eta p / k) by (field; lra). nra. }
  assert (Ek : k = 1).
  { apply (cancel (p_eta p / k)); [rewrite K; lra|]. replace (p_eta p / k * k) with (p_eta p) by (field; lra). lra. }
  subst k. destruct p as [du dl lam a eps eta dt]. cbn [p_du p_dl p_lambda0 p_a p_eps p_eta p_dt] in *. subst a. f_equal; field.
Qed.

Theorem c61_impulse_response_every_temperature : forall p T, positive_ir p -> T 0%nat = 0 ->
  exists F, forall reg parse s e T1 T2 X N, ir_setup reg parse s p e F -> ir_reports reg s e T1 T2 X N ->
    forall i, (i < npoints e)%nat -> X i = T i.
Proof.
  intros p T (P1 & P2 & P3 & P4 & P5) T0.
  pose proof (gain_pos (p_idt p) (p_d1 p) P5 P3) as G1. pose proof (gain_pos (p_idt p) (p_d2 p) P5 P4) as G2.
  set (k1 := exp (- p_idt p / p_d1 p)) in *. set (k2 := exp (- p_idt p / p_d2 p)) in *.
  set (g := p_q1 p * (1 - k1) + p_q2 p * (1 - k2)). assert (Hg : g <> 0) by (unfold g; nra).
  (* the second box as a function of the total: T2' = k2 T2 + q2 (1-k2) F, F = (T' - k1 (T - T2) - k2 T2) / g *)
  set (w := fix w (i : nat) : R := match i with O => 0
    | S j => k2 * w j + p_q2 p * (1 - k2) * ((T (S j) - k1 * (T j - w j) - k2 * w j) / g) end).
  exists (fun i => (T (S i) - k1 * (T i - w i) - k2 * w i) / g).
  intros reg parse s e T1 T2 X N St R. destruct (ir_setup_inv _ _ _ _ _ _ _ _ _ _ St R) as (V & _).
  set (F := fun i => (T (S i) - k1 * (T i - w i) - k2 * w i) / g) in *.
  assert (K : forall i, bt1 p F i = T i - w i /\ bt2 p F i = w i).
  { induction i as [|i (I1 & I2)]; [unfold bt1, bt2; cbn; split; [rewrite T0; ring|reflexivity]|].
    unfold bt1, bt2 in *. rewrite !bt_S, I1, I2. fold k1 k2.
    assert (A : k2 * w i + p_q2 p * (1 - k2) * F i = w (S i)) by reflexivity. split; [|exact A].
    rewrite <- A. unfold F. replace (p_q1 p * (1 - k1)) with (g - p_q2 p * (1 - k2)) by (unfold g; ring). field. exact Hg. }
  intros i Hi. destruct (V i Hi) as (_ & _ & ->). destruct (K i) as (-> & ->). ring.
Qed.

(** Two geometric sequences with positive weights are determined by the first
    four terms of their sum. *)
Lemma prony w1 w2 k1 k2 v1 v2 j1 j2 : 0 < w1 -> 0 < w2 -> k1 < k2 -> 0 < v1 -> 0 < v2 -> j1 < j2 ->
  w1 + w2 = v1 + v2 -> w1 * k1 + w2 * k2 = v1 * j1 + v2 * j2 ->
  w1 * (k1 * k1) + w2 * (k2 * k2) = v1 * (j1 * j1) + v2 * (j2 * j2) ->
  w1 * (k1 * k1 * k1) + w2 * (k2 * k2 * k2) = v1 * (j1 * j1 * j1) + v2 * (j2 * j2 * j2) ->
  w1 = v1 /\ w2 = v2 /\ k1 = j1 /\ k2 = j2.
Proof.
  intros W1 W2 Hk V1 V2 Hj M0 M1 M2 M3.
  set (m0 := w1 + w2) in *. set (m1 := w1 * k1 + w2 * k2) in *. set (m2 := w1 * (k1 * k1) + w2 * (k2 * k2)) in *.
  set (m3 := w1 * (k1 * k1 * k1) + w2 * (k2 * k2 * k2)) in *.
  set (S := k1 + k2). set (P := k1 * k2). set (S' := j1 + j2). set (P' := j1 * j2).
  assert (A : m2 = S * m1 - P * m0) by (unfold m0, m1, m2, S, P; ring).
  assert (B : m3 = S * m2 - P * m1) by (unfold m1, m2, m3, S, P; ring).
  assert (A' : m2 = S' * m1 - P' * m0) by (rewrite M2, M1, M0; unfold S', P'; ring).
  assert (B' : m3 = S' * m2 - P' * m1) by (rewrite M3, M2, M1; unfold S', P'; ring).
  assert (D : m0 * m2 - m1 * m1 = w1 * w2 * ((k2 - k1) * (k2 - k1))) by (unfold m0, m1, m2; ring).
  assert (Dp : 0 < m0 * m2 - m1 * m1).
  { rewrite D. apply Rmult_lt_0_compat; [apply Rmult_lt_0_compat; assumption|]. apply Rmult_lt_0_compat; lra. }
  assert (ES : S = S').
  { apply (cancel (m0 * m2 - m1 * m1)); [lra|]. replace ((m0 * m2 - m1 * m1) * S) with (m0 * (S * m2 - P * m1) - m1 * (S * m1 - P * m0)) by ring.
    rewrite <- A, <- B. replace ((m0 * m2 - m1 * m1) * S') with (m0 * (S' * m2 - P' * m1) - m1 * (S' * m1 - P' * m0)) by ring.
    rewrite <- A', <- B'. reflexivity. }
  assert (M0p : 0 < m0) by (unfold m0; lra).
  assert (EP : P = P') by (apply (cancel m0); [lra|]; rewrite <- ES in A'; lra).
  unfold S, S', P, P' in ES, EP.
  assert (Ek : (k1 - j1) * (k1 - j2) = 0) by nra.
  assert (K1 : k1 = j1).
  { apply Rmult_integral in Ek. destruct Ek as [Ek|Ek]; [lra|]. assert (k2 = j1) by lra. lra. }
  assert (K2 : k2 = j2) by lra. rewrite <- K1, <- K2 in *.
  assert (w2 = v2).
  { apply (cancel (k2 - k1)); [lra|]. unfold m0, m1 in *. nra. }
  unfold m0 in M0. repeat split; lra.
Qed.

Lemma const_step q d dt f i : box_run q d dt (fun _ => f) (S i) - box_run q d dt (fun _ => f) i =
  f * (q * (1 - exp (- dt / d))) * exp (- dt / d) ^ i.
Proof.
  induction i as [|i IH]; [rewrite bt_S; cbn; ring|].
  rewrite bt_S, (bt_S _ _ _ _ i).
  replace (exp (- dt / d) * (exp (- dt / d) * box_run q d dt (fun _ : nat => f) i + q * (1 - exp (- dt / d)) * f) + q * (1 - exp (- dt / d)) * f -
    (exp (- dt / d) * box_run q d dt (fun _ : nat => f) i + q * (1 - exp (- dt / d)) * f)) with
    (exp (- dt / d) * (exp (- dt / d) * box_run q d dt (fun _ : nat => f) i + q * (1 - exp (- dt / d)) * f - box_run q d dt (fun _ : nat => f) i)) by ring.
  rewrite bt_S in IH. rewrite IH. cbn [pow]. ring.
Qed.
Lemma decay_order dt d d' : 0 < dt -> 0 < d -> d < d' -> exp (- dt / d) < exp (- dt / d').
Proof.
  intros H1 H2 H3. apply exp_increasing. assert (/ d' < / d) by (apply Rinv_lt_contravar; nra). unfold Rdiv. nra.
Qed.
Lemma decay_inj dt d d' : 0 < dt -> 0 < d -> 0 < d' -> exp (- dt / d) = exp (- dt / d') -> d = d'.
Proof.
  intros H1 H2 H3 H. apply exp_inv in H. destruct (Rtotal_order d d') as [L|[E|L]]; [|exact E|].
  - assert (/ d' < / d) by (apply Rinv_lt_contravar; nra). unfold Rdiv in H. nra.
  - assert (/ d < / d') by (apply Rinv_lt_contravar; nra). unfold Rdiv in H. nra.
Qed.

(** Five surface temperatures under a constant forcing determine the
    sensitivities and timescales of an impulse-response model. *)
Theorem c61_impulse_response_parameters_from_temperature : forall reg parse s s' p p' e e' f T1 T2 T N T1' T2' N',
  ir_setup reg parse s p e (fun _ => f) -> ir_setup reg parse s' p' e' (fun _ => f) ->
  convertible_ir p -> convertible_ir p' -> p_idt p' = p_idt p -> 0 < p_idt p -> f <> 0 -> npoints e = 5%nat -> npoints e' = 5%nat ->
  ir_reports reg s e T1 T2 T N -> ir_reports reg s' e' T1' T2' T N' ->
  p_q1 p' = p_q1 p /\ p_q2 p' = p_q2 p /\ p_d1 p' = p_d1 p /\ p_d2 p' = p_d2 p.
Proof.
  intros reg parse s s' p p' e e' f T1 T2 T N T1' T2' N' S1 S2 (P1 & P2 & P3 & P4 & P5) (Q1 & Q2 & Q3 & Q4 & Q5) Ed Hd Hf Hn Hn' R1 R2.
  destruct (ir_setup_inv _ _ _ _ _ _ _ _ _ _ S1 R1) as (V & _). destruct (ir_setup_inv _ _ _ _ _ _ _ _ _ _ S2 R2) as (V' & _).
  rewrite Hn in V. rewrite Hn' in V'. unfold bt1, bt2 in V, V'. rewrite Ed in V'. set (dt := p_idt p) in *.
  pose proof (gain_pos dt (p_d1 p) Hd P3) as G1. pose proof (gain_pos dt (p_d2 p) Hd ltac:(lra)) as G2.
  pose proof (gain_pos dt (p_d1 p') Hd Q3) as G1'. pose proof (gain_pos dt (p_d2 p') Hd ltac:(lra)) as G2'.
  assert (M : forall i, (S i < 5)%nat ->
    p_q1 p * (1 - exp (- dt / p_d1 p)) * exp (- dt / p_d1 p) ^ i + p_q2 p * (1 - exp (- dt / p_d2 p)) * exp (- dt / p_d2 p) ^ i =
    p_q1 p' * (1 - exp (- dt / p_d1 p')) * exp (- dt / p_d1 p') ^ i + p_q2 p' * (1 - exp (- dt / p_d2 p')) * exp (- dt / p_d2 p') ^ i).
  { intros i Hi. apply (cancel f); [exact Hf|].
    destruct (V i ltac:(lia)) as (_ & _ & A). destruct (V (S i) Hi) as (_ & _ & B). destruct (V' i ltac:(lia)) as (_ & _ & A'). destruct (V' (S i) Hi) as (_ & _ & B').
    pose proof (const_step (p_q1 p) (p_d1 p) dt f i). pose proof (const_step (p_q2 p) (p_d2 p) dt f i).
    pose proof (const_step (p_q1 p') (p_d1 p') dt f i). pose proof (const_step (p_q2 p') (p_d2 p') dt f i). lra. }
  pose proof (M 0%nat ltac:(lia)) as M0. pose proof (M 1%nat ltac:(lia)) as M1. pose proof (M 2%nat ltac:(lia)) as M2. pose proof (M 3%nat ltac:(lia)) as M3.
  cbn [pow] in M0, M1, M2, M3.
  destruct (prony (p_q1 p * (1 - exp (- dt / p_d1 p))) (p_q2 p * (1 - exp (- dt / p_d2 p))) (exp (- dt / p_d1 p)) (exp (- dt / p_d2 p))
    (p_q1 p' * (1 - exp (- dt / p_d1 p'))) (p_q2 p' * (1 - exp (- dt / p_d2 p'))) (exp (- dt / p_d1 p')) (exp (- dt / p_d2 p')))
    as (W1 & W2 & K1 & K2); try nra; try (apply decay_order; assumption); try lra.
  rewrite <- K1 in W1. rewrite <- K2 in W2.
  split; [apply (cancel (1 - exp (- dt / p_d1 p))); lra|]. split; [apply (cancel (1 - exp (- dt / p_d2 p))); lra|].
  split; symmetry; (apply (decay_inj dt); [exact Hd|lra|lra|assumption]).
Qed.

(** With the heat uptake they determine the efficacy too, for models whose
    sensitivities are given in units of the size of delta_degC/(W/m^2). *)
Theorem c61_impulse_response_parameters_from_temperature_and_heat_uptake :
  forall reg parse s s' p p' e e' f T1 T2 T N T1' T2',
  ir_setup reg parse s p e (fun _ => f) -> ir_setup reg parse s' p' e' (fun _ => f) ->
  usize reg (units (ir_q1 (xenv reg) s)) = usize reg u_CWm2 -> usize reg (units (ir_q2 (xenv reg) s)) = usize reg u_CWm2 ->
  usize reg (units (ir_q1 (xenv reg) s')) = usize reg u_CWm2 -> usize reg (units (ir_q2 (xenv reg) s')) = usize reg u_CWm2 ->
  convertible_ir p -> convertible_ir p' -> p_idt p' = p_idt p -> 0 < p_idt p -> f <> 0 -> npoints e = 5%nat -> npoints e' = 5%nat ->
  ir_reports reg s e T1 T2 T N -> ir_reports reg s' e' T1' T2' T N -> p' = p.
Proof.
  intros reg parse s s' p p' e e' f T1 T2 T N T1' T2' S1 S2 U1 U2 U3 U4 Hp Hp' Ed Hd Hf Hn Hn' R1 R2.
  destruct (c61_impulse_response_parameters_from_temperature _ _ _ _ _ _ _ _ _ _ _ _ _ _ _ _ S1 S2 Hp Hp' Ed Hd Hf Hn Hn' R1 R2) as (E1 & E2 & E3 & E4).
  pose proof (c48_heat_uptake_formula _ _ _ _ _ _ _ _ _ _ S1 R1 Hp U1 U2 1%nat ltac:(lia)) as N1.
  pose proof (c48_heat_uptake_formula _ _ _ _ _ _ _ _ _ _ S2 R2 Hp' U3 U4 1%nat ltac:(lia)) as N2.
  destruct (ir_setup_inv _ _ _ _ _ _ _ _ _ _ S1 R1) as (V & _). destruct (ir_setup_inv _ _ _ _ _ _ _ _ _ _ S2 R2) as (V' & _).
  destruct (V 1%nat ltac:(lia)) as (A1 & A2 & _). destruct (V' 1%nat ltac:(lia)) as (A1' & A2' & _).
  unfold bt1, bt2 in *. rewrite bt_S in A1, A2, A1', A2'. cbn [box_run] in A1, A2, A1', A2'.
  destruct Hp as (P1 & P2 & P3 & P4 & P5). destruct Hp' as (_ & _ & _ & _ & Q5).
  pose proof (decay_order (p_idt p) (p_d1 p) (p_d2 p) Hd P3 P4) as O.
  destruct p as [q1 q2 d1 d2 ep dt]. destruct p' as [q1' q2' d1' d2' ep' dt'].
  cbn [p_q1 p_q2 p_d1 p_d2 p_ieps p_idt] in *. subst q1' q2' d1' d2' dt'.
  set (k1 := exp (- dt / d1)) in *. set (k2 := exp (- dt / d2)) in *.
  rewrite A1, A2 in N1. rewrite A1', A2' in N2. rewrite N1 in N2.
  set (G := (d2 - d1) * (q2 * (k1 * 0 + q1 * (1 - k1) * f) - q1 * (k2 * 0 + q2 * (1 - k2) * f)) / ((q1 + q2) * (q1 * d2 + q2 * d1))) in *.
  assert (HG : G <> 0).
  { assert (EG : G = (d2 - d1) * (q1 * q2 * (k2 - k1)) / ((q1 + q2) * (q1 * d2 + q2 * d1)) * f) by (unfold G; field; split; nra).
    rewrite EG. apply Rmult_integral_contrapositive. split; [|exact Hf]. apply Rgt_not_eq. apply Rdiv_lt_0_compat.
    - apply Rmult_lt_0_compat; [lra|]. apply Rmult_lt_0_compat; [apply Rmult_lt_0_compat; assumption|lra].
    - apply Rmult_lt_0_compat; [lra|]. apply Rplus_lt_0_compat; apply Rmult_lt_0_compat; lra. }
  assert (Hi : / ep = / ep').
  { apply (cancel G); [exact HG|]. unfold G, Rdiv in *. lra. }
  assert (ep' = ep) by (rewrite <- (Rinv_inv ep'), <- Hi; apply Rinv_inv). subst ep'. reflexivity.
Qed.

(** Two forcings that differ in the last value only: the results are the same. *)
Definition ex_f (c : R) (i : nat) : R := match i with O => 4 | S O => 5 | _ => c end.
Example c61_forcing_case : forall reg parse, exists s e e' T TD N,
  tl_setup reg parse s ex_tl e (ex_f 1) /\ tl_setup reg parse s ex_tl e' (ex_f 7) /\ npoints e = 3%nat /\ npoints e' = 3%nat /\
  p_eta ex_tl <> 0 /\ tl_reports reg s e T TD N /\ tl_reports reg s e' T TD N /\ 0 < TD 2%nat.
Proof.
  intros reg parse. destruct (tl_model reg parse ex_tl) as (s & Hr & Hv).
  destruct (a_series reg (ex_f 1) 3) as (e & Hn & HF). destruct (a_series reg (ex_f 7) 3) as (e' & Hn' & HF').
  assert (S1 : tl_setup reg parse s ex_tl e (ex_f 1)) by (split; auto). assert (S2 : tl_setup reg parse s ex_tl e' (ex_f 7)) by (split; auto).
  exists s, e, e', (eu ex_tl (ex_f 1)), (el ex_tl (ex_f 1)), (en ex_tl (ex_f 1)).
  split; [exact S1|]. split; [exact S2|]. split; [exact Hn|]. split; [exact Hn'|]. split; [cbn; lra|].
  assert (D : p_du ex_tl <> 0 /\ p_dl ex_tl <> 0 /\ p_dt ex_tl <> 0) by (cbn; lra).
  split; [apply (reports_of _ _ _ _ _ _ S1); auto|]. split.
  - eapply reports_as; [|apply (reports_of _ _ _ _ _ _ S2); auto]. rewrite Hn'. intros i Hi.
    destruct i as [|[|[|i]]]; [| | |lia]; repeat split; unfold en, eu, el; cbn [euler ex_f]; reflexivity.
  - unfold el. cbn. unfold dT_dt, dTD_dt, p_C, p_CD, water_capacity. cbn. lra.
Qed.
Example c61_every_case : (p_du ex_tl <> 0 /\ p_dl ex_tl <> 0 /\ p_dt ex_tl <> 0 /\ p_eta ex_tl <> 0) /\ positive_ir ex_ir /\
  INR 0 = 0 /\ INR (0 - 1) = 0 /\ INR (1 - 1) = 0.
Proof. unfold positive_ir. cbn. repeat split; lra. Qed.

(** Two models that no temperature can tell apart; the heat uptake can. *)
Example c61_parameters_case : forall reg parse, exists s s' e T TD N N',
  let p' := mkTLPhys 50 (1200 / 2) (5/4) 0 (2 * 1) (4/5/2) 31557600 in
  tl_setup reg parse s ex_tl e (fun _ => 4) /\ tl_setup reg parse s' p' e (fun _ => 4) /\
  positive_tl ex_tl /\ positive_tl p' /\ p_dt p' = p_dt ex_tl /\ npoints e = 5%nat /\
  tl_reports reg s e T TD N /\ tl_reports reg s' e T TD N' /\ N' 2%nat < N 2%nat.
Proof.
  intros reg parse. set (p' := mkTLPhys 50 (1200 / 2) (5/4) 0 (2 * 1) (4/5/2) 31557600).
  destruct (tl_model reg parse ex_tl) as (s & Hr & Hv). destruct (tl_model reg parse p') as (s' & Hr' & Hv').
  destruct (a_series reg (fun _ => 4) 5) as (e & Hn & HF).
  assert (S1 : tl_setup reg parse s ex_tl e (fun _ => 4)) by (split; auto). assert (S2 : tl_setup reg parse s' p' e (fun _ => 4)) by (split; auto).
  exists s, s', e, (eu ex_tl (fun _ => 4)), (el ex_tl (fun _ => 4)), (en ex_tl (fun _ => 4)), (en p' (fun _ => 4)).
  split; [exact S1|]. split; [exact S2|]. split; [unfold positive_tl; cbn; lra|]. split; [unfold positive_tl; cbn; lra|].
  split; [reflexivity|]. split; [exact Hn|].
  assert (D : p_du ex_tl <> 0 /\ p_dl ex_tl <> 0 /\ p_dt ex_tl <> 0) by (cbn; lra).
  assert (D' : p_du p' <> 0 /\ p_dl p' <> 0 /\ p_dt p' <> 0) by (cbn; lra).
  pose proof (reports_of _ _ _ _ _ _ S1 (fun _ => D)) as R1. pose proof (reports_of _ _ _ _ _ _ S2 (fun _ => D')) as R2.
  split; [exact R1|]. split.
  - pose proof (c40_efficacy_not_identifiable reg parse ex_tl 2 s s' e e (fun _ => 4) _ _ ltac:(lra) S1 S2 eq_refl (proj1 D) (proj1 (proj2 D)) (reports_temps reg s e _ _ _ R1)) as Rt.
    destruct S2 as (K1 & K2 & K3). destruct (temps_inv reg parse s' p' e _ K1 K2 K3 _ _ Rt) as (_ & V).
    eapply reports_as; [|exact R2]. intros i Hi. destruct (V i Hi). auto.
  - unfold en, eu, el. cbn [euler]. unfold dT_dt, dTD_dt, p_C, p_CD, water_capacity. cbn. lra.
Qed.
Example c61_impulse_response_case : forall reg parse, exists s e e' T1 T2 T N N',
  ir_setup reg parse s ex_ir e (ex_f 1) /\ ir_setup reg parse s ex_ir e' (ex_f 7) /\ npoints e = 3%nat /\ npoints e' = 3%nat /\
  positive_ir ex_ir /\ convertible_ir ex_ir /\ ir_reports reg s e T1 T2 T N /\ ir_reports reg s e' T1 T2 T N' /\ 0 < T2 2%nat.
Proof.
  intros reg parse. destruct (ir_model reg parse ex_ir ltac:(cbn; lra)) as (s & Hr & Hv & U1 & U2).
  destruct (a_series reg (ex_f 1) 3) as (e & Hn & HF). destruct (a_series reg (ex_f 7) 3) as (e' & Hn' & HF').
  assert (H3 : p_q1 ex_ir + p_q2 ex_ir <> 0) by (cbn; lra).
  assert (H4 : p_q1 ex_ir * p_d2 ex_ir + p_q2 ex_ir * p_d1 ex_ir <> 0) by (cbn; lra).
  assert (H1 : p_d1 ex_ir <> 0) by (cbn; lra). assert (H2 : p_d2 ex_ir <> 0) by (cbn; lra). assert (Z : p_ieps ex_ir <> 0) by (cbn; lra).
  destruct (lam_mag_exists reg s ex_ir Hv H3 H4 Z) as (x & Hx).
  pose proof (heat_const_1 reg parse s ex_ir Hr Hv H1 H2 H3 H4 Z x eq_refl Hx) as HC.
  pose proof (ir_run_reports reg parse s ex_ir e _ Hr Hv HF _ _ _ HC) as R1.
  pose proof (ir_run_reports reg parse s ex_ir e' _ Hr Hv HF' _ _ _ HC) as R2.
  exists s, e, e'. do 5 eexists. split; [split; auto|]. split; [split; auto|]. split; [exact Hn|]. split; [exact Hn'|].
  split; [unfold positive_ir; cbn; lra|]. split; [unfold convertible_ir; cbn; lra|]. split; [exact R1|]. split.
  - eapply ir_reports_as; [|exact R2]. rewrite Hn'. intros i Hi.
    destruct i as [|[|[|i]]]; [| | |lia]; repeat split; reflexivity.
  - unfold bt2. rewrite !bt_S. cbn [ex_f box_run ex_ir p_q2 p_d2 p_idt].
    pose proof (gain_pos 1 400 ltac:(lra) ltac:(lra)). pose proof (exp_pos (- (1) / 400)). nra.
Qed.
