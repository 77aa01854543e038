(** Exact arithmetic: the real numbers with one extra value standing for every
    non-finite float (inf and NaN), and unit registries over it.  This is the
    instance of the number-system record of [Arith.v] about which the
    algebraic and analytic properties are stated; rounding is treated
    separately. *)
From Coq Require Import List String QArith Reals Qreals Bool Arith Lra Lia.
From Verif Require Import Arith Pint.
Import ListNotations.
Local Open Scope R_scope.

Inductive xnum : Type := Fin (r : R) | NaN.

Definition xlift1 (f : R -> R) (x : xnum) : xnum :=
  match x with Fin a => Fin (f a) | NaN => NaN end.
Definition xlift2 (f : R -> R -> R) (x y : xnum) : xnum :=
  match x, y with Fin a, Fin b => Fin (f a b) | _, _ => NaN end.
(** A zero divisor gives a non-finite value (numpy). *)
Definition xdiv (x y : xnum) : xnum :=
  match x, y with
  | Fin a, Fin b => if Req_EM_T b 0 then NaN else Fin (a / b)
  | _, _ => NaN
  end.
Definition xeqb (x y : xnum) : bool :=
  match x, y with
  | Fin a, Fin b => if Req_EM_T a b then true else false
  | _, _ => false
  end.
Definition xleb (x y : xnum) : bool :=
  match x, y with
  | Fin a, Fin b => if Rle_dec a b then true else false
  | _, _ => false
  end.

Definition exact : Arith :=
  mkArith xnum (xlift2 Rplus) (xlift2 Rminus) (xlift2 Rmult) xdiv (xlift1 Ropp)
    (xlift1 exp) (xlift1 (fun x => x * x)) (xlift1 sqrt) (fun q => Fin (Q2R q)) NaN
    (fun x => match x with NaN => true | Fin _ => false end) xeqb xleb eq_refl.

(** A unit registry: every symbol has a dimension vector and a positive size
    (in the registry's base units).  The laws are the facts about the units
    named in /repo: a joule is a watt second; year and month are times; kelvin
    and delta_degC have the same dimension and size. *)
Record Registry : Type := mkRegistry {
  rg_ndim : nat;
  rg_dim : string -> nat -> Q;
  rg_size : string -> R;
  rg_pos : forall s, 0 < rg_size s;
  rg_joule_dim : forall k, (k < rg_ndim)%nat -> (rg_dim sJ k == rg_dim sW k + rg_dim ss k)%Q;
  rg_joule : rg_size sJ = rg_size sW * rg_size ss;
  rg_year_dim : forall k, (k < rg_ndim)%nat -> (rg_dim syr k == rg_dim ss k)%Q;
  rg_month_dim : forall k, (k < rg_ndim)%nat -> (rg_dim smonth k == rg_dim ss k)%Q;
  rg_kelvin_dim : forall k, (k < rg_ndim)%nat -> (rg_dim sK k == rg_dim sdC k)%Q;
  rg_kelvin : rg_size sK = rg_size sdC
}.

(** Size of a compound unit. *)
Fixpoint usize (reg : Registry) (u : Units) : R :=
  match u with
  | [] => 1
  | (s, e) :: r => Rpower (rg_size reg s) (Q2R e) * usize reg r
  end.

Definition xenv (reg : Registry) : Env :=
  mkEnv exact (rg_ndim reg) (rg_dim reg) (fun u => Fin (usize reg u)).

(** The registry of openscm-units for the symbols used here: SI with
    1 yr = 365.25 days and 1 month = 1/12 yr; the base units are m, kg, s, K. *)
Definition si_dim (s : string) (k : nat) : Q :=
  let v : list Q := (if String.eqb s sW then [2; 1; -3; 0]
           else if String.eqb s sJ then [2; 1; -2; 0]
           else if String.eqb s sm then [1; 0; 0; 0]
           else if String.eqb s skg then [0; 1; 0; 0]
           else if String.eqb s ss then [0; 0; 1; 0]
           else if String.eqb s syr then [0; 0; 1; 0]
           else if String.eqb s smonth then [0; 0; 1; 0]
           else if String.eqb s sK then [0; 0; 0; 1]
           else if String.eqb s sdC then [0; 0; 0; 1]
           else if String.eqb s "kilometer" then [1; 0; 0; 0]
           else if String.eqb s "millikelvin" then [0; 0; 0; 1]
           else if String.eqb s "day" then [0; 0; 1; 0]
           else [0; 0; 0; 0])%Q
  in nth k v 0%Q.

Definition si_sizeq (s : string) : Q :=
  (if String.eqb s syr then 31557600
  else if String.eqb s smonth then 31557600 # 12
  else if String.eqb s "kilometer" then 1000
  else if String.eqb s "millikelvin" then 1 # 1000
  else if String.eqb s "day" then 86400
  else if String.eqb s "percent" then 1 # 100
  else 1)%Q.
Definition si_size (s : string) : R := Q2R (si_sizeq s).

Lemma si_pos s : 0 < si_size s.
Proof.
  unfold si_size, si_sizeq. replace 0 with (Q2R 0) by (unfold Q2R; cbn; lra). apply Qlt_Rlt.
  repeat match goal with |- (0 < (if ?b then _ else _))%Q => destruct b; [reflexivity|] end. reflexivity.
Qed.

Lemma si_joule_dim k : (k < 4)%nat -> (si_dim sJ k == si_dim sW k + si_dim ss k)%Q.
Proof.
  intros Hk. do 4 (destruct k; [reflexivity|]). exfalso. lia.
Qed.
Lemma si_joule : si_size sJ = si_size sW * si_size ss.
Proof.
  assert (H : forall s, si_sizeq s = 1%Q -> si_size s = 1)
    by (intros s Hs; unfold si_size; rewrite Hs; unfold Q2R; cbn; lra).
  rewrite !H by reflexivity. lra.
Qed.
Lemma si_kelvin : si_size sK = si_size sdC.
Proof.
  unfold si_size. replace (si_sizeq sK) with (si_sizeq sdC) by reflexivity. reflexivity.
Qed.
Lemma si_eq_dim a b : (forall k, si_dim a k = si_dim b k) -> forall k, (k < 4)%nat -> (si_dim a k == si_dim b k)%Q.
Proof. intros H k _. rewrite H. reflexivity. Qed.

Definition si : Registry :=
  mkRegistry 4 si_dim si_size si_pos si_joule_dim si_joule
    (si_eq_dim _ _ (fun k => eq_refl)) (si_eq_dim _ _ (fun k => eq_refl))
    (si_eq_dim _ _ (fun k => eq_refl)) si_kelvin.
