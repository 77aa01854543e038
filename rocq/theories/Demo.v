(** A computable number system (rationals with one NaN, and rational
    approximations of exp and sqrt) with a small SI registry.  It is used only
    to show by computation that the hypotheses of the theorems that hold for
    every number system are met by concrete cases. *)
From Coq Require Import List String QArith ZArith Bool Arith.
From Verif Require Import Arith Pint Base TwoLayer Impulse Utils Scm Api.
Import ListNotations.
Local Open Scope string_scope.

Definition on : Type := option Q.
Definition olift2 (f : Q -> Q -> Q) (x y : on) : on :=
  match x, y with Some a, Some b => Some (Qred (f a b)) | _, _ => None end.
Definition olift1 (f : Q -> Q) (x : on) : on :=
  match x with Some a => Some (Qred (f a)) | None => None end.
Definition odiv (x y : on) : on :=
  match x, y with
  | Some a, Some b => if Qeq_bool b 0 then None else Some (Qred (a / b))
  | _, _ => None
  end.
Definition ocmp (f : Q -> Q -> bool) (x y : on) : bool :=
  match x, y with Some a, Some b => f a b | _, _ => false end.
(** 1/(1-x) stands for exp x where x <= 0. *)
Definition qexp (x : Q) : Q := 1 / (1 - x).
Definition qsqrt6 (x : Q) : Q :=
  (Z.sqrt (Qnum x * 1000000000000 / Zpos (Qden x)) # 1000000).

Definition demo_arith : Arith :=
  mkArith on (olift2 Qplus) (olift2 Qminus) (olift2 Qmult) odiv (olift1 Qopp)
    (olift1 qexp) (olift1 (fun x => x * x)) (olift1 qsqrt6) (fun q => Some (Qred q)) None
    (fun x => match x with None => true | _ => false end)
    (ocmp Qeq_bool) (ocmp Qle_bool) eq_refl.

(** Dimensions: 0 length, 1 mass, 2 time, 3 temperature. *)
Definition demo_dim (s : string) (k : nat) : Q :=
  let v := if String.eqb s sW then [2; 1; -3; 0]
           else if String.eqb s sJ then [2; 1; -2; 0]
           else if String.eqb s sm then [1; 0; 0; 0]
           else if String.eqb s skg then [0; 1; 0; 0]
           else if String.eqb s ss then [0; 0; 1; 0]
           else if String.eqb s syr then [0; 0; 1; 0]
           else if String.eqb s smonth then [0; 0; 1; 0]
           else if String.eqb s sK then [0; 0; 0; 1]
           else if String.eqb s sdC then [0; 0; 0; 1]
           else if String.eqb s "kilometer" then [1; 0; 0; 0]
           else [0; 0; 0; 0]
  in nth k v 0.

Definition demo_size (s : string) : Q :=
  if String.eqb s syr then 31557600
  else if String.eqb s smonth then 31557600 # 12
  else if String.eqb s "kilometer" then 1000
  else 1.

Definition qint (q : Q) : Z := (Qnum q / Zpos (Qden q))%Z.
Definition demo_root (u : Units) : on :=
  Some (Qred (fold_left (fun acc x => acc * Qpower (demo_size (fst x)) (qint (snd x))) u 1)).

Definition demo : Env := mkEnv demo_arith 4 demo_dim demo_root.

Definition demo_parse (s : string) : option (Qty demo) :=
  if String.eqb s "W/m^2" then Some (mkQ (env := demo) (Some 1) u_Wm2) else None.

(** Two-layer model with a non-default du in kilometres. *)
Definition demo_args : TLArgs demo :=
  mkTLArgs demo (PQ (mkQ (env := demo) (Some (5 # 100)) [("kilometer", 1)]))
    (PQ (mkQty demo 1200 u_m)) (PQ (mkQty demo (125 # 100) u_Wm2C))
    (PQ (mkQty demo 0 u_Wm2C2)) (PQ (mkQty demo (13 # 10) u_none))
    (PQ (mkQty demo (8 # 10) u_Wm2C)) (PQ (mkQty demo 1 u_yr)).
Definition demo_tl : TL demo := match tl_new demo demo_args with Ok s => s | Err _ => tl_blank demo end.
Definition demo_ir : IR demo :=
  match ir_new demo (ir_defaults demo) with Ok s => s | Err _ => ir_blank demo end.
Definition demo_erf : QArr demo := mkQA (env := demo) [Some 0; Some 1; Some 2; Some 3] u_Wm2.

Example demo_tl_new : tl_new demo demo_args = Ok demo_tl.
Proof. vm_compute. reflexivity. Qed.
Example demo_ir_new : ir_new demo (ir_defaults demo) = Ok demo_ir.
Proof. vm_compute. reflexivity. Qed.
Example demo_tl_runs : snd (tl_drive demo demo_erf demo_tl) = Ok tt.
Proof. vm_compute. reflexivity. Qed.
Example demo_ir_runs : snd (ir_drive demo demo_erf demo_ir) = Ok tt.
Proof. vm_compute. reflexivity. Qed.

(** Scenario tables. *)
Definition demo_row (var reg scen cm : string) (vals : list on) : Row demo :=
  mkRow demo [(KName "variable", MS demo var); (KName "unit", MS demo "W/m^2"); (KName "region", MS demo reg);
              (KName "scenario", MS demo scen); (KName "climate_model", MS demo cm)] vals.
(** 1 January 2000, 2001, 2002 *)
Definition demo_times : list Z := [946684800; 978307200; 1009843200]%Z.
Definition demo_scm : Scm demo :=
  mkScm demo demo_times
    [demo_row "Effective Radiative Forcing" "World" "a" "x" [Some 0; Some 1; Some 2];
     demo_row "Effective Radiative Forcing" "World|Northern Hemisphere" "a" "x" [Some 5; Some 5; Some 5];
     demo_row "Effective Radiative Forcing" "World" "b" "x" [Some 1; None; Some 3]].
