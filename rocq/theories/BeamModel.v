(** Element matrices of openpile/core/kernel.py.  Numbers are exact rationals; element lengths,
    areas and moduli are passed as the values found for the element. *)
From Coq Require Import List Bool QArith.
From Verif Require Import Base LinAlg.
Import ListNotations.
Local Open Scope Q_scope.

Inductive elem_type := EulerBernoulli | Timoshenko.

(** materials.py 96-99 and kernel.py 214: shear modulus *)
Definition shear_modulus (E nu : Q) : Q := E / (2 + 2 * nu).

(** kernel.py 253-263 (again at 524-534): shear coefficient of a tube of diameter [d] and wall [wt] *)
Definition tube_kappa (nu d wt : Q) : Q :=
  let a := (1#2) * d in
  let b := (1#2) * (d - 2 * wt) in
  let a2 := a * a in
  let b2 := b * b in
  let a4 := a2 * a2 in
  let b4 := b2 * b2 in
  let nom := 6 * ((a2 + b2) * (a2 + b2)) * ((1 + nu) * (1 + nu)) in
  let denom := 7 * a4 + 34 * a2 * b2 + 7 * b4 + nu * (12 * a4 + 48 * a2 * b2 + 12 * b4)
               + nu * nu * (4 * a4 + 16 * a2 * b2 + 4 * b4) in
  nom / denom.

(** kernel.py 234-265: which coefficient is used; [circular] says that all sections are circular *)
Definition shear_kappa (ty : elem_type) (circular : bool) (nu d wt : Q) : res Q :=
  match ty with
  | EulerBernoulli => Ok 0
  | Timoshenko => if circular then Ok (tube_kappa nu d wt) else Err ValueError
  end.

(** kernel.py 267 *)
Definition phi_of (E G I A L kappa : Q) : Q := 12 * E * I * kappa / (A * G * (L * L)).

(** kernel.py 268-286 with phi given *)
Definition mech_phi (E I A L phi : Q) : mat :=
  let X := A * E / L in
  let Y1 := (12 * E * I) / ((1 + phi) * (L * L * L)) in
  let Y2 := (6 * E * I) / ((1 + phi) * (L * L)) in
  let Y3 := ((4 + phi) * E * I) / ((1 + phi) * L) in
  let Y4 := ((2 - phi) * E * I) / ((1 + phi) * L) in
  of_rows
    [[X; 0; 0; - X; 0; 0];
     [0; Y1; Y2; 0; - Y1; Y2];
     [0; Y2; Y3; 0; - Y2; Y4];
     [- X; 0; 0; X; 0; 0];
     [0; - Y1; - Y2; 0; Y1; - Y2];
     [0; Y2; Y4; 0; - Y2; Y3]].

(** kernel.py 185-286: elem_mechanical_stiffness_matrix for one element *)
Definition elem_mech (ty : elem_type) (circular : bool) (E nu I A d wt L : Q) : res mat :=
  bind (shear_kappa ty circular nu d wt) (fun kappa =>
  Ok (mech_phi E I A L (phi_of E (shear_modulus E nu) I A L kappa))).

(** kernel.py 317-362: elem_py_stiffness_matrix for one element, given the two spring stiffnesses *)
Definition elem_py (L kt kb : Q) : mat :=
  let A := 2 * L / 7 in
  let B := L * L / 28 in
  let C := L * L * L / 168 in
  let D := 9 * L / 140 in
  let E := L * L / 70 in
  let F := 3 * L / 35 in
  let G := - (L * L) / 60 in
  let H := - (L * L * L) / 280 in
  let I := L * L * L / 280 in
  fun i j =>
    of_rows [[0; 0; 0; 0; 0; 0]; [0; A; B; 0; D; G]; [0; B; C; 0; E; H];
             [0; 0; 0; 0; 0; 0]; [0; D; E; 0; F; G]; [0; G; H; 0; G; I]] i j * kt +
    of_rows [[0; 0; 0; 0; 0; 0]; [0; F; - G; 0; D; - E]; [0; - G; - H; 0; - G; - I];
             [0; 0; 0; 0; 0; 0]; [0; D; - G; 0; A; - B]; [0; - E; - I; 0; - B; C]] i j * kb.

(** kernel.py 393-431: elem_tz_stiffness_matrix for one element *)
Definition elem_tz (L kt kb : Q) : mat :=
  let A := L / 4 in
  let B := L / 12 in
  fun i j =>
    of_rows [[A; 0; 0; B; 0; 0]; [0; 0; 0; 0; 0; 0]; [0; 0; 0; 0; 0; 0];
             [B; 0; 0; B; 0; 0]; [0; 0; 0; 0; 0; 0]; [0; 0; 0; 0; 0; 0]] i j * kt +
    of_rows [[B; 0; 0; B; 0; 0]; [0; 0; 0; 0; 0; 0]; [0; 0; 0; 0; 0; 0];
             [B; 0; 0; A; 0; 0]; [0; 0; 0; 0; 0; 0]; [0; 0; 0; 0; 0; 0]] i j * kb.

(** kernel.py 501-506, 538-551: coefficients of the m-t matrix.  The Timoshenko branch assigns
    [A] before it computes B, C and D, which therefore divide by the new [A]. *)
Definition mt_coefs (ty : elem_type) (omega I area L : Q) : Q * Q * Q * Q :=
  match ty with
  | EulerBernoulli => (6 / (5 * L), 1 # 10, 2 * L / 15, - L / 30)
  | Timoshenko =>
      let phi := (12 * omega + 1) * (12 * omega + 1) in
      let A := 6 * (120 * (omega * omega) + 20 * omega + 1) / ((5 * L) * phi) + 12 * I / (area * (L * L * L) * phi) in
      let B := 1 / (10 * phi) + 6 * I / (A * (L * L) * phi) in
      let C := (2 * L * (90 * (omega * omega) + 15 * omega + 1)) / (15 * phi)
               + 4 * I * (36 * (omega * omega) + 6 * omega + 1) / (A * L * phi) in
      let D := - L * (360 * (omega * omega) + 60 * omega + 1) / (30 * phi)
               - 2 * I * (72 * (omega * omega) + 12 * omega - 1) / (A * L * phi) in
      (A, B, C, D)
  end.

(** kernel.py 558-567 *)
Definition mt_matrix (c : Q * Q * Q * Q) (kt kb : Q) : mat :=
  let '(A, B, C, D) := c in
  fun i j =>
    of_rows [[0; 0; 0; 0; 0; 0]; [0; A; B; 0; - A; B]; [0; B; C; 0; - B; D];
             [0; 0; 0; 0; 0; 0]; [0; - A; - B; 0; A; - B]; [0; B; D; 0; - B; C]] i j
    * ((1#2) * kt + (1#2) * kb).

(** kernel.py 434-569: elem_mt_stiffness_matrix for one element *)
Definition elem_mt (ty : elem_type) (circular : bool) (E nu I A d wt L kt kb : Q) : res mat :=
  bind (shear_kappa ty circular nu d wt) (fun kappa =>
  let omega := E * I * kappa / (A * shear_modulus E nu * (L * L)) in
  Ok (mt_matrix (mt_coefs ty omega I A L) kt kb)).
