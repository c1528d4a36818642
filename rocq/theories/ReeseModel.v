(** Reese weak rock p-y curve: openpile/utils/py_curves.py 917-1029.  Floats are real numbers. *)
From Coq Require Import List Reals.
From Verif Require Import Base ConicModel PisaModel ApiSandModel.
Import ListNotations.
Local Open Scope R_scope.

(** 1000-1003 *)
Definition reese_alpha (RQD : R) : R := let rqd := Rmax (Rmin 100 RQD) 0 in 1 - 2 / 3 * rqd / 100.

(** 1015-1019: the abscissae *)
Definition reese_y (yA yrm : R) (n : nat) : list R :=
  let ymax := Rmax (1.05 * yA) ((2 * rpow yrm 0.25) ^ 4) in
  let y1 := linspace yA (Rmax (0.15 * ymax) (1.01 * yA)) (Nat.div n 2) in
  let y2 := linspace (Rmax (yA * 1.02) (0.25 * ymax)) ymax (n - length y1 - 2) in
  [0] ++ y1 ++ y2 ++ [1.2 * ymax].

(** 1022-1027 *)
Definition reese_p (Pmax Epy yA yrm v : R) : res R :=
  if Rle_dec v yA then Ok (Rmin Pmax (Epy * v)) else nonzero yrm (Ok (Rmin Pmax (Pmax / 2 * rpow (v / yrm) 0.25))).

(** 917-1029 *)
Definition reese_weakrock (Ei qu RQD xr D k : R) (output_length : nat) : res (list R * list R) :=
  let n := Nat.max 8 output_length in
  let alpha := reese_alpha RQD in
  nonzero D (
  let Pmax := Rmin (5.2 * alpha * qu * D) (alpha * qu * D * (1 + 1.4 * xr / D)) in
  let Epy_i := Ei * Rmin 500 (100 + 400 * xr / (3 * D)) in
  let yrm := k * D in
  nonzero (2 * rpow yrm 0.25 * Epy_i) (
  let yA := rpow (Pmax / (2 * rpow yrm 0.25 * Epy_i)) 1.333 in
  let y := reese_y yA yrm n in
  bind (mapM (reese_p Pmax Epy_i yA yrm) y) (fun p => Ok (y, p)))).
