(** Ultimate lateral resistance of a pile in sand: wedge failure near the surface, flow failure below. *)
From Coq Require Import Reals.
Local Open Scope R_scope.

Definition deg (x : R) : R := x * (PI / 180).

Section Ultimate.
Variable phi : R.
Let beta := deg (45 + phi / 2).
(** Passive earth pressure coefficient; the active one is its inverse. *)
Definition Kp : R := tan beta ^ 2.
Definition wedge_C1 : R :=
  0.4 * tan (deg phi) * sin beta * tan beta / cos (deg phi / 2) + tan beta ^ 3 * tan (deg phi / 2)
  + 0.4 * tan beta * (tan (deg phi) * sin beta - tan (deg phi / 2)).
Definition wedge_C2 : R := Kp - / Kp.
Definition flow_C3 : R := 0.4 * tan (deg phi) * Kp ^ 2 + (Kp ^ 4 - 1) / Kp.
End Ultimate.

Definition sand_ultimate (sig X phi D : R) : R := Rmin (flow_C3 phi * sig * D) ((wedge_C1 phi * X + wedge_C2 phi * D) * sig).
