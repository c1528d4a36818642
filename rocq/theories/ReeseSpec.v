(** Reese's weak rock: ultimate resistance and initial stiffness as published. *)
From Coq Require Import Reals.
Local Open Scope R_scope.

(** The quality of the rock reduces its strength linearly, down to one third for an RQD of 100. *)
Definition rock_reduction (RQD : R) : R := if Rle_dec RQD 0 then 1 else if Rle_dec 100 RQD then 1/3 else 1 - RQD / 150.
(** Shallow rock: linear in depth, capped at 5.2 at three widths and deeper. *)
Definition rock_ultimate (qu RQD xr D : R) : R := rock_reduction RQD * qu * (if Rle_dec (3 * D) xr then 5.2 * D else D + 1.4 * xr).
Definition rock_stiffness (Ei xr D : R) : R := Ei * (if Rle_dec (3 * D) xr then 500 else 100 + 400 / 3 * (xr / D)).
