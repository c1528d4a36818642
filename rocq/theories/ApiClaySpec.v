(** Matlock's curves in normalised form: r is the displacement over y50 and the value is the fraction of
    the ultimate resistance that is mobilised. *)
From Coq Require Import Reals.
Local Open Scope R_scope.

(** The cube-root-like rise, zero at zero. *)
Definition rise (r : R) : R := if Rlt_dec 0 r then Rpower r 0.33 / 2 else 0.
Definition matlock_static (r : R) : R := if Rlt_dec 8 r then 1 else rise r.
(** [z] is the depth over the transition depth, [peak] the fraction where the rise ends at [rb]. *)
Definition matlock_cyclic (peak rb z r : R) : R :=
  if Rle_dec r rb then rise r
  else if Rlt_dec 1 z then peak
  else if Rlt_dec 15 r then peak * z
  else peak * (1 - (1 - z) * ((r - rb) / (15 - rb))).

(** Bearing capacity factor: wedge at shallow depth, flow around the pile at depth. *)
Definition clay_Nc (sig X Su D J : R) : R := Rmin 9 (3 + sig / Su + J * X / D).

From Coq Require Import List.
From Verif Require Import ConicSpec.
Import ListNotations.
(** A discretised curve of [n] points through the origin whose ordinates are the given fraction of [Pmax]. *)
Record discretised (frac : R -> R) (y50 Pmax : R) (n : nat) (y p : list R) : Prop := {
  d_length : length y = n;
  d_length_p : length p = n;
  d_first : nth 0 y 0 = 0;
  d_first_p : nth 0 p 0 = 0;
  d_sorted : nondecreasing y;
  d_value : forall i, (i < n)%nat -> nth i p 0 = Pmax * frac (nth i y 0 / y50) }.
