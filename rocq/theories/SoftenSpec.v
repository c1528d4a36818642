(** Vocabulary for the stiffness of reaction curves: no point lies above the line from the origin through the first
    point after it. *)
From Coq Require Import List Reals.
Import ListNotations.
Local Open Scope R_scope.

(** A curve from the origin whose resistance per displacement is nowhere larger than at the second point. *)
Definition softens (x y : list R) : Prop :=
  nth 0 x 0 = 0 /\ nth 0 y 0 = 0 /\ forall i, nth i y 0 * nth 1 x 0 <= nth 1 y 0 * nth i x 0.

(** The same of a curve in both directions with the origin at place [m], measured by the first point of the downward branch. *)
Definition softens_both (m : nat) (x y : list R) : Prop :=
  nth m x 0 = 0 /\ nth m y 0 = 0 /\ 0 <= nth (S m) x 0 /\ 0 <= nth (S m) y 0 /\
  forall i, Rabs (nth i y 0) * nth (S m) x 0 <= nth (S m) y 0 * Rabs (nth i x 0).
