(** Vocabulary for soil reaction curves. *)
From Coq Require Import List Reals.
Import ListNotations.
Local Open Scope R_scope.

(** Values that never decrease along the list. *)
Definition nondecreasing (l : list R) : Prop := forall i j, (i <= j)%nat -> (j < length l)%nat -> nth i l 0 <= nth j l 0.

(** The conic of the PISA method: the point (X, Y) of the curve with initial stiffness ratio [s] and
    curvature [n], both coordinates divided by their ultimate value. *)
Definition on_conic (n s X Y : R) : Prop := (1 - n) * (Y - s * X) * (Y - 1) = n * (Y - X) ^ 2.
