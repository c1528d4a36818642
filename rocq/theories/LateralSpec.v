(** What a lateral soil model owes to the pile model, stated without the curve functions. *)
From Coq Require Import List Reals.
From Verif Require Import ConicSpec.
Import ListNotations.
Local Open Scope R_scope.

(** A reaction curve of [n] points: from the origin, displacements in order, resistances not negative. *)
Definition spring_curve (n : nat) (y p : list R) : Prop :=
  length y = n /\ length p = n /\ nth 0 y 0 = 0 /\ nth 0 p 0 = 0 /\ nondecreasing y /\ (forall v, In v p -> 0 <= v).

(** A value between the one at the top and the one at the bottom of a layer, a fraction [t] of the way down. *)
Definition between (top bottom t : R) : R := (1 - t) * top + t * bottom.

(** The sets of values closed under going from top to bottom of a layer. *)
Definition convex (P : R -> Prop) : Prop := forall a b t, P a -> P b -> 0 <= t <= 1 -> P (between a b t).

(** The curve of a spring whose resistances are multiplied by [cp] and displacements by [cy]. *)
Definition multiplied (cy cp : R) (y : list R) (p : list (option R)) (y' : list R) (p' : list (option R)) : Prop :=
  length y' = length y /\ length p' = length p /\
  (forall i, nth i y' 0 = cy * nth i y 0) /\
  (forall i, match nth i p None with Some v => nth i p' None = Some (cp * v) | None => nth i p' None = None end).
