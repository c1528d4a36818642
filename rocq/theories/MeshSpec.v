(** Specification vocabulary for the mesh. *)
From Coq Require Import List QArith Sorted.
From Verif Require Import Base PileModel.
Import ListNotations.
Local Open Scope Q_scope.

(** The elevation is one of the list (as numbers). *)
Definition contains (l : list Q) (x : Q) : Prop := exists y, In y l /\ y == x.

Definition strictly_descending (l : list Q) : Prop :=
  forall i j a b, (i < j)%nat -> nth_error l i = Some a -> nth_error l j = Some b -> b < a.

(** Elevations the user asked for: ends of pile sections, ends of soil layers that are not below
    the pile tip, and x2mesh. *)
Definition requested (p : list section) (bottom : Q) (soil : option (list layer)) (x2mesh : list Q) (x : Q) : Prop :=
  (exists s, In s p /\ (x == s_top s \/ x == s_bottom s)) \/
  (exists ls y, soil = Some ls /\ In y ls /\ (x == l_top y \/ x == l_bottom y) /\ bottom <= x) \/
  contains x2mesh x.

(** Total height of a list of elements. *)
Fixpoint total_height (l : list (Q * Q)) : Q :=
  match l with [] => 0 | e :: t => (fst e - snd e) + total_height t end.
