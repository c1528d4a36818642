(** Vocabulary for the precision of the arrays the springs are kept in. *)
From Coq Require Import List Arith QArith Qabs.
From Verif Require Import Base BCModel BCSpec SpringModel NearSpec FullModel.
Import ListNotations.
Local Open Scope Q_scope.

(** The same springs up to the relative error [d] of the points; what fails or is not a number does so in both *)
Definition close_stored (d : Q) (v v' : stored_value) : Prop :=
  match v, v' with
  | Err e, Err e' => e = e'
  | Ok None, Ok None => True
  | Ok (Some cs), Ok (Some cs') => Forall2 (close_points d) cs cs'
  | _, _ => False
  end.

(** What two precisions of at most [d] can change in the stiffness of a spring: a little more than four times [d] *)
Definition precision_error (d : Q) : Q := 4 * d / (1 - 3 * d).

(** Node [i] is moved along axis [a], and no node is moved otherwise *)
Definition moved (nodes : list Q) (l : list bc) (i : nat) (a : axis) : Prop := exists b q, In b l /\ sends nodes Displacement i a b q.
Definition moved_alone (nodes : list Q) (l : list bc) (i : nat) (a : axis) : Prop := moved nodes l i a /\ forall i' a', moved nodes l i' a' -> i' = i /\ a' = a.
