(** Vocabulary for comparing piles: which one is stiffer, which one is held by more supports. *)
From Coq Require Import List Bool Arith QArith.
From Verif Require Import LinAlg.
Local Open Scope Q_scope.

(** it takes at least as much work to deform each of the [n] elements of the second pile *)
Definition stiffer (n : nat) (k k' : nat -> mat) : Prop := forall e u, (e < n)%nat -> energy 6 (k e) u <= energy 6 (k' e) u.
Definition more_supports (n : nat) (r r' : nat -> bool) : Prop := forall i, (i < 3 * n + 3)%nat -> r i = true -> r' i = true.

(** twice the potential energy: work stored in the pile less work the loads have lost *)
Definition potential (n : nat) (K : mat) (F v : vec) : Q := energy n K v - 2 * dot n F v.
(** displacements that agree with what is prescribed *)
Definition prescribed (n : nat) (r : nat -> bool) (U v : vec) : Prop := forall i, (i < n)%nat -> r i = true \/ ~ U i == 0 -> v i == U i.
