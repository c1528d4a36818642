(** Independent statements about the outcome of the pile-soil analysis: equilibrium, reactions and
    prescribed displacements, for any stiffness [build] of the system. *)
From Coq Require Import List Bool Arith ZArith QArith.
From Verif Require Import Base LinAlg SpringModel.
Local Open Scope Q_scope.

(** sum of squares of the forces out of balance on the degrees of freedom that are not supported *)
Definition out_of_balance (n : nat) (supports : nat -> bool) (F : vec) (Ks : mat) (d : vec) : Q :=
  sum n (fun i => if supports i then 0 else (F i - mulv n Ks d i) * (F i - mulv n Ks d i)).

Definition force2 (n : nat) (F : vec) : Q := sum n (fun i => F i * F i).

(** [R] are the reactions of the supports when the springs keep the stiffness they have at [d] *)
Definition reactions_for (n : nat) (build : vec -> kind -> res mat) (F U0 : vec) (supports : nat -> bool) (d R : vec) : Prop :=
  exists Ks V, build d Secant = Ok Ks /\
  (forall i, (i < n)%nat -> mulv n Ks V i == F i + R i) /\
  (forall i, (i < n)%nat -> supports i = false -> R i == 0) /\
  (forall i, (i < n)%nat -> supports i = true -> V i = U0 i).

Definition prescribed (n : nat) (U0 : vec) (supports : nat -> bool) (d : vec) : Prop :=
  forall i, (i < n)%nat -> supports i = true -> d i == U0 i.
