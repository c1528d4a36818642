(** States of rest of a pile on base springs, said without the stiffness matrix of the springs: at the
    degrees of freedom that are free the bending and stretching of the pile and the resistance of the base
    springs, read from their curves, balance the loads. *)
From Coq Require Import List Bool Arith ZArith QArith Qabs.
From Verif Require Import LinAlg SpringSpec.
Import ListNotations.
Local Open Scope Q_scope.

(** Curves the base springs are given: from the origin, never falling *)
Definition lateral_curve (c : list (Q * Q)) : Prop := (2 <= length c)%nat /\ strict c /\ hardening c /\ origin (point c 0).
(** the points are listed from the largest displacement down; [m] is the place of the origin *)
Definition axial_curve (m : nat) (c : list (Q * Q)) : Prop := strict (rev c) /\ hardening (rev c) /\ (S m < length c)%nat /\ origin (point c m).

(** Resistance [f] at displacement [u]: along the displacement, of the size the curve gives *)
Definition resists (o : option (list (Q * Q))) (u f : Q) : Prop :=
  match o with
  | None => f == 0
  | Some c => exists p, on_curve c (Qabs u) p /\ (0 <= u -> f == p) /\ (u <= 0 -> f == - p)
  end.
Definition resists_axially (o : option (list (Q * Q))) (u f : Q) : Prop :=
  match o with None => f == 0 | Some c => on_curve (rev c) u f end.

(** At rest under loads [F] with the displacements [U0] at the supports [r]; [K] is the pile. *)
Definition at_rest (n : nat) (K : mat) (qz hb mb : option (list (Q * Q))) (F U0 : vec) (r : nat -> bool) (V : vec) : Prop :=
  (forall i, (i < 3 * n + 3)%nat -> r i = true -> V i == U0 i) /\
  exists fq fh fm, resists_axially qz (V (3 * n)%nat) fq /\ resists hb (V (3 * n + 1)%nat) fh /\ resists mb (V (3 * n + 2)%nat) fm /\
    forall i, (i < 3 * n + 3)%nat -> r i = false ->
      mulv (3 * n + 3) K V i + (if Nat.eqb i (3 * n) then fq else if Nat.eqb i (3 * n + 1) then fh else if Nat.eqb i (3 * n + 2) then fm else 0) == F i.
