(** How the passes of an iteration approach the state of rest, said without the iteration. *)
From Coq Require Import List Bool Arith ZArith QArith Qabs.
From Verif Require Import LinAlg SpringSpec.
Import ListNotations.
Local Open Scope Q_scope.

(** The curve bends down: no part of it is steeper than the part before. *)
Fixpoint concave (c : list (Q * Q)) : Prop :=
  match c with
  | (x0, y0) :: t =>
      match t with
      | (x1, y1) :: ((x2, y2) :: _) => (y2 - y1) * (x1 - x0) <= (y1 - y0) * (x2 - x1) /\ concave t
      | _ => True
      end
  | [] => True
  end.

(** Steepest part, at the origin *)
Definition steepest (c : list (Q * Q)) : Q := snd (point c 1) / fst (point c 1).

(** [D]: displacements of the pile [K] under the loads [F] without any spring, moved by [U0] at the supports [r] *)
Definition without_springs (n : nat) (K : mat) (F U0 : vec) (r : nat -> bool) (D : vec) : Prop :=
  (forall i, (i < n)%nat -> r i = true -> D i == U0 i) /\ (forall i, (i < n)%nat -> r i = false -> mulv n K D i == F i).

(** [W]: displacements of the pile without springs under a load of 1 along degree of freedom [t] *)
Definition unit_response (n : nat) (K : mat) (r : nat -> bool) (t : nat) (W : vec) : Prop :=
  without_springs n K (fun i => if Nat.eqb i t then 1 else 0) (fun _ => 0) r W.

(** One spring at the tip, against its lateral displacement or against its rotation *)
Definition one_spring (n : nat) (qz hb mb : option (list (Q * Q))) (t : nat) (c : list (Q * Q)) : Prop :=
  qz = None /\ ((hb = Some c /\ mb = None /\ t = (3 * n + 1)%nat) \/ (hb = None /\ mb = Some c /\ t = (3 * n + 2)%nat)).

(** on the way from 0 to [y] *)
Definition on_the_way (x y : Q) : Prop := (0 <= x /\ x <= y) \/ (y <= x /\ x <= 0).

Fixpoint power (q : Q) (k : nat) : Q := match k with O => 1 | S m => q * power q m end.

(** squares of the loads on the degrees of freedom that are free *)
Definition free_load2 (n : nat) (F : vec) (r : nat -> bool) : Q := sum n (fun i => if r i then 0 else F i * F i).
