(** What the user of a Model object may expect of a program of operations on it. *)
From Coq Require Import List Bool Arith QArith.
From Verif Require Import Base GetterModel BCModel BCSpec SessionModel.
Import ListNotations.
Local Open Scope Q_scope.

(** The setter calls of a program, in order. *)
Fixpoint setters (l : list op) : list BCModel.call :=
  match l with
  | [] => []
  | Set_ c :: t => c :: setters t
  | _ :: t => setters t
  end.

(** Number of tables of axial or lateral springs the program asks for. *)
Definition asks (g : getter) (o : op) : nat :=
  match g, o with
  | Axial, Table Axial Lumped | Axial, Table Axial Distributed => 1
  | Lateral, Table Lateral Lumped | Lateral, Table Lateral Distributed => 1
  | _, _ => 0
  end%nat.
Definition readings (g : getter) (l : list op) : nat := fold_right (fun o n => (asks g o + n)%nat) O l.

(** Two histories of setter calls that end with the same values everywhere. *)
Definition same_values (h h' : list BCModel.call) : Prop :=
  forall k e a q, last_given h k e a q <-> last_given h' k e a q.

(** x to the power k *)
Fixpoint power (x : Q) (k : nat) : Q := match k with O => 1 | S m => x * power x m end.

(** Half the lengths of the elements at node [i]; elevations from top to bottom. *)
Definition half_lengths (z : list Q) (i : nat) : Q :=
  (if Nat.eqb i 0 then 0 else (nth (i - 1) z 0 - nth i z 0) / 2) +
  (if Nat.eqb (S i) (length z) then 0 else (nth i z 0 - nth (S i) z 0) / 2).

(** Both raise, or [a] is [w] times [b]. *)
Definition times (w : Q) (a b : res Q) : Prop :=
  match a, b with
  | Ok x, Ok y => x == w * y
  | Err e, Err e' => e = e'
  | _, _ => False
  end.
