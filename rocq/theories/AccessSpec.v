(** Specification vocabulary for what piles and models report. *)
From Coq Require Import String List Bool QArith.
From Verif Require Import Base PileModel PileSpec AccessModel.
Import ListNotations.
Local Open Scope Q_scope.

(** The material argument is a name or a material that was accepted when it was made. *)
Definition obtainable (a : material_arg) : Prop :=
  match a with Named _ => True | Given m => exists name uw E nu, make_material name uw E nu = Ok m end.

(** Reading a table of elevations from the top down: the row in force at elevation [z] is the one
    whose elevation is at or above [z] while the next row is below [z]. *)
Definition reads_at (t : list row) (z : Q) (r : row) : Prop :=
  exists i r', nth_error t i = Some r /\ nth_error t (S i) = Some r' /\ r_z r' < z /\ z <= r_z r.

Definition describes (r : row) (s : section) : Prop :=
  r_width r = s_width s /\ r_area r = s_area s /\ r_I r = s_inertia s /\ r_entrapped r = s_entrapped s /\
  r_outer r = s_outer s /\ r_inner r = s_inner s.

(** The sum, over consecutive rows, of a column times the height between the rows. *)
Fixpoint integral (f : row -> Q) (t : list row) : Q :=
  match t with
  | r :: ((r' :: _) as t') => f r * (r_z r - r_z r') + integral f t'
  | _ => 0
  end.

(** An array that deserves a warning. *)
Definition suspicious (a : entries) : Prop := exists x, In x a /\ (x = None \/ exists q, x = Some q /\ q < 0).

(** The array of a model that takes no negative or unknown value. *)
Definition sound (a : entries) : Prop := forall x, In x a -> exists q, x = Some q /\ 0 <= q.
