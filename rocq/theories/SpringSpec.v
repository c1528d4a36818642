(** What a spring curve means: the polyline through its points, constant outside. *)
From Coq Require Import List QArith.
From Verif Require Import LinAlg.
Import ListNotations.
Local Open Scope Q_scope.

Definition point (c : list (Q * Q)) (i : nat) : Q * Q := nth i c (0, 0).

Definition origin (p : Q * Q) : Prop := fst p == 0 /\ snd p == 0.

(** (d, p) lies on the polyline. *)
Definition on_curve (c : list (Q * Q)) (d p : Q) : Prop :=
  (exists j, (S j < length c)%nat /\ fst (point c j) < fst (point c (S j)) /\
     fst (point c j) <= d /\ d <= fst (point c (S j)) /\
     (p - snd (point c j)) * (fst (point c (S j)) - fst (point c j)) ==
     (snd (point c (S j)) - snd (point c j)) * (d - fst (point c j))) \/
  (fst (point c 0) >= d /\ p == snd (point c 0)) \/
  (fst (point c (length c - 1)) <= d /\ p == snd (point c (length c - 1))).

(** Displacements never decrease along the list. *)
Fixpoint ordered (c : list (Q * Q)) : Prop :=
  match c with
  | (x0, _) :: t => match t with [] => True | (x1, _) :: _ => x0 <= x1 /\ ordered t end
  | [] => True
  end.

(** Displacements strictly increase. *)
Fixpoint strict (c : list (Q * Q)) : Prop :=
  match c with
  | (x0, _) :: t => match t with [] => True | (x1, _) :: _ => x0 < x1 /\ strict t end
  | [] => True
  end.

(** Resistances never decrease. *)
Fixpoint hardening (c : list (Q * Q)) : Prop :=
  match c with
  | (_, y0) :: t => match t with [] => True | (_, y1) :: _ => y0 <= y1 /\ hardening t end
  | [] => True
  end.

Fixpoint nondecreasing (l : list Q) : Prop :=
  match l with
  | a :: t => match t with [] => True | b :: _ => a <= b /\ nondecreasing t end
  | [] => True
  end.

(** Mirror image of a displacement field: lateral displacements and rotations change sign. *)
Definition mirrored (u v : nat -> Q) : Prop :=
  forall i, v (3 * i)%nat = u (3 * i)%nat /\ v (3 * i + 1)%nat = - u (3 * i + 1)%nat /\ v (3 * i + 2)%nat = - u (3 * i + 2)%nat.
