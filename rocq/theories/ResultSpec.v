(** What the tables of a result should hold, stated on spring curves as polylines. *)
From Coq Require Import List Bool Arith QArith Qabs.
From Verif Require Import LinAlg SpringSpec.
Import ListNotations.
Local Open Scope Q_scope.

(** A spring curve: from the origin, displacements strictly increasing, resistance never dropping. *)
Definition regular (c : list (Q * Q)) : Prop := (2 <= length c)%nat /\ strict c /\ hardening c /\ origin (point c 0).

(** No spring: an array of zeros. *)
Definition absent (c : list (Q * Q)) : Prop := c <> [] /\ forall p, In p c -> origin p.

(** [c] is the moment-rotation curve that the family [cols] has at lateral resistance [p]: its points
    after the origin lie, point by point, on the polylines over the lateral resistances [pp]. *)
Definition family_at (p : Q) (pp : list Q) (cols : list (list (Q * Q))) (c : list (Q * Q)) : Prop :=
  length c = length cols /\ origin (point c 0) /\
  forall i, (0 < i)%nat -> (i < length cols)%nat ->
    on_curve (combine pp (map fst (nth i cols []))) p (fst (point c i)) /\
    on_curve (combine pp (map snd (nth i cols []))) p (snd (point c i)).

(** A moment family over the resistances [pp]: as many points, moments growing with the resistance. *)
Definition family (pp : list Q) (cols : list (list (Q * Q))) : Prop :=
  (2 <= length cols)%nat /\ nondecreasing pp /\ pp <> [] /\
  forall col, In col cols -> length col = length pp /\ nondecreasing (map snd col).

Definition node_deflection (u : nat -> Q) (i : nat) : Q := u (3 * i + 1)%nat.
Definition node_rotation (u : nat -> Q) (i : nat) : Q := u (3 * i + 2)%nat.

(** [v] is the largest (smallest) entry of the list, up to [e]. *)
Definition largest (l : list Q) (e v : Q) : Prop := (exists x, In x l /\ Qabs (v - x) <= e) /\ forall x, In x l -> x <= v + e.
Definition smallest (l : list Q) (e v : Q) : Prop := (exists x, In x l /\ Qabs (v - x) <= e) /\ forall x, In x l -> v - e <= x.
