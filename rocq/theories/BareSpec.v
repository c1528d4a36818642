(** Independent statement of what a base spring adds to a beam: the slope with which its curve starts. *)
From Coq Require Import List Bool Arith ZArith QArith Qabs.
From Verif Require Import LinAlg SolveSpec.
Import ListNotations.
Local Open Scope Q_scope.

Definition total (l : list Q) : Q := fold_right Qplus 0 l.

(** Curve of points (displacement, resistance) through two points with slope [s]; no slope for a curve without
    resistance. *)
Definition slope (a b : Q * Q) (s : Q) : Prop := ~ fst b == fst a /\ s == Qabs ((snd b - snd a) / (fst b - fst a)).

Definition starts_with (c : list (Q * Q)) (s : Q) : Prop :=
  (total (map snd c) == 0 /\ s == 0) \/ (~ total (map snd c) == 0 /\ slope (nth 0 c (0, 0)) (nth 1 c (0, 0)) s).

(** Axial curve of [2 k + 1] points, the middle one at zero *)
Definition leaves_middle_with (k : nat) (c : list (Q * Q)) (s : Q) : Prop :=
  (total (map (fun p => Qabs (snd p)) c) == 0 /\ s == 0) \/
  (~ total (map (fun p => Qabs (snd p)) c) == 0 /\ slope (nth k c (0, 0)) (nth (S k) c (0, 0)) s).

(** Base springs with stiffness [q], [h], [m] at the last node of [n] elements, axially, laterally, in rotation *)
Definition spring_force (n : nat) (q h m : Q) (d : vec) (i : nat) : Q :=
  if Nat.eqb i (3 * n) then q * d i else if Nat.eqb i (3 * n + 1) then h * d i else if Nat.eqb i (3 * n + 2) then m * d i else 0.

(** Supports together with base springs that resist *)
Definition also_held (n : nat) (q h m : Q) (r : nat -> bool) (i : nat) : bool :=
  r i || (Nat.eqb i (3 * n) && negb (Qeq_bool q 0)) || (Nat.eqb i (3 * n + 1) && negb (Qeq_bool h 0)) || (Nat.eqb i (3 * n + 2) && negb (Qeq_bool m 0)).
