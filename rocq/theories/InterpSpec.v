(** What numpy promises about np.interp(x, xp, fp), for abscissae in any order.  The documentation asks for increasing
    abscissae and says nothing about others; the code looks for an index by bisection, starting anywhere. *)
From Coq Require Import List Bool Arith ZArith QArith.
From Verif Require Import SpringSpec.
Import ListNotations.
Local Open Scope Q_scope.

Notation corner pts i := (nth i pts (0, 0)).
Definition final (pts : list (Q * Q)) : Q * Q := nth (length pts - 1) pts (0, 0).

(** [v] is on the line between two neighbouring points, [x] being at or after the first and before the second. *)
Definition on_segment (pts : list (Q * Q)) (x v : Q) : Prop := exists j, (S j < length pts)%nat /\
  fst (corner pts j) <= x /\ x < fst (corner pts (S j)) /\
  v == snd (corner pts j) + (snd (corner pts (S j)) - snd (corner pts j)) / (fst (corner pts (S j)) - fst (corner pts j)) * (x - fst (corner pts j)).

(** A value np.interp may return: the last ordinate beyond the last abscissa, the first one before the first, else one
    on some segment around x. *)
Definition interpolated (pts : list (Q * Q)) (x v : Q) : Prop :=
  (fst (final pts) < x /\ v == snd (final pts)) \/
  (x <= fst (final pts) /\ x < fst (corner pts 0) /\ v == snd (corner pts 0)) \/
  (fst (corner pts 0) <= x /\ x <= fst (final pts) /\ (on_segment pts x v \/ (x == fst (final pts) /\ v == snd (final pts)))).

Definition np_interp (f : Q -> list (Q * Q) -> Q) : Prop := forall x pts, pts <> [] -> interpolated pts x (f x pts).

(** All ordinates are the same. *)
Definition flat (pts : list (Q * Q)) : Prop := forall p q, In p pts -> In q pts -> snd p == snd q.

(** Springs whose stiffness does not depend on how the index is searched.  A rotational spring: the resistances of the p-y
    curve come in order, or rotations and moments do not depend on them. *)
Definition even_column (col : list (Q * Q)) : Prop := forall p q, In p col -> In q col -> fst p == fst q /\ snd p == snd q.
Definition rotations_in_order (cols : list (list (Q * Q))) (n : nat) : Prop :=
  (forall col, In col cols -> length col = n) /\
  (forall col q, In col cols -> In q col -> 0 <= fst q) /\
  forall i j k, (i <= j)%nat -> (j < length cols)%nat -> fst (corner (nth i cols []) k) <= fst (corner (nth j cols []) k).
Definition searchable_mt (pp : list Q) (cols : list (list (Q * Q))) : Prop :=
  rotations_in_order cols (length pp) /\ pp <> [] /\ (nondecreasing pp \/ forall col, In col cols -> even_column col).
