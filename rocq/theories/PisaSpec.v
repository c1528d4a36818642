(** What a PISA reaction curve must be: [n] is the curvature, [s] the ratio of initial to secant stiffness,
    [xu], [yu] the ultimate displacement and resistance, [e] the relative width of the tail in which the
    code already returns the ultimate value. *)
From Coq Require Import List Reals.
From Verif Require Import ConicSpec.
Import ListNotations.
Local Open Scope R_scope.

Definition pisa_curve (m : nat) (n s e xu yu : R) (xs ys : list R) : Prop :=
  length xs = m /\ length ys = m /\ nth 0 xs 0 = 0 /\ nth 0 ys 0 = 0 /\ nondecreasing xs /\ nondecreasing ys /\
  In xu xs /\ last xs 0 = 11/10 * xu /\ last ys 0 = yu /\
  forall i, (i < m)%nat -> exists X Y, nth i xs 0 = X * xu /\ nth i ys 0 = Y * yu /\ 0 <= X <= 11/10 /\
    Rmin X 1 <= Y /\ Y <= 1 /\ (1 <= X -> Y = 1) /\ (X + e <= 1 -> Y <= s * X /\ on_conic n s X Y).
