(** Independent statement of the balance of a pile in soil: loads and reactions on one side, the
    soil resistance integrated along the pile and the base springs on the other. *)
From Coq Require Import List QArith.
From Verif Require Import Base LinAlg BeamSpec SolveSpec.
Import ListNotations.
Local Open Scope Q_scope.

(** Sums over the nodes 0 .. n of the nodal forces [G]. *)
Definition total_axial (n : nat) (G : vec) : Q := sum (S n) (fun a => G (3 * a)%nat).
Definition total_lateral (n : nat) (G : vec) : Q := sum (S n) (fun a => G (3 * a + 1)%nat).
(** moment about the pile top; [z] are the node elevations *)
Definition total_moment (n : nat) (z : nat -> Q) (G : vec) : Q :=
  sum (S n) (fun a => G (3 * a + 2)%nat + (z O - z a) * G (3 * a + 1)%nat).

(** Resistance along an element of length [L] with displacements [v]: integral of stiffness times
    displacement over the length; [k] are the stiffness values at the top and bottom. *)
Definition shaft_axial (L : Q) (k : Q * Q) (v : vec) : Q := L * pint (pmul (linear_k (fst k) (snd k)) (axial v)).
Definition shaft_lateral (L : Q) (k : Q * Q) (v : vec) : Q := L * pint (pmul (linear_k (fst k) (snd k)) (deflection L v)).
(** its moment about a point [d] above the top of the element *)
Definition shaft_moment (L d : Q) (k : Q * Q) (v : vec) : Q :=
  L * pint (pmul [d; L] (pmul (linear_k (fst k) (snd k)) (deflection L v))).
(** distributed moment: mean stiffness times the slope, integrated along the element *)
Definition shaft_rotation (L : Q) (k : Q * Q) (v : vec) : Q := (fst k + snd k) / 2 * pint (pderiv (deflection L v)).

Definition when {A : Type} (o : option A) (x : Q) : Q := match o with None => 0 | Some _ => x end.
