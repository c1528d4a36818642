(** Analyses whose outcomes are in proportion, said with the outcomes alone. *)
From Coq Require Import List QArith.
From Verif Require Import Base LinAlg WinklerModel.
Local Open Scope Q_scope.

(** [x] belongs to the factor [s] and [y] to the factor [t] *)
Definition in_proportion (n : nat) (s t : Q) (x y : vec) : Prop := forall i, (i < n)%nat -> t * x i == s * y i.
Definition both_or_none {A : Type} (R : A -> A -> Prop) (x y : option A) : Prop :=
  match x, y with Some u, Some v => R u v | None, None => True | _, _ => False end.

(** Two analyses end alike: both with the same exception, or after the same number of passes, with displacements and reactions
    (NaN in both or in none), the displacements after every pass in proportion, and squared error and tolerance in proportion to
    the squares of the factors *)
Definition end_in_proportion (n : nat) (s t : Q) (a b : res outcome) : Prop :=
  match a, b with
  | Ok o, Ok o' => o_iter o = o_iter o' /\ both_or_none (in_proportion n s t) (o_d o) (o_d o') /\ both_or_none (in_proportion n s t) (o_Q o) (o_Q o') /\
      both_or_none (fun e e' => t * t * e == s * s * e') (o_err o) (o_err o') /\ both_or_none (fun e e' => t * t * e == s * s * e') (o_tol o) (o_tol o') /\
      Forall2 (in_proportion n s t) (o_hist o) (o_hist o')
  | Err e, Err e' => e = e'
  | _, _ => False
  end.
