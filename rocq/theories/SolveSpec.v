(** Specification vocabulary for linear systems and equilibrium. *)
From Coq Require Import List Bool Arith QArith Qabs.
From Verif Require Import LinAlg.
Import ListNotations.
Local Open Scope Q_scope.

(** What numpy.linalg.solve guarantees in exact arithmetic: the answer solves the system, and it
    fails exactly on singular matrices.  The two functions given may differ outside the index range. *)
Definition nonsingular (n : nat) (A : mat) : Prop :=
  forall v, (forall i, (i < n)%nat -> mulv n A v i == 0) -> forall i, (i < n)%nat -> v i == 0.

Definition solver_ok (solve : nat -> mat -> vec -> option vec) : Prop :=
  (forall n A b x, solve n A b = Some x -> forall i, (i < n)%nat -> mulv n A x i == b i) /\
  (forall n A b, (exists x, solve n A b = Some x) <-> nonsingular n A).

(** No motion is possible without deforming the system when the supports are held. *)
Definition stable (n : nat) (K : mat) (restr : nat -> bool) : Prop :=
  forall v, (forall i, (i < n)%nat -> restr i = true -> v i == 0) ->
            (forall i, (i < n)%nat -> restr i = false -> mulv n K v i == 0) ->
            forall i, (i < n)%nat -> v i == 0.

Definition veq (n : nat) (u v : vec) : Prop := forall i, (i < n)%nat -> u i == v i.

(** Displacements of element [e]. *)
Definition elem_disp (u : vec) (e : nat) : vec := fun i => u (3 * e + i)%nat.

(** Force that element end forces [q] exert on global degree of freedom [g]. *)
Definition scatter (e : nat) (q : vec) (g : nat) : Q :=
  if ((3 * e <=? g) && (g <? 3 * e + 6))%nat then q (g - 3 * e)%nat else 0.

(** Node [a]'s net nodal forces, axial, lateral and moment; resultants at a section just below node
    [e], the forces above it carried to elevation [z e]. *)
Definition axial_above (R : vec) (e : nat) : Q := sum (S e) (fun a => R (3 * a)%nat).
Definition shear_above (R : vec) (e : nat) : Q := sum (S e) (fun a => R (3 * a + 1)%nat).
Definition moment_above (z : nat -> Q) (R : vec) (e : nat) (at_z : Q) : Q :=
  sum (S e) (fun a => R (3 * a + 2)%nat - (z a - at_z) * R (3 * a + 1)%nat).

(** What an element of length [L] has to satisfy: its end forces are in equilibrium. *)
Definition elem_equilibrium (L : Q) (k : mat) : Prop :=
  forall u, let f := mulv 6 k u in f 0%nat + f 3%nat == 0 /\ f 1%nat + f 4%nat == 0 /\ f 2%nat + f 5%nat + L * f 4%nat == 0.

(** What makes it a beam: only rigid-body motions leave it undeformed, and they do. *)
Definition elem_deforms (L : Q) (k : mat) : Prop :=
  symmetric 6 k /\ psd 6 k /\
  (forall a v t i, (i < 6)%nat -> mulv 6 k (of_list [a; v; t; a; v + L * t; t]) i == 0) /\
  (forall u, energy 6 k u == 0 -> u 3%nat == u 0%nat /\ u 5%nat == u 2%nat /\ u 4%nat == u 1%nat + L * u 2%nat).

(** Supports of a pile with [n] + 1 nodes that prevent every rigid-body motion. *)
Definition held (n : nat) (r : nat -> bool) : Prop :=
  (exists a, (a <= n)%nat /\ r (3 * a)%nat = true) /\
  (exists a, (a <= n)%nat /\ r (3 * a + 1)%nat = true /\
     ((exists b, (b <= n)%nat /\ r (3 * b + 2)%nat = true) \/
      (exists b, (b <= n)%nat /\ b <> a /\ r (3 * b + 1)%nat = true))).

Definition eq3 (p q : Q * Q * Q) : Prop :=
  let '(a, b, c) := p in let '(a', b', c') := q in a == a' /\ b == b' /\ c == c'.
