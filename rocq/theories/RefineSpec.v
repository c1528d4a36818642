(** Specification vocabulary for mesh independence of the beam analysis. *)
From Coq Require Import List Bool Arith QArith.
From Verif Require Import Base LinAlg BeamModel SolveModel.
Import ListNotations.
Local Open Scope Q_scope.

(** Shear compliance per unit length, with the shear coefficient as the code uses it (C59). *)
Definition shear_flex (ty : elem_type) (E nu A d wt : Q) : Q :=
  match ty with EulerBernoulli => 0 | Timoshenko => tube_kappa nu d wt / (A * (E / (2 * (1 + nu)))) end.

(** Supports at the three degrees of freedom of the last node and nowhere else. *)
Definition tip_only (n : nat) (restrained : nat -> bool) : Prop :=
  forall i, (i < 3 * n + 3)%nat -> restrained i = (3 * n <=? i)%nat.

(** A node inserted in element [m]: between nodes [m] and [S m]. *)
Definition ins {T} (m : nat) (x : T) (f : nat -> T) : nat -> T := fun a => if (a <=? m)%nat then f a else if (a =? S m)%nat then x else f (a - 1)%nat.
Definition cut {T} (m : nat) (p : nat -> T) : nat -> T := fun e => if (e <=? m)%nat then p e else p (e - 1)%nat.
Definition ins3 {T} (m : nat) (x : nat -> T) (f : nat -> T) : nat -> T := fun i =>
  if (i <? 3 * S m)%nat then f i else if (i <? 3 * S (S m))%nat then x (i - 3 * S m)%nat else f (i - 3)%nat.

(** The input of an analysis: elements with their sections, elevations of the nodes, loads,
    prescribed displacements and supports. *)
Record job := { j_n : nat; j_I : nat -> Q; j_A : nat -> Q; j_d : nat -> Q; j_wt : nat -> Q; j_z : nat -> Q; j_F : vec; j_U : vec; j_r : nat -> bool }.

Definition proper (ty : elem_type) (c : bool) (E nu : Q) (j : job) (k : nat -> mat) : Prop :=
  forall e, (e < j_n j)%nat -> 0 < j_I j e /\ 0 < j_A j e /\ 0 < j_d j e /\ j_z j (S e) < j_z j e /\
     elem_mech ty c E nu (j_I j e) (j_A j e) (j_d j e) (j_wt j e) (j_z j e - j_z j (S e)) = Ok (k e).

Definition analysed (solve : solver) (ty : elem_type) (c : bool) (E nu : Q) (j : job) (d Q : vec) : Prop :=
  exists k q, proper ty c E nu j k /\ beam solve (j_n j) k (j_F j) (j_U j) (j_r j) = Some (d, Q, q).

(** A node at elevation [x] inside element [m], without load or support. *)
Definition insert_node (m : nat) (x : Q) (j : job) : job := {|
  j_n := S (j_n j); j_I := cut m (j_I j); j_A := cut m (j_A j); j_d := cut m (j_d j); j_wt := cut m (j_wt j); j_z := ins m x (j_z j);
  j_F := ins3 m (fun _ => 0) (j_F j); j_U := ins3 m (fun _ => 0) (j_U j); j_r := ins3 m (fun _ => false) (j_r j) |}.

Definition shift (m a : nat) : nat := if (a <=? m)%nat then a else S a.

(** Any number of insertions; [g] says where each node of the first mesh is in the second. *)
Inductive refines (j : job) : job -> (nat -> nat) -> Prop :=
| refines_same : refines j j (fun a => a)
| refines_insert : forall j' g m x, refines j j' g -> (m < j_n j')%nat -> j_z j' (S m) < x -> x < j_z j' m ->
    refines j (insert_node m x j') (fun a => shift m (g a)).
