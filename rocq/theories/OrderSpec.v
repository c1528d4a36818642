(** Specification for C139: two lists of x2mesh elevations that ask for the same nodes. *)
From Coq Require Import List QArith.
From Verif Require Import Base PileModel MeshSpec.
Import ListNotations.
Local Open Scope Q_scope.

(** An elevation the mesh has a node at for any x2mesh: an end of a pile section, or an end of a soil
    layer that is not below the pile. *)
Definition border (sections : list section) (layers : list layer) (y : Q) : Prop :=
  (exists s, In s sections /\ (y == s_top s \/ y == s_bottom s)) \/
  (exists l, In l layers /\ (y == l_top l \/ y == l_bottom l) /\ exists s, In s sections /\ s_bottom s <= y).

(** The two lists differ in order, in repetitions and in borders only. *)
Definition same_requests (sections : list section) (layers : list layer) (x x' : list Q) : Prop :=
  forall y, (contains x y -> contains x' y \/ border sections layers y) /\ (contains x' y -> contains x y \/ border sections layers y).
