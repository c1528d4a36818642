(** Specification vocabulary for the number of nodes of the mesh. *)
From Coq Require Import List ZArith QArith.
From Verif Require Import Base PileModel MeshModel MeshSpec.
Import ListNotations.
Local Open Scope Q_scope.

(** The elevations the mesh starts from: those asked for and, when some soil lies below the tip,
    the pile tip. *)
Definition wanted (p : list section) (bottom : Q) (soil : option (list layer)) (x2mesh : list Q) (y : Q) : Prop :=
  requested p bottom soil x2mesh y \/
  (y == bottom /\ exists ls l, soil = Some ls /\ In l ls /\ (l_top l < bottom \/ l_bottom l < bottom)).

(** [l] lists the elevations [w] from the top down, each once. *)
Definition lists (w : Q -> Prop) (l : list Q) : Prop :=
  strictly_descending l /\ forall y, contains l y <-> w y.

(** Two elevations of [w] with none between them. *)
Definition neighbours (w : Q -> Prop) (a b : Q) : Prop :=
  w a /\ w b /\ b < a /\ forall y, b < y -> y < a -> ~ w y.

(** No two consecutive elevations are further apart than [c]. *)
Definition within (c : Q) (l : list Q) : Prop :=
  forall i u v, nth_error l i = Some u -> nth_error l (S i) = Some v -> u - v <= c.

(** [n] is the least number of equal parts of the length [s] that are no longer than [c]. *)
Definition parts (c s : Q) (n : nat) : Prop :=
  (1 <= n)%nat /\ s <= c * Qnat n /\ forall k, (1 <= k)%nat -> s <= c * Qnat k -> (n <= k)%nat.

(** The distances between consecutive elevations. *)
Fixpoint gaps (l : list Q) : list Q :=
  match l with a :: ((b :: _) as t) => (a - b) :: gaps t | _ => [] end.

Definition total (l : list nat) : nat := fold_right plus 0%nat l.
