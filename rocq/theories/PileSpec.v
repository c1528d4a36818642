(** Specification vocabulary for piles and soil profiles. *)
From Coq Require Import List Bool QArith Qabs Permutation.
From Verif Require Import Base PileModel.
Import ListNotations.
Local Open Scope Q_scope.

(** The section occupies the elevations in (bottom, top]. *)
Definition occupies (s : section) (z : Q) : Prop := s_bottom s < z /\ z <= s_top s.

(** Number of sections that occupy an elevation. *)
Definition occupied (l : list section) (z : Q) : nat :=
  length (filter (fun s => Qltb (s_bottom s) z && Qle_bool z (s_top s)) l).

(** The sections fill (b, t] without gap and without overlap, and nothing else. *)
Definition tiles_interval (l : list section) (t b : Q) : Prop :=
  forall z, (b < z /\ z <= t -> occupied l z = 1%nat) /\
            (~ (b < z /\ z <= t) -> occupied l z = 0%nat).

(** Sections as the section constructor returns them. *)
Definition proper (l : list section) : Prop := forall s, In s l -> s_bottom s < s_top s.

(** Layers as the layer constructor returns them. *)
Definition proper_layers (l : list layer) : Prop := forall x, In x l -> l_bottom x < l_top x.

(** Closeness of math.isclose, in words: within 1 mm or within 1e-9 relative. *)
Definition near (a b : Q) : Prop :=
  Qabs (a - b) <= 0.001 \/ Qabs (a - b) <= (1 # 1000000000) * Qabs a \/
  Qabs (a - b) <= (1 # 1000000000) * Qabs b.

(** The layers, listed from the ground down, follow each other. *)
Definition follow (l : list layer) : Prop :=
  forall i a b, nth_error l i = Some a -> nth_error l (S i) = Some b -> near (l_top b) (l_bottom a).

(** Listed by non-increasing top elevation. *)
Definition descending (l : list layer) : Prop :=
  forall i j a b, (i < j)%nat -> nth_error l i = Some a -> nth_error l j = Some b -> l_top b <= l_top a.

(** [l] can be listed from the ground down as a stack of layers. *)
Definition stack_of (ground : Q) (l d : list layer) : Prop :=
  Permutation l d /\ descending d /\ follow d /\ exists a t, d = a :: t /\ l_top a == ground.

(** No two layers have the same top elevation. *)
Definition distinct_tops (l : list layer) : Prop :=
  forall i j a b, nth_error l i = Some a -> nth_error l j = Some b -> l_top a == l_top b -> i = j.

(** Bottom of the lowest layer of the stack. *)
Definition lowest_bottom (l : list layer) (b : Q) : Prop :=
  (exists x, In x l /\ l_bottom x == b) /\ forall x, In x l -> b <= l_bottom x.
