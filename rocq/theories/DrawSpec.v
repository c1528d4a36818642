(** What a reader of the plots may expect, independently of how they are drawn. *)
From Coq Require Import String List Bool Arith QArith Qabs Qminmax.
From Verif Require Import Base BCModel BCSpec PileModel DrawModel.
Import ListNotations.
Local Open Scope Q_scope.

(** The height of the mesh and the largest load on an axis. *)
Definition spans (z : list Q) (L : Q) : Prop :=
  exists a b, In a z /\ In b z /\ (forall q, In q z -> b <= q <= a) /\ L == a - b.
Definition largest_of (loads : list Q) (M : Q) : Prop :=
  (exists q, In q loads /\ Qabs q == M) /\ forall q, In q loads -> Qabs q <= M.

(** A bent arrow: arc3 draws a quadratic curve whose middle control point is the middle of the two ends
    moved by the bend times the chord turned clockwise. *)
Definition control (A : arrow) (bend : Q) : point :=
  let '(x1, y1) := ar_from A in let '(x2, y2) := ar_to A in
  ((x1 + x2) / 2 + bend * (y2 - y1), (y1 + y2) / 2 - bend * (x2 - x1)).
(** Twice the area swept to the left of the way from tail over the control point to the head:
    positive when the arrow runs counterclockwise. *)
Definition sweep (A : arrow) (bend : Q) : Q :=
  let c := control A bend in
  (fst c - fst (ar_from A)) * (snd (ar_to A) - snd c) - (snd c - snd (ar_from A)) * (fst (ar_to A) - fst c).

(** An arrow shows the load [q] on axis [a] at elevation [z]: forces point their way, with a length of
    a tenth of the pile for the largest load; moments turn their way around the node.  An axial force ends at its
    node, at the tip it starts there; the arrow of a moment runs to the right, at the tip to the left. *)
Definition shows (tip : bool) (L M : Q) (a : axis) (z q : Q) (A : arrow) : Prop :=
  match a with
  | AY => ar_bend A = None /\ ar_to A = (0, z) /\ snd (ar_from A) = z /\
          (fst (ar_to A) - fst (ar_from A)) * M == 0.1 * L * q
  | AZ => ar_bend A = None /\ fst (ar_from A) = 0 /\ fst (ar_to A) = 0 /\
          snd (if tip then ar_from A else ar_to A) = z /\
          (snd (ar_to A) - snd (ar_from A)) * M == 0.1 * L * q
  | AX => exists bend, ar_bend A = Some bend /\ snd (ar_from A) = z /\ snd (ar_to A) = z /\
          fst (ar_from A) + fst (ar_to A) == 0 /\
          (0 < L -> if tip then fst (ar_to A) < fst (ar_from A) else fst (ar_from A) < fst (ar_to A)) /\
          Qabs (fst (ar_to A) - fst (ar_from A)) * M == (2 # 15) * L * Qabs q /\
          (0 < L -> (0 < q <-> 0 < sweep A bend) /\ (q < 0 <-> sweep A bend < 0))
  end.

(** The mark of a support of axis [a] at node [i] of [n]. *)
Definition mark_of (n : nat) (a : axis) (i : nat) : marker :=
  match a with
  | AY => CaretRight | AX => SquareMark
  | AZ => if Nat.eqb (S i) n then CaretUp else CaretDown
  end.

Definition inside (lim : Q * Q) (x : Q) : Prop := fst lim <= x /\ x <= snd lim.
Definition visible (g : picture) (p : point) : Prop := inside (g_xlim g) (fst p) /\ inside (g_ylim g) (snd p).

(** The elevation lies in a box. *)
Definition in_box (b : box) (p : point) : Prop :=
  bx_x b <= fst p <= bx_x b + bx_width b /\ bx_y b <= snd p <= bx_y b + bx_height b.
