(** Specification vocabulary for element properties, overburden and weights. *)
From Coq Require Import List Bool ZArith QArith Qabs Qminmax Permutation Sorted.
From Verif Require Import Base PileModel PileSpec MeshModel MeshSpec StressModel.
Import ListNotations.
Local Open Scope Q_scope.

(** Length of the elevation interval from [a] up to [b]. *)
Definition height (a b : Q) : Q := Qmax 0 (b - a).

(** Thickness of the layer above elevation [z] that is above / below the water line. *)
Definition dry_above (water z : Q) (l : layer) : Q := height (Qmax (Qmax z (l_bottom l)) water) (l_top l).
Definition wet_above (water z : Q) (l : layer) : Q := height (Qmax z (l_bottom l)) (Qmin (l_top l) water).

(** Effective overburden at elevation [z]: unit weight times thickness, less 10 under water,
    over all layers, whatever their order. *)
Definition overburden (layers : list layer) (water z : Q) : Q :=
  Qsum (map (fun l => l_weight l * dry_above water z l + (l_weight l - 10) * wet_above water z l) layers).

(** Layers listed from the ground down, meeting exactly. *)
Fixpoint exact_stack (ground : Q) (d : list layer) : Prop :=
  match d with
  | [] => True
  | l :: t => l_top l == ground /\ l_bottom l < l_top l /\ exact_stack (l_bottom l) t
  end.

Fixpoint stack_bottom (ground : Q) (d : list layer) : Q :=
  match d with [] => ground | l :: t => stack_bottom (l_bottom l) t end.

(** Elements listed from top to bottom, each starting where the previous ends, positive length. *)
Fixpoint chain (top : Q) (elems : list (Q * Q)) : Prop :=
  match elems with
  | [] => True
  | e :: t => fst e == top /\ snd e < fst e /\ chain (snd e) t
  end.

(** No element has [z] strictly inside. *)
Definition respected (elems : list (Q * Q)) (z : Q) : Prop :=
  forall e, In e elems -> z <= snd e \/ fst e <= z.

(** [rows] is the data in ascending order of the key. *)
Definition ascending_of {A : Type} (rows data : list (Q * A)) : Prop :=
  Permutation rows data /\ StronglySorted (fun a b => fst a <= fst b) rows.

(** The element lies in the section. *)
Definition in_section (s : section) (e : Q * Q) : Prop := s_bottom s <= snd e /\ snd e < fst e /\ fst e <= s_top s.

Definition nan_le (a b : option Q) : Prop := exists x y, a = Some x /\ b = Some y /\ x <= y.

(** Trapezoidal integral of the friction over the elements with the given heights. *)
Fixpoint trapezoid (f : list (Q * Q)) (h : list Q) : Q :=
  match f, h with
  | (a, b) :: f', x :: h' => (Qabs a + Qabs b) / 2 * x + trapezoid f' h'
  | _, _ => 0
  end.

Definition nan_eq (a b : option Q) : Prop :=
  match a, b with Some x, Some y => x == y | None, None => True | _, _ => False end.


(** A number with at most four decimals. *)
Definition four_decimals (y : Q) : Prop := exists k : Z, y == inject_Z k / 10000.

(** The water line is one of the elevations, or lies above or below all of them. *)
Definition water_at (elevation : Q -> Prop) (water : Q) : Prop :=
  elevation water \/ (forall y, elevation y -> y <= water) \/ (forall y, elevation y -> water <= y).

(** Height that a section and a layer share above / below the water line. *)
Definition overlap_dry (water : Q) (s : section) (l : layer) : Q :=
  height (Qmax (Qmax (s_bottom s) (l_bottom l)) water) (Qmin (s_top s) (l_top l)).

Definition overlap_wet (water : Q) (s : section) (l : layer) : Q :=
  height (Qmax (s_bottom s) (l_bottom l)) (Qmin (Qmin (s_top s) (l_top l)) water).

(** Friction given at the nodes, as pairs for the elements. *)
Fixpoint nodal (phi : list Q) : list (Q * Q) :=
  match phi with
  | a :: ((b :: _) as t) => (a, b) :: nodal t
  | _ => []
  end.

(** Heights between consecutive elevations. *)
Fixpoint diffs (z : list Q) : list Q :=
  match z with
  | a :: ((b :: _) as t) => (a - b) :: diffs t
  | _ => []
  end.
