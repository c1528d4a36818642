(** Pile sections, piles, layers and soil profiles.  Models src/openpile/construct.py 82-757.
    Floats are exact rationals; [math.pi] is the rational value of the Python constant. *)
From Coq Require Import List Bool Arith ZArith QArith Qabs Qminmax.
From Verif Require Import Base.
Import ListNotations.
Local Open Scope Q_scope.

(** math.pi = 0x1.921fb54442d18p+1, exactly this rational. *)
Definition mpi : Q := 884279719003555 # 281474976710656.

(** construct.py 82-145: the abstract PileSection, seen through its properties. *)
Record section : Type := mkSection {
  s_top : Q;        (* top_elevation *)
  s_bottom : Q;     (* bottom_elevation *)
  s_width : Q;
  s_area : Q;
  s_inertia : Q;    (* second_moment_of_area *)
  s_entrapped : Q;  (* entrapped_area *)
  s_outer : Q;      (* outer_perimeter *)
  s_inner : Q;      (* inner_perimeter *)
  s_footprint : Q
}.

(** construct.py 192-194: length. *)
Definition s_length (s : section) : Q := s_top s - s_bottom s.

(** construct.py 170-174: get_proper_thickness. *)
Definition proper_thickness (d : Q) (t : option Q) : Q :=
  match t with Some w => w | None => d / 2 end.

(** construct.py 196-228: the geometric properties of a circular section of diameter [d] and
    wall thickness [t]. *)
Definition circ_area (d t : Q) : Q := (d^2 - (d - 2 * t)^2) * mpi / 4.
Definition circ_entrapped (d t : Q) : Q := (d - 2 * t)^2 * mpi / 4.
Definition circ_outer (d : Q) : Q := d * mpi.
Definition circ_inner (d t : Q) : Q := (d - 2 * t) * mpi.
Definition circ_footprint (d : Q) : Q := d^2 * mpi / 4.
Definition circ_inertia (d t : Q) : Q := (d^4 - (d - 2 * t)^4) * mpi / 64.
Definition circ_volume (d t len : Q) : Q := circ_area d t * len.
Definition circ_entrapped_volume (d t len : Q) : Q := len * (d - 2 * t)^2 * mpi / 4.

(** construct.py 165-182: constructing a CircularPileSection; the field constraints
    (diameter > 0, thickness > 0 when given) come first, then the elevation check. *)
Definition circular (top bottom d : Q) (t : option Q) : res section :=
  if negb (Qltb 0 d) then Err ValueError
  else if match t with Some w => negb (Qltb 0 w) | None => false end then Err ValueError
  else if Qle_bool top bottom then Err ValueError
  else let w := proper_thickness d t in
       Ok (mkSection top bottom d (circ_area d w) (circ_inertia d w) (circ_entrapped d w)
                     (circ_outer d) (circ_inner d w) (circ_footprint d)).

(** Python's [sorted(l, key=...)] is stable; insertion keeps the order of equal keys. *)
Fixpoint insert_by {A : Type} (key : A -> Q) (x : A) (l : list A) : list A :=
  match l with
  | [] => [x]
  | h :: t => if Qle_bool (key x) (key h) then x :: l else h :: insert_by key x t
  end.

Fixpoint sort_by {A : Type} (key : A -> Q) (l : list A) : list A :=
  match l with
  | [] => []
  | h :: t => insert_by key h (sort_by key t)
  end.

(** construct.py 296-305: the loop over enumerate(self.sections). *)
Fixpoint connected (l : list section) : bool :=
  match l with
  | s :: ((s' :: _) as t) => Qeq_bool (s_top s') (s_bottom s) && connected t
  | _ => true
  end.

(** construct.py 286-306: building a Pile from its sections; the result is the stored
    (sorted) list of sections. *)
Definition make_pile (l : list section) : res (list section) :=
  if Nat.eqb (length l) 0 then Err ValueError
  else let s := sort_by (fun x => - s_top x) l in
       if connected s then Ok s else Err ValueError.

(** construct.py 316-318, 363-368, 370-375: elevations and length; sections[0], sections[-1]
    (the error branch is unreachable for accepted piles). *)
Definition pile_top (p : list section) : res Q :=
  match p with s :: _ => Ok (s_top s) | [] => Err IndexError end.

Definition last_section (p : list section) : res section :=
  match rev p with s :: _ => Ok s | [] => Err IndexError end.

Definition pile_bottom (p : list section) : res Q := bind (last_section p) (fun s => Ok (s_bottom s)).

Definition pile_length (p : list section) : res Q :=
  bind (pile_top p) (fun t => bind (pile_bottom p) (fun b => Ok (t - b))).

Definition Qsum (l : list Q) : Q := fold_right Qplus 0 l.

(** construct.py 377-389: volume and weight. *)
Definition pile_volume (p : list section) : Q := Qsum (map (fun s => s_area s * s_length s) p).
Definition pile_weight (unitweight : Q) (p : list section) : Q := pile_volume p * unitweight.

(** construct.py 405-413: tip area and tip footprint. *)
Definition tip_area (p : list section) : res Q := bind (last_section p) (fun s => Ok (s_area s)).
Definition tip_footprint (p : list section) : res Q := bind (last_section p) (fun s => Ok (s_footprint s)).

(** construct.py 415-424: inner_volume. *)
Definition inner_volume (p : list section) : Q :=
  Qsum (map (fun s => s_entrapped s * (s_top s - s_bottom s)) p).

(** construct.py 426-472: create_tubular. *)
Definition create_tubular (top bottom d wt : Q) : res (list section) :=
  bind (circular top bottom d (Some wt)) (fun s => make_pile [s]).

(** ** Layers and soil profiles *)

(** construct.py 530-545: a Layer; the soil models are not part of this record. *)
Record layer : Type := mkLayer { l_top : Q; l_bottom : Q; l_weight : Q }.

(** construct.py 537 (weight > 10) and 555-560 (top > bottom). *)
Definition make_layer (top bottom weight : Q) : res layer :=
  if negb (Qltb 10 weight) then Err ValueError
  else if negb (Qltb bottom top) then Err ValueError
  else Ok (mkLayer top bottom weight).

(** math.isclose(a, b, abs_tol=0.001) with rel_tol = 1e-9. *)
Definition m_isclose (a b : Q) : bool :=
  Qle_bool (Qabs (a - b)) (Qmax ((1 # 1000000000) * Qmax (Qabs a) (Qabs b)) 0.001).

(** construct.py 659-664: argsort of the tops, then both arrays reversed.  numpy's default
    argsort is insertion sort (stable) up to 16 entries; ties keep the given order before the
    reversal.  Beyond 16 entries the order of exact ties is unspecified by numpy. *)
Definition layers_down (l : list layer) : list layer := rev (sort_by l_top l).

(** construct.py 670-672. *)
Fixpoint stacked (l : list layer) : bool :=
  match l with
  | a :: ((b :: _) as t) => m_isclose (l_top b) (l_bottom a) && stacked t
  | _ => true
  end.

(** construct.py 656-674: check_layers_elevations; an empty list raises IndexError at
    top_sorted[0]. *)
Definition make_profile (ground : Q) (l : list layer) : res (list layer) :=
  match layers_down l with
  | [] => Err IndexError
  | a :: _ => if negb (Qeq_bool (l_top a) ground) then Err ValueError
              else if stacked (layers_down l) then Ok l else Err ValueError
  end.

(** construct.py 752-757: bottom_elevation. *)
Definition profile_bottom (ground : Q) (l : list layer) : Q :=
  ground - Qsum (map (fun x => Qabs (l_top x - l_bottom x)) l).
