(** Independent statements about axial springs. *)
From Coq Require Import List Reals.
From Verif Require Import ConicSpec.
Import ListNotations.
Local Open Scope R_scope.

(** The API table of mobilised friction in clay: displacement over diameter, fraction of the peak. *)
Definition api_clay_points : list (R * R) := [(0, 0); (0.0016, 0.3); (0.0031, 0.5); (0.0057, 0.75); (0.0080, 0.90); (0.0100, 1.00)].
(** The API table of mobilised end bearing. *)
Definition api_tip_points : list (R * R) := [(0, 0); (0.002, 0.25); (0.013, 0.50); (0.042, 0.75); (0.073, 0.90); (0.100, 1.00)].
(** In sand, the standard mobilises the full friction at 0.1 inch, 2.54 mm. *)
Definition api_sand_peak_displacement : R := 0.00254.

(** A point of a discretised curve. *)
Definition has_point (z t : list R) (p : R * R) : Prop := In p (combine z t).

(** API adhesion in clay, for positive stress: the friction is the lesser of the geometric mean of strength
    and stress with the API weights, halved, and of the limit times the strength. *)
Definition clay_friction (sig Su limit : R) : R :=
  Rmin (0.5 * (if Rle_dec Su sig then Rpower Su 0.5 * Rpower sig 0.5 else Rpower Su 0.75 * Rpower sig 0.25)) (limit * Su).

(** Perimeter over which soil slides along the pile when it behaves plugged or not. *)
Definition sliding_perimeter (plugged : bool) (cin cout : R) : R := if plugged then cout else cout + cin.

(** API limits of unit friction and of end bearing in sand by friction angle (kPa): soils up to the given
    interface angle (degrees) do not exceed the value. *)
Definition api_friction_limits : list (R * R) := [(15, 47.8); (20, 67); (25, 81.3); (30, 95.7); (35, 114.8)].
Definition api_bearing_limits : list (R * R) := [(15, 1900); (20, 2900); (25, 4800); (30, 9600); (35, 12000)].
(** Greatest and least value of a curve. *)
Definition is_max (x : R) (l : list R) : Prop := In x l /\ forall v, In v l -> v <= x.
Definition is_min (x : R) (l : list R) : Prop := In x l /\ forall v, In v l -> x <= v.
