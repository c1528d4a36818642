(** What the user may expect of a whole analysis, in terms of the boundary conditions given. *)
From Coq Require Import List Bool Arith QArith Qabs.
From Verif Require Import Base BCModel BCSpec PileModel PileSpec MeshModel MeshSpec StressSpec.
Import ListNotations.
Local Open Scope Q_scope.

(** No two conditions of one kind share a node. *)
Definition apart (nodes : list Q) (b b' : bc) : Prop :=
  bc_kind b = bc_kind b' -> forall i, maps_to nodes (bc_elev b) i -> ~ maps_to nodes (bc_elev b') i.
Definition separate (nodes : list Q) (l : list bc) : Prop := ForallOrdPairs (apart nodes) l.

(** The condition is given at the elevation of the node it is mapped to. *)
Definition at_node (nodes : list Q) (b : bc) : Prop :=
  exists i z, maps_to nodes (bc_elev b) i /\ nth_error nodes i = Some z /\ z == bc_elev b.

(** Loads are whole numbers of kN and kNm. *)
Definition whole_load (b : bc) : Prop := forall a q, get_axis a b = Some q -> exists k : Z, q == inject_Z k.

Definition component_of (a : axis) (b : bc) : Q := match get_axis a b with Some q => q | None => 0 end.
Definition is_load (b : bc) : bool := match bc_kind b with Force => true | _ => false end.
Definition loads (l : list bc) : list bc := filter is_load l.

(** Resultants of the loads given; moments about elevation [z0]. *)
Definition total_load (a : axis) (l : list bc) : Q := Qsum (map (component_of a) (loads l)).
Definition total_load_moment (z0 : Q) (l : list bc) : Q :=
  Qsum (map (fun b => component_of AX b + (z0 - bc_elev b) * component_of AY b) (loads l)).

(** Resultants of the rows (elevation, (axial, lateral, moment)) of a reaction table. *)
Definition rows_axial (rows : list (Q * (Q * Q * Q))) : Q := Qsum (map (fun r => fst (fst (snd r))) rows).
Definition rows_lateral (rows : list (Q * (Q * Q * Q))) : Q := Qsum (map (fun r => snd (fst (snd r))) rows).
Definition rows_moment (z0 : Q) (rows : list (Q * (Q * Q * Q))) : Q :=
  Qsum (map (fun r => snd (snd r) + (z0 - fst r) * snd (fst (snd r))) rows).

(** Axis [a] of node [i] is supported: a support or a non-zero displacement is given there. *)
Definition supported (nodes : list Q) (l : list bc) (i : nat) (a : axis) : Prop :=
  exists b q, In b l /\ (sends nodes Fixation i a b q \/ sends nodes Displacement i a b q).

(** The supports prevent every rigid-body motion of the pile. *)
Definition holds_pile (nodes : list Q) (l : list bc) : Prop :=
  (exists i, supported nodes l i AZ) /\
  (exists i, supported nodes l i AY /\
     ((exists j, supported nodes l j AX) \/ (exists j, j <> i /\ supported nodes l j AY))).

(** A section that has stiffness. *)
Definition stiff (s : section) : Prop := s_bottom s < s_top s /\ 0 < s_inertia s /\ 0 < s_area s /\ 0 < s_width s.

(** A pile [p] made of [sections], meshed into [m]: sections with stiffness, all elevations the mesh
    has to contain given to four decimals, layers and user elevations within the pile's height. *)
Record meshed (sections : list section) (soil : option (list layer)) (x2mesh : list Q) (c : Q) (p : list section) (t b : Q) (m : list Q) : Prop := {
  md_stiff : forall s, In s sections -> stiff s;
  md_pile : make_pile sections = Ok p;
  md_top : pile_top p = Ok t;
  md_bottom : pile_bottom p = Ok b;
  md_c : 0.01 <= c;
  md_mesh : mesh p b soil x2mesh c = Some m;
  md_grid : forall y, requested p b soil x2mesh y -> four_decimals y;
  md_soil : forall ls y, soil = Some ls -> In y ls -> l_top y <= t /\ l_bottom y <= t;
  md_x : forall y, In y x2mesh -> b <= y /\ y <= t }.
