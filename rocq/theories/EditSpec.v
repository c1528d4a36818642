(** What the user may expect of a model whose fields are assigned to. *)
From Coq Require Import List Bool Arith QArith.
From Verif Require Import Base SpringModel WinklerModel BCModel PileModel MeshModel BeamModel CreateModel WholeModel FullModel EditModel.
Import ListNotations.
Local Open Scope Q_scope.

(** Assignments to the fields that the mesh is made of *)
Definition mesh_field (o : op) : bool := match o with APile _ _ _ _ | ASoil _ | AX2mesh _ | ACoarse _ => true | _ => false end.
(** Operations that may look at the mesh *)
Definition looks (o : op) : bool := match o with ReadNodes | ReadElems | Solve => true | _ => false end.

(** Both tables are those of one mesh *)
Definition tables_of (m : list Q) (ob : object) : Prop := ob_nodes ob = Some (nodes_of m) /\ ob_elems ob = Some (elements_of m).

(** Element [i] reaches from node [i] to node [i + 1] *)
Definition joined (z : list Q) (es : list (Q * Q)) : Prop :=
  length z = S (length es) /\ forall i, (i < length es)%nat -> fst (nth i es (0, 0)) = nth i z 0 /\ snd (nth i es (0, 0)) = nth (S i) z 0.

(** The same operation, but for the soil (not: whether there is one) and the fineness of the mesh *)
Inductive alike : op -> op -> Prop :=
| alike_same : forall o, alike o o
| alike_soil : forall s s', alike (ASoil (Some s)) (ASoil (Some s'))
| alike_x : forall x x', alike (AX2mesh x) (AX2mesh x')
| alike_coarse : forall c c', alike (ACoarse c) (ACoarse c').

(** [o'] switches springs off *)
Definition fewer (o' o : options) : Prop :=
  (on_py o' = true -> on_py o = true) /\ (on_mt o' = true -> on_mt o = true) /\ (on_hb o' = true -> on_hb o = true) /\
  (on_mb o' = true -> on_mb o = true) /\ (on_tz o' = true -> on_tz o = true) /\ (on_qz o' = true -> on_qz o = true).

(** The values after a program *)
Definition type_after (l : list op) (ty : elem_type) : elem_type := fold_left (fun ty o => match o with AType ty' => ty' | _ => ty end) l ty.
Definition material_after (l : list op) (m : Q * Q) : Q * Q := fold_left (fun m o => match o with AMaterial E nu => (E, nu) | _ => m end) l m.
Definition options_after (l : list op) (on : options) : options := fold_left (fun on o => match o with AOptions on' => on' | _ => on end) l on.
Definition calls_in (l : list op) : list call := flat_map (fun o => match o with Call c => [c] | _ => [] end) l.

(** The answer to Solve shows the result [r] of an analysis; when [r] is an exception it is raised *)
Definition shows (r : res (option outcome)) (a : answer) : Prop := a = Winkler r \/ exists e, r = Err e /\ a = Raised e.
Definition shows_beam (r : res (option tables)) (a : answer) : Prop := a = Beam r \/ exists e, r = Err e /\ a = Raised e.
