(** What piles and models report about themselves: openpile/materials.py 60-127 (materials),
    openpile/construct.py 228-474 (Pile), 979-1003 and 1860-1923 (Model fields and Model.create),
    1302-1340 (warnings about springs), 1356-1396 (elevations), 1727-1804 (base spring tables);
    openpile/core/_model_build.py 127-131 (check_springs); openpile/core/txt.py 4-30;
    openpile/core/validation.py 22-41; openpile/core/misc.py 111-149 (node numbers).
    A table is the list of its rows; its printed layout is not modelled. *)
From Coq Require Import String List Bool Arith ZArith QArith Qabs Qminmax.
From Verif Require Import Base PileModel MeshModel.
Import ListNotations.
Local Open Scope Q_scope.

(** ** Materials *)

(** materials.py 60-84 *)
Record material := mkMaterial { m_name : string; m_uw : Q; m_E : Q; m_nu : Q }.

(** materials.py 78-84: the field constraints; pydantic's ValidationError is a ValueError *)
Definition make_material (name : string) (uw E nu : Q) : res material :=
  if (String.length name <? 1)%nat || (20 <? String.length name)%nat then Err ValueError
  else if Qle_bool uw 0 then Err ValueError
  else if Qle_bool E 0 then Err ValueError
  else if Qle_bool nu (-1) || Qltb (1#2) nu then Err ValueError
  else Ok (mkMaterial name uw E nu).

(** materials.py 101-123; [None]: the name is not given *)
Definition custom (uw E nu : Q) (name : option string) : res material :=
  make_material (match name with Some s => s | None => "Custom"%string end) uw E nu.

(** materials.py 126-127 *)
Definition steel : material := mkMaterial "Steel" 78 210000000 (3#10).
Definition concrete : material := mkMaterial "Concrete" 24 30000000 (2#10).

(** materials.py 86-99 *)
Definition m_shear (m : material) : Q := m_E m / (2 + 2 * m_nu m).

(** construct.py 237: Union[Literal["Steel", "Concrete"], PileMaterial] *)
Inductive material_arg := Named (s : string) | Given (m : material).

(** construct.py 237 and 308-314: a string outside the literal is refused by the field; comparing
    a PileMaterial with a string gives False *)
Definition pile_material (a : material_arg) : res material :=
  match a with
  | Named s => if String.eqb s "Steel" then Ok steel else if String.eqb s "Concrete" then Ok concrete else Err ValueError
  | Given m => Ok m
  end.

(** ** Piles: construct.py 228-474 *)

(** A stored section: its properties, and its wall thickness when it is a CircularPileSection *)
Record psection := mkPS { ps_sec : section; ps_wall : option Q }.

(** construct.py 148-182: a circular section as the constructor leaves it *)
Definition circular_section (top bottom d : Q) (t : option Q) : res psection :=
  bind (circular top bottom d t) (fun s => Ok (mkPS s (Some (proper_thickness d t)))).

(** construct.py 320-337: Pile.data, two rows for each section *)
Record row := mkRow { r_z : Q; r_width : Q; r_area : Q; r_I : Q; r_entrapped : Q; r_outer : Q; r_inner : Q }.
Definition row_of (s : section) (z : Q) : row :=
  mkRow z (s_width s) (s_area s) (s_inertia s) (s_entrapped s) (s_outer s) (s_inner s).
Definition pile_data (p : list section) : list row :=
  flat_map (fun s => [row_of s (s_top s); row_of s (s_bottom s)]) p.

(** construct.py 474-479: the else branch evaluates a string and returns nothing *)
Definition is_circular (x : psection) : bool := match ps_wall x with Some _ => true | None => false end.
Definition shape (p : list psection) : option string :=
  if forallb is_circular p then Some "Circular"%string else None.

(** construct.py 338-361: the table that is printed; the wall thickness of another kind of section
    does not exist *)
Record printed := mkPrinted { pr_z : Q; pr_width : Q; pr_wall : option Q; pr_area : Q; pr_I : Q }.
Definition thickness (x : psection) : res Q := match ps_wall x with Some w => Ok w | None => Err AttributeError end.
Definition printed_pair (x : psection) (w : option Q) : list printed :=
  let s := ps_sec x in [mkPrinted (s_top s) (s_width s) w (s_area s) (s_inertia s);
                        mkPrinted (s_bottom s) (s_width s) w (s_area s) (s_inertia s)].
Fixpoint str_circular (p : list psection) : res (list printed) :=
  match p with
  | [] => Ok []
  | x :: t => bind (thickness x) (fun w => bind (str_circular t) (fun r => Ok (printed_pair x (Some w) ++ r)))
  end.
Definition str_pile (p : list psection) : res (list printed) :=
  match shape p with
  | Some s => if String.eqb s "Circular" then str_circular p else Ok (flat_map (fun x => printed_pair x None) p)
  | None => Ok (flat_map (fun x => printed_pair x None) p)
  end.

(** The attributes of a Pile: its fields and what its class defines (construct.py 228-474), besides
    those inherited from pydantic's BaseModel, none of which is looked up below *)
Definition pile_attributes : list string :=
  ["name"; "sections"; "material"; "sections_must_be_provided"; "sections_must_not_overlap"; "check_materials";
   "top_elevation"; "data"; "bottom_elevation"; "length"; "volume"; "weight"; "G"; "E"; "tip_area";
   "tip_footprint"; "inner_volume"; "create_tubular"; "shape"]%string.
Definition attribute (name : string) : res unit :=
  if existsb (String.eqb name) pile_attributes then Ok tt else Err AttributeError.

(** core/txt.py 18-30: the attributes of the pile looked up, in order; the text is built when all exist *)
Fixpoint look_up (l : list string) : res unit :=
  match l with [] => Ok tt | a :: t => bind (attribute a) (fun _ => look_up t) end.
Definition txt_pile (p : list psection) : res (list row) :=
  bind (look_up ["material"; "type"; "_young_modulus"; "material"; "material"; "data"]%string)
       (fun _ => Ok (pile_data (map ps_sec p))).

(** ** core/validation.py 22-41: [V] is any Python value, seen through isinstance *)
Inductive pyval := PyBool (b : bool) | PyInt (z : Z) | PyFloat (q : Q) | PyStr (s : string) | PyNone.
Definition is_str (v : pyval) : bool := match v with PyStr _ => true | _ => false end.
(** isinstance(True, int) is True *)
Definition is_number (v : pyval) : bool := match v with PyBool _ | PyInt _ | PyFloat _ => true | _ => false end.
Definition param_must_be (is_type : pyval -> bool) (v : pyval) : res unit := if is_type v then Ok tt else Err UserInputError.
Definition str_must_be_one_of (v : pyval) (accepted : list string) : res unit :=
  bind (param_must_be is_str v) (fun _ =>
  match v with
  | PyStr s => if existsb (String.eqb s) accepted then Ok tt else Err UserInputError
  | _ => Err UserInputError
  end).
Fixpoint numbers_in_list (l : list pyval) : res unit :=
  match l with [] => Ok tt | v :: t => if is_number v then numbers_in_list t else Err UserInputError end.

(** ** Warnings: _model_build.py 127-131, construct.py 1302-1340 *)

(** The entries of an array, [None] for NaN *)
Definition entries := list (option Q).
Definition check_springs (a : entries) : bool :=
  existsb (fun x => match x with None => true | Some _ => false end) a
  || existsb (fun x => match x with Some q => Qltb q 0 | None => false end) a.

Record arrays := mkArrays { a_py : entries; a_mt : entries; a_Hb : entries; a_Mb : entries; a_tz : entries; a_qz : entries }.
Inductive warning := WarnPy | WarnMt | WarnHb | WarnMb.
Definition turn (a : entries) : entries := map (option_map (fun q => q * (-1))) a.

(** what create_springs prints and returns, given the arrays it has filled *)
Definition finish (a : arrays) : list warning * arrays :=
  let a' := mkArrays (a_py a) (a_mt a) (a_Hb a) (a_Mb a) (turn (a_tz a)) (turn (a_qz a)) in
  ((if check_springs (a_py a') then [WarnPy] else []) ++ (if check_springs (a_mt a') then [WarnMt] else [])
   ++ (if check_springs (a_Hb a') then [WarnHb] else []) ++ (if check_springs (a_Mb a') then [WarnMb] else []), a').

(** ** Node numbers in spring tables *)

(** misc.py 111-112, 141-149: number and elevation of each row of a distributed or lumped table of
    [n] elements *)
Definition numbered (n : nat) (nodes : list Q) : list (nat * Q) :=
  combine (flat_map (fun i => [i; i]) (seq 0 (S n))) (flat_map (fun z => [z; z]) nodes).

(** construct.py 1736-1750 (also 1762-1776, 1789-1803): the rows of a base spring table *)
Record base_row := mkBase { b_node : nat; b_z : Q; b_type : string; b_val : list Q }.
Definition base_table (n : nat) (bottom : Q) (soil : bool) (types : string * string) (force disp : list Q) : option (list base_row) :=
  if soil then Some [mkBase (n + 1) bottom (fst types) force; mkBase (n + 1) bottom (snd types) disp] else None.

(** ** Model elevations: construct.py 1356-1396; soil: (top, water line, bottom) *)
Definition embedment (bottom : Q) (soil : option (Q * Q * Q)) : option Q :=
  match soil with None => None | Some (t, _, _) => Some (t - bottom) end.
Definition model_top (top : Q) (soil : option (Q * Q * Q)) : Q :=
  match soil with None => top | Some (t, w, _) => Qmax (Qmax top t) w end.
Definition model_bottom (bottom : Q) (soil : option (Q * Q * Q)) : Q :=
  match soil with None => bottom | Some (_, _, b) => Qmin bottom b end.

(** ** Model and Model.create: construct.py 979-1003, 1860-1923 *)

(** The settings of a model; plugging is None, False or True *)
Record settings := mkSettings { o_timoshenko : bool; o_x2mesh : list Q; o_coarseness : Q;
  o_lateral : bool; o_moment : bool; o_axial : bool; o_base_shear : bool; o_base_moment : bool; o_base_axial : bool;
  o_plugging : option bool }.

(** Keyword arguments given by the caller; [None]: not given *)
Record keywords := mkKeywords { k_timoshenko : option bool; k_x2mesh : option (list Q); k_coarseness : option Q;
  k_lateral : option bool; k_moment : option bool; k_axial : option bool;
  k_base_shear : option bool; k_base_moment : option bool; k_base_axial : option bool; k_plugging : option bool }.

Definition or_else {A : Type} (o : option A) (d : A) : A := match o with Some a => a | None => d end.

(** What is passed for x2mesh: a list or the FieldInfo object of the default *)
Inductive x2mesh_arg := Elevations (l : list Q) | FieldInfo.

(** construct.py 979-1003: field types, constraints and defaults; mesh and soil checks are in CreateModel *)
Definition model_fields (timo : bool) (x : x2mesh_arg) (c : Q) (la mo ax bs bm ba : bool) (pl : option bool) : res settings :=
  match x with
  | FieldInfo => Err ValueError
  | Elevations l => if Qltb c (1#100) then Err ValueError else Ok (mkSettings timo l c la mo ax bs bm ba pl)
  end.
Definition model (k : keywords) : res settings :=
  model_fields (or_else (k_timoshenko k) true) (Elevations (or_else (k_x2mesh k) [])) (or_else (k_coarseness k) (1#2))
    (or_else (k_lateral k) true) (or_else (k_moment k) true) (or_else (k_axial k) true)
    (or_else (k_base_shear k) true) (or_else (k_base_moment k) true) (or_else (k_base_axial k) true) (k_plugging k).

(** construct.py 1860-1923; create has no parameter plugging: giving it raises TypeError *)
Definition create (k : keywords) : res settings :=
  match k_plugging k with
  | Some _ => Err TypeError
  | None =>
    model_fields (or_else (k_timoshenko k) true) (match k_x2mesh k with Some l => Elevations l | None => FieldInfo end)
      (or_else (k_coarseness k) (1#2))
      (or_else (k_lateral k) true) (or_else (k_moment k) true) (or_else (k_axial k) false)
      (or_else (k_base_shear k) true) (or_else (k_base_moment k) true) (or_else (k_base_axial k) false) None
  end.
