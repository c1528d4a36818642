(** From the user's calls to the result tables: the pieces of the other files put together as
    openpile/construct.py (Model, solve) and openpile/winkler.py 449-499 (beam) do. *)
From Coq Require Import List Bool Arith QArith Qabs.
From Verif Require Import Base LinAlg BCModel PileModel MeshModel StressModel BeamModel SolveModel SpringModel CreateModel.
Import ListNotations.
Local Open Scope Q_scope.

(** construct.py 150-174: the thickness of a circular section, read back from its width and inner
    perimeter (the section record does not store it). *)
Definition thickness (s : section) : Q := (s_width s - s_inner s / mpi) / 2.

(** kernel.py 160-182: mesh_to_element_length; both y coordinates are zero, so the root of the
    squared difference is its absolute value. *)
Definition elem_length (elems : list (Q * Q)) (e : nat) : Q :=
  let t := nth e elems (0, 0) in Qabs (fst t - snd t).

(** kernel.py 219-250: a section property along the elements (None is NaN). *)
Definition elem_value (f : section -> Q) (p : list section) (elems : list (Q * Q)) (e : nat) : option Q :=
  nth e (parameter2elements (section_objs f p) elems) None.

(** kernel.py 185-286: the stiffness matrix of element [e]; None when it contains NaN.  Width and
    thickness are only read for Timoshenko elements. *)
Definition elem_matrix (ty : elem_type) (circ : bool) (E nu : Q) (p : list section) (elems : list (Q * Q)) (e : nat) : res (option mat) :=
  match ty with
  | EulerBernoulli =>
      match elem_value s_inertia p elems e, elem_value s_area p elems e with
      | Some J, Some A => bind (elem_mech ty circ E nu J A 1 0 (elem_length elems e)) (fun k => Ok (Some k))
      | _, _ => Ok None
      end
  | Timoshenko =>
      if circ then
        match elem_value s_inertia p elems e, elem_value s_area p elems e, elem_value s_width p elems e, elem_value thickness p elems e with
        | Some J, Some A, Some d, Some wt => bind (elem_mech ty circ E nu J A d wt (elem_length elems e)) (fun k => Ok (Some k))
        | _, _, _, _ => Ok None
        end
      else Err ValueError
  end.

(** one NaN anywhere makes the whole matrix useless *)
Fixpoint all_some {A : Type} (l : list (option A)) : option (list A) :=
  match l with
  | [] => Some []
  | None :: _ => None
  | Some a :: t => option_map (cons a) (all_some t)
  end.

Definition no_mat : mat := fun _ _ => 0.

Definition elem_matrices (ty : elem_type) (circ : bool) (E nu : Q) (p : list section) (elems : list (Q * Q)) : res (option (list mat)) :=
  bind (collect (length elems) (elem_matrix ty circ E nu p elems)) (fun l => Ok (all_some l)).

(** kernel.py 790-808: the dof vectors, columns z, y and x side by side, row after row *)
Definition dof_vector (t : table) : vec := fun i =>
  nth (i / 3) (match (i mod 3)%nat with O => col_z t | S O => col_y t | _ => col_x t end) 0.

Definition dof_flags (t : table) : nat -> bool := fun i => negb (Qeq_bool (dof_vector t i) 0).

(** The tables of a WinklerResult (winkler.py 67-125) with the vectors they are made of. *)
Record tables := { t_d : vec; t_Q : vec; t_disp : list (Q * triple); t_forces : list (Q * triple); t_reac : list (Q * triple) }.

(** winkler.py 449-499 for a model without soil.  A matrix with NaN in it gives no numbers: Ok None
    (numpy returns NaN or raises LinAlgError). *)
Definition beam_tables (solve : solver) (ty : elem_type) (circ : bool) (E nu : Q) (p : list section) (m : list Q) (l : list bc) : res (option tables) :=
  let nodes := nodes_of m in
  let elems := elements_of m in
  let n := length elems in
  bind (global_forces nodes l) (fun tf =>
  bind (global_disp nodes l) (fun td =>
  bind (global_restrained nodes l) (fun tr =>
  bind (elem_matrices ty circ E nu p elems) (fun ks =>
  match ks with
  | None => Ok None
  | Some ks =>
      let k := fun e => nth e ks no_mat in
      match beam solve n k (dof_vector tf) (dof_vector td) (dof_flags tr) with
      | None => Err LinAlgError
      | Some (d, R, q) =>
          Ok (Some {| t_d := d; t_Q := R; t_disp := disp_rows nodes d;
                      t_forces := structural_forces nodes q (map (elem_length elems) (seq 0 n));
                      t_reac := reaction_rows (disp_rows nodes R) |})
      end
  end)))).

(** The whole analysis of a model without soil: build the pile (construct.py 286-306), accept the
    model (1003-1027), mesh it, make the setter calls, run beam (solve dispatches to it, 1844-1858,
    for a model without soil).  The None case of the mesh is excluded by C15. *)
Definition analyse (solve : solver) (ty : elem_type) (circ : bool) (E nu : Q) (sections : list section) (x2mesh : list Q) (coarseness : Q)
    (calls : list call) : res (option tables) :=
  bind (make_pile sections) (fun p =>
  bind (pile_length p) (fun len =>
  bind (pile_bottom p) (fun b =>
  bind (accept_model len coarseness b None) (fun _ =>
  match mesh p b None x2mesh coarseness with
  | None => Ok None
  | Some m => beam_tables solve ty circ E nu p m (run calls [])
  end)))).

(** kernel.py 717-787: the pile-soil model that winkler works on, springs given *)
Definition soil_model (p : list section) (elems : list (Q * Q)) (ks : list mat)
    (py tz : option (nat -> nat -> curve)) (mt : option (nat -> nat -> list curve)) (mtc : nat -> Q * Q * Q * Q) (hb mb qz : option curve) : wmodel :=
  {| w_n := length elems; w_mech := fun e => nth e ks no_mat; w_L := elem_length elems;
     w_py := py; w_tz := tz; w_mt := mt; w_mtc := mtc; w_hb := hb; w_mb := mb; w_qz := qz |}.
