(** A Model object whose fields are assigned to: openpile/construct.py 79 (ConfigDict without
    validate_assignment or frozen: assignments are accepted unchecked), 1029-1063 (which tables are cached),
    1142-1144 and 1147-1360 (springs are made once, in model_post_init), 1844-1858 (solve), openpile/winkler.py 449-637.
    Assigned piles and soil profiles are ones their own constructors accepted.  The name, the tables of
    springs and the plots are not part of this model. *)
From Coq Require Import List Bool Arith ZArith QArith Reals.
From Verif Require Import Base LinAlg BCModel PileModel MeshModel StressModel BeamModel SolveModel SpringModel WinklerModel CreateModel WholeModel FullModel.
Import ListNotations.
Local Open Scope Q_scope.

Record soil := mkSoil { so_layers : list soil_layer; so_ground : Q; so_water : Q }.

(** construct.py 968-996: the fields; the material belongs to the pile *)
Record fields := mkFields {
  fd_pile : list section; fd_soil : option soil; fd_x2mesh : list Q; fd_coarse : Q;
  fd_type : elem_type; fd_circ : bool; fd_E : Q; fd_nu : Q; fd_on : options }.

(** The object: its fields, boundary conditions, what the cached properties hold, and the springs *)
Record object := mkObj {
  ob_fields : fields; ob_bcs : list bc; ob_nodes : option (list Q); ob_elems : option (list (Q * Q)); ob_made : option (@made stored_value) }.

(** _model_build.py 134-197 on the present fields.  None: an exception or no end, for a pile without sections
    or a coarseness that is not positive *)
Definition coordinates (f : fields) : option (list Q) :=
  match pile_bottom (fd_pile f) with
  | Ok b => mesh (fd_pile f) b (option_map (fun s => map y_layer (so_layers s)) (fd_soil f)) (fd_x2mesh f) (fd_coarse f)
  | Err _ => None
  end.

(** construct.py 1055-1063: functools.cached_property computes at the first access and keeps *)
Definition read_nodes (ob : object) : option (list Q) * object :=
  match ob_nodes ob with
  | Some z => (Some z, ob)
  | None => match coordinates (ob_fields ob) with
            | Some m => (Some (nodes_of m), mkObj (ob_fields ob) (ob_bcs ob) (Some (nodes_of m)) (ob_elems ob) (ob_made ob))
            | None => (None, ob)
            end
  end.
Definition read_elems (ob : object) : option (list (Q * Q)) * object :=
  match ob_elems ob with
  | Some z => (Some z, ob)
  | None => match coordinates (ob_fields ob) with
            | Some m => (Some (elements_of m), mkObj (ob_fields ob) (ob_bcs ob) (ob_nodes ob) (Some (elements_of m)) (ob_made ob))
            | None => (None, ob)
            end
  end.

(** winkler.py 449-499: WholeModel.beam_tables with the nodes and the elements as two tables *)
Definition beam_on (solve : solver) (ty : elem_type) (circ : bool) (E nu : Q) (p : list section) (nodes : list Q) (elems : list (Q * Q)) (l : list bc) : res (option tables) :=
  let n := length elems in
  bind (global_forces nodes l) (fun tf =>
  bind (global_disp nodes l) (fun td =>
  bind (global_restrained nodes l) (fun tr =>
  bind (elem_matrices ty circ E nu p elems) (fun ks =>
  match ks with
  | None => Ok None
  | Some ks =>
      let k := fun e => nth e ks no_mat in
      match beam solve n k (dof_vector tf) (dof_vector td) (dof_flags tr) with
      | None => Err LinAlgError
      | Some (d, R, q) =>
          Ok (Some {| t_d := d; t_Q := R; t_disp := disp_rows nodes d;
                      t_forces := structural_forces nodes q (map (elem_length elems) (seq 0 n));
                      t_reac := reaction_rows (disp_rows nodes R) |})
      end
  end)))).

(** winkler.py 502-637: FullModel.solve_built with the nodes and the elements as two tables *)
Definition winkler_on (solve : solver) (ty : elem_type) (circ : bool) (E nu : Q) (o : options) (p : list section) (nodes : list Q) (elems : list (Q * Q))
    (M : @made stored_value) (l : list bc) (max_iter : nat) : res (option outcome) :=
  let g := springs_of M in
  bind (global_forces nodes l) (fun tf =>
  bind (global_disp nodes l) (fun td =>
  bind (global_restrained nodes l) (fun tr =>
  bind (elem_matrices ty circ E nu p elems) (fun ks =>
  bind (if on_mt o then moment_coefs ty circ E nu p elems else Ok (Some [])) (fun cs =>
  match ks, cs, nan_free (length elems) M with
  | Some ks, Some cs, true =>
      bind (winkler_model solve
        (soil_model p elems ks (when_on (on_py o) (g_py g)) (when_on (on_tz o) (g_tz g)) (when_on (on_mt o) (g_mt g))
          (fun e => nth e cs (0, 0, 0, 0)) (when_on (on_hb o) (g_hb g)) (when_on (on_mb o) (g_mb g)) (when_on (on_qz o) (g_qz g)))
        (dof_vector tf) (dof_vector td) (dof_flags tr) max_iter) (fun r => Ok (Some r))
  | _, _, _ => Ok None
  end))))).

(** [Stuck]: no table of nodes or elements.  [Unmatched]: as many nodes as elements, or fewer, or too many; what
    numpy and numba make of arrays of the wrong size is not modelled.  [NoSprings]: a model constructed without
    soil has no arrays of springs (AttributeError, if nothing is raised earlier). *)
Inductive answer :=
| Done | Nodes (z : option (list Q)) | Elems (e : option (list (Q * Q)))
| Raised (e : exn) | Stuck | Unmatched | NoSprings | Beam (r : res (option tables)) | Winkler (r : res (option outcome)).

(** construct.py 1844-1858.  Both analyses read, in this order: the nodes (for the forces), the elements (for the
    stiffness); winkler reads the supports after that, beam before. *)
Definition solve_object (solve : solver) (ob : object) : answer * object :=
  let l := ob_bcs ob in let f := ob_fields ob in
  match validate_bc l Force with
  | Err e => (Raised e, ob)
  | Ok _ =>
    match read_nodes ob with
    | (None, ob1) => (Stuck, ob1)
    | (Some nodes, ob1) =>
      match validate_bc l Displacement, fd_soil f, validate_bc l Fixation with
      | Err e, _, _ => (Raised e, ob1)
      | _, None, Err e => (Raised e, ob1)
      | _, _, _ =>
        match read_elems ob1 with
        | (None, ob2) => (Stuck, ob2)
        | (Some elems, ob2) =>
          (if negb (Nat.eqb (length nodes) (S (length elems))) then Unmatched
           else match fd_soil f, ob_made ob with
                | None, _ => Beam (beam_on solve (fd_type f) (fd_circ f) (fd_E f) (fd_nu f) (fd_pile f) nodes elems l)
                | Some _, None => NoSprings
                | Some _, Some M => Winkler (winkler_on solve (fd_type f) (fd_circ f) (fd_E f) (fd_nu f) (fd_on f) (fd_pile f) nodes elems M l 100)
                end, ob2)
        end
      end
    end
  end.

(** ** Programs *)
Inductive op :=
| APile (p : list section) (circ : bool) (E nu : Q) | ASoil (s : option soil) | AX2mesh (x : list Q) | ACoarse (c : Q)
| AMaterial (E nu : Q) (* M.pile.material = ... *) | AType (ty : elem_type) | AOptions (o : options)
| Call (c : call) | ReadNodes | ReadElems | Solve.

Definition set_field (o : op) (f : fields) : fields :=
  match o with
  | APile p circ E nu => mkFields p (fd_soil f) (fd_x2mesh f) (fd_coarse f) (fd_type f) circ E nu (fd_on f)
  | ASoil s => mkFields (fd_pile f) s (fd_x2mesh f) (fd_coarse f) (fd_type f) (fd_circ f) (fd_E f) (fd_nu f) (fd_on f)
  | AX2mesh x => mkFields (fd_pile f) (fd_soil f) x (fd_coarse f) (fd_type f) (fd_circ f) (fd_E f) (fd_nu f) (fd_on f)
  | ACoarse c => mkFields (fd_pile f) (fd_soil f) (fd_x2mesh f) c (fd_type f) (fd_circ f) (fd_E f) (fd_nu f) (fd_on f)
  | AMaterial E nu => mkFields (fd_pile f) (fd_soil f) (fd_x2mesh f) (fd_coarse f) (fd_type f) (fd_circ f) E nu (fd_on f)
  | AType ty => mkFields (fd_pile f) (fd_soil f) (fd_x2mesh f) (fd_coarse f) ty (fd_circ f) (fd_E f) (fd_nu f) (fd_on f)
  | AOptions o => mkFields (fd_pile f) (fd_soil f) (fd_x2mesh f) (fd_coarse f) (fd_type f) (fd_circ f) (fd_E f) (fd_nu f) o
  | _ => f
  end.

Definition step (solve : solver) (o : op) (ob : object) : answer * object :=
  match o with
  | Call c => (Done, mkObj (ob_fields ob) (exec (ob_bcs ob) c) (ob_nodes ob) (ob_elems ob) (ob_made ob))
  | ReadNodes => let '(z, ob') := read_nodes ob in (Nodes z, ob')
  | ReadElems => let '(e, ob') := read_elems ob in (Elems e, ob')
  | Solve => solve_object solve ob
  | _ => (Done, mkObj (set_field o (ob_fields ob)) (ob_bcs ob) (ob_nodes ob) (ob_elems ob) (ob_made ob))
  end.

Fixpoint program (solve : solver) (l : list op) (ob : object) : list answer * object :=
  match l with
  | [] => ([], ob)
  | o :: t => let '(a, ob1) := step solve o ob in let '(r, ob2) := program solve t ob1 in (a :: r, ob2)
  end.

Section New.
Variable rnd : R -> Q.

(** construct.py 1146-1357: create_springs reads element_properties, so the elements of a new model with soil are
    cached; its nodes are not, nor is any table of a new model without soil *)
Definition new_in_soil (ch : chance) (sort : list (Q * section) -> list (Q * section)) (ty : elem_type) (circ : bool) (E nu : Q) (o : options)
    (sections : list section) (s : soil) (x2mesh : list Q) (c : Q) : res (option object) :=
  bind (construct rnd ch sort o sections (so_ground s) (so_water s) (so_layers s) x2mesh c) (fun B =>
  match B with
  | None => Ok None
  | Some B => Ok (Some (mkObj (mkFields (b_pile B) (Some s) x2mesh c ty circ E nu o) [] None (Some (elements_of (b_mesh B))) (Some (b_made B))))
  end).
End New.

Definition new_bare (ty : elem_type) (circ : bool) (E nu : Q) (o : options) (sections : list section) (x2mesh : list Q) (c : Q) : res object :=
  bind (make_pile sections) (fun p =>
  bind (pile_length p) (fun len =>
  bind (pile_bottom p) (fun b =>
  bind (accept_model len c b None) (fun _ =>
  Ok (mkObj (mkFields p None x2mesh c ty circ E nu o) [] None None None))))).
