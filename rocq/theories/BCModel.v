(** Boundary conditions: the setters of [Model], the duplicate check and the
    nodal tables.  Models src/openpile/construct.py and src/openpile/core/_model_build.py. *)
From Coq Require Import List Bool Arith ZArith QArith Qabs Qround.
From Verif Require Import Base.
Import ListNotations.
Local Open Scope Q_scope.

(** construct.py 818-881: the three classes BoundaryFixation, BoundaryDisplacement,
    BoundaryForce. *)
Inductive kind : Type := Fixation | Displacement | Force.

Definition kind_eqb (a b : kind) : bool :=
  match a, b with
  | Fixation, Fixation | Displacement, Displacement | Force, Force => true
  | _, _ => false
  end.

Inductive axis : Type := AX | AY | AZ.

(** construct.py 834-837, 856-859, 878-881.  [None] is Python's None.  The bool fields of
    BoundaryFixation are modelled by 1 (True) and 0 (False), as Python's bool is an int. *)
Record bc : Type := mkBC {
  bc_kind : kind;
  bc_elev : Q;
  bc_x : option Q;
  bc_y : option Q;
  bc_z : option Q
}.

Definition get_axis (a : axis) (b : bc) : option Q :=
  match a with AX => bc_x b | AY => bc_y b | AZ => bc_z b end.

(** construct.py 1524-1528: the selection [bc.elevation == elevation and isinstance(bc, BC_class)]. *)
Definition selects (k : kind) (e : Q) (b : bc) : bool :=
  Qeq_bool (bc_elev b) e && kind_eqb (bc_kind b) k.

(** construct.py 1533-1538: [if v is not None: obj.v = v]. *)
Definition merge_val (new old : option Q) : option Q :=
  match new with Some v => Some v | None => old end.

Definition merge_bc (x y z : option Q) (b : bc) : bc :=
  mkBC (bc_kind b) (bc_elev b) (merge_val x (bc_x b)) (merge_val y (bc_y b)) (merge_val z (bc_z b)).

(** In-place update of the selected object(s) of the list. *)
Fixpoint update_selected (k : kind) (e : Q) (f : bc -> bc) (l : list bc) : list bc :=
  match l with
  | [] => []
  | b :: t => (if selects k e b then f b else b) :: update_selected k e f t
  end.

(** construct.py 1522-1540: Model._update_bc. *)
Definition update_bc (l : list bc) (e : Q) (x y z : option Q) (k : kind) : list bc :=
  let existing := filter (selects k e) l in
  if Nat.eqb (length existing) 1
  then update_selected k e (merge_bc x y z) l
  else l ++ [mkBC k e x y z].

(** construct.py 1542-1623: the public setters, with their mapping of arguments to axes. *)
Inductive call : Type :=
| SetPointload (elevation : Q) (Py Pz Mx : option Q)
| SetPointdisplacement (elevation : Q) (Ty Tz Rx : option Q)
| SetSupport (elevation : Q) (Ty Tz Rx : option Q).

Definition exec (l : list bc) (c : call) : list bc :=
  match c with
  | SetPointload e Py Pz Mx => update_bc l e Mx Py Pz Force
  | SetPointdisplacement e Ty Tz Rx => update_bc l e Rx Ty Tz Displacement
  | SetSupport e Ty Tz Rx => update_bc l e Rx Ty Tz Fixation
  end.

Definition run (h : list call) (l : list bc) : list bc := fold_left exec h l.

(** ** _model_build.py 5-30: validate_bc *)

Definition opt_eqb (a b : option Q) : bool :=
  match a, b with
  | Some x, Some y => Qeq_bool x y
  | None, None => true
  | _, _ => false
  end.

Definition pair_eqb (p q : Q * option Q) : bool :=
  Qeq_bool (fst p) (fst q) && opt_eqb (snd p) (snd q).

(** Python's [set(list)] as a duplicate-free list. *)
Fixpoint dedup {A : Type} (eqb : A -> A -> bool) (l : list A) : list A :=
  match l with
  | [] => []
  | h :: t => if existsb (eqb h) t then dedup eqb t else h :: dedup eqb t
  end.

(** lines 12-16, 17-21, 22-26: the check of one axis; [true] means the axis is flagged. *)
Definition axis_flag (l : list bc) (k : kind) (a : axis) : bool :=
  let checklist := dedup pair_eqb
      (map (fun b => (bc_elev b, get_axis a b)) (filter (fun b => kind_eqb (bc_kind b) k) l)) in
  if Nat.ltb 1 (length checklist)
  then negb (Nat.eqb (length (dedup Qeq_bool (map fst checklist))) (length (map fst checklist)))
  else false.

Definition validate_bc (l : list bc) (k : kind) : res unit :=
  if axis_flag l k AX || axis_flag l k AY || axis_flag l k AZ then Err ValueError else Ok tt.

(** ** _model_build.py 33-62: apply_bc *)

(** numpy.isclose(a, b, atol=0.001) with the default rtol=1e-5 relative to [b]. *)
Definition isclose (a b : Q) : bool := Qle_bool (Qabs (a - b)) (0.001 + 0.00001 * Qabs b).

(** lines 43-45: [any(check)] and the first index where check is True. *)
Fixpoint first_close (nodes : list Q) (e : Q) : option nat :=
  match nodes with
  | [] => None
  | z :: t => if isclose z e then Some O else option_map S (first_close t e)
  end.

(** Python truthiness of [bc.x]: None and zero are false. *)
Definition truthy (v : option Q) : option Q :=
  match v with
  | Some q => if Qeq_bool q 0 then None else Some q
  | None => None
  end.

(** lines 47-52: one guarded assignment into the column; [cast] is what storing into the
    column's dtype does to the value. *)
Definition write (cast : Q -> Q) (col : list Q) (i : nat) (v : option Q) : list Q :=
  match truthy v with Some q => set_nth i (cast q) col | None => col end.

Record table : Type := mkTable { col_z : list Q; col_y : list Q; col_x : list Q }.

Definition col (a : axis) (t : table) : list Q :=
  match a with AX => col_x t | AY => col_y t | AZ => col_z t end.

(** lines 38-61: one turn of the loop.  The messages printed when no node matches are not
    modelled. *)
Definition apply_one (cast : Q -> Q) (nodes : list Q) (k : kind) (t : table) (b : bc) : table :=
  if kind_eqb (bc_kind b) k then
    match first_close nodes (bc_elev b) with
    | Some i => mkTable (write cast (col_z t) i (bc_z b))
                        (write cast (col_y t) i (bc_y b))
                        (write cast (col_x t) i (bc_x b))
    | None => t
    end
  else t.

Definition apply_bc (cast : Q -> Q) (nodes : list Q) (k : kind) (l : list bc) (t : table) : table :=
  fold_left (apply_one cast nodes k) l t.

(** Storing a float into an int64 column truncates towards zero. *)
Definition int_cast (q : Q) : Q :=
  inject_Z (if Qle_bool 0 q then Qfloor q else Qceiling q).

Definition zeros (nodes : list Q) : table :=
  let c := map (fun _ => 0) nodes in mkTable c c c.

(** construct.py 1065-1089: Model.global_forces; the columns are initialised with the
    integer 0 (lines 1073-1075), hence int64. *)
Definition global_forces (nodes : list Q) (l : list bc) : res table :=
  bind (validate_bc l Force) (fun _ => Ok (apply_bc int_cast nodes Force l (zeros nodes))).

(** construct.py 1091-1115: Model.global_disp; float columns (0.0). *)
Definition global_disp (nodes : list Q) (l : list bc) : res table :=
  bind (validate_bc l Displacement)
       (fun _ => Ok (apply_bc (fun q => q) nodes Displacement l (zeros nodes))).

(** construct.py 1117-1140: Model.global_restrained; bool columns (False = 0); only true
    values are written and a true value is stored as True = 1. *)
Definition global_restrained (nodes : list Q) (l : list bc) : res table :=
  bind (validate_bc l Fixation)
       (fun _ => Ok (apply_bc (fun _ => 1) nodes Fixation l (zeros nodes))).

(** winkler.py 472-473, 532-535: supports = restrained | (U != 0), for one column. *)
Definition support_col (restrained disp : list Q) : list bool :=
  map (fun p => negb (Qeq_bool (fst p) 0) || negb (Qeq_bool (snd p) 0)) (combine restrained disp).

(** ** Object identity: models hold references to boundary-condition objects.
    construct.py 977: pydantic keeps the instances given by the caller; 1531-1540 mutate them. *)
Definition heap := list bc.            (* object at address i is the i-th cell *)
Definition mref := list nat.           (* Model.boundary_conditions: list of references *)

Definition deref (h : heap) (m : mref) : list bc :=
  fold_right (fun a acc => match nth_error h a with Some b => b :: acc | None => acc end) [] m.

Definition selects_at (h : heap) (k : kind) (e : Q) (a : nat) : bool :=
  match nth_error h a with Some b => selects k e b | None => false end.

(** construct.py 1522-1540 on references. *)
Definition update_bc_heap (h : heap) (m : mref) (e : Q) (x y z : option Q) (k : kind) : heap * mref :=
  match filter (selects_at h k e) m with
  | [a] => (match nth_error h a with
            | Some b => set_nth a (merge_bc x y z b) h
            | None => h
            end, m)
  | _ => (h ++ [mkBC k e x y z], m ++ [length h])
  end.

Definition exec_heap (h : heap) (m : mref) (c : call) : heap * mref :=
  match c with
  | SetPointload e Py Pz Mx => update_bc_heap h m e Mx Py Pz Force
  | SetPointdisplacement e Ty Tz Rx => update_bc_heap h m e Rx Ty Tz Displacement
  | SetSupport e Ty Tz Rx => update_bc_heap h m e Rx Ty Tz Fixation
  end.

(** Two models in one program; [true] addresses the first one. *)
Definition exec2 (s : heap * mref * mref) (bc_ : bool * call) : heap * mref * mref :=
  let '(h, m1, m2) := s in
  let '(which, c) := bc_ in
  if which then let '(h', m1') := exec_heap h m1 c in (h', m1', m2)
  else let '(h', m2') := exec_heap h m2 c in (h', m1, m2').

Definition run2 (ops : list (bool * call)) (s : heap * mref * mref) := fold_left exec2 ops s.
