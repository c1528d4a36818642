(** Which springs a model gets: openpile/construct.py 1003-1027 (acceptance), 1147-1300
    (create_springs); openpile/core/misc.py 13-36 (layer parameters); openpile/core/validation.py
    42-96 (check_boundary_conditions).
    Spring functions of a layer are opaque functions of the arguments they are called with; [V] is the
    type of the arrays they return.  The checks that only print (construct.py 1315-1342) are not modelled. *)
From Coq Require Import List Bool Arith ZArith QArith Qabs.
From Verif Require Import Base PileModel MeshModel StressModel.
Import ListNotations.
Local Open Scope Q_scope.

(** ** construct.py 1003-1027, 982: a model is built or ValueError is raised *)
Definition accept_model (length coarseness pile_bottom : Q) (soil_bottom : option Q) : res unit :=
  if Qltb coarseness (1#100) then Err ValueError
  else if negb (Qle_bool (5 * coarseness) length) then Err ValueError
  else match soil_bottom with
       | None => Ok tt
       | Some b => if Qltb pile_bottom b then Err ValueError else Ok tt
       end.

(** ** core/misc.py 13-36 *)
Inductive param := Number (x : Q) | ListOf (l : list Q) | Function (f : Q -> Q) | Unsupported.

Definition top_bottom (p : param) : res (Q * Q) :=
  match p with
  | Number x => Ok (x, x)
  | ListOf [x] => Ok (x, x)
  | ListOf [x; y] => Ok (x, y)
  | _ => Err TypeError
  end.

Definition value_at (p : param) (depth_in_layer layer_height depth : Q) : res Q :=
  match p with
  | Function f => Ok (f depth)
  | _ => bind (top_bottom p) (fun tb => let '(t, b) := tb in
         if Qeq_bool layer_height 0 then Err ZeroDivisionError else Ok (t + (b - t) * depth_in_layer / layer_height))
  end.

(** ** core/validation.py 42-96, on the columns of global_restrained and global_forces *)
Definition nonzero (col : list Q) : nat := length (filter (fun x => negb (Qeq_bool x 0)) col).

Definition check_bc (rx ry rz fx fy fz : list Q) (soil : bool) : res unit :=
  let r := (nonzero rx + nonzero ry + nonzero rz)%nat in
  let f := (nonzero fx + nonzero fy + nonzero fz)%nat in
  if Nat.eqb r 0 && negb soil then Err InvalidBoundaryConditionsError
  else if Nat.eqb f 0 then Err InvalidBoundaryConditionsError
  else if negb soil then
    if (0 <? nonzero fz)%nat && (0 <? nonzero rz)%nat then
      if (2 <=? nonzero ry + nonzero rx)%nat && (0 <? nonzero fy)%nat then Ok tt
      else if (2 <=? nonzero ry + nonzero rx)%nat && (0 <? nonzero fx)%nat then Ok tt
      else if Nat.eqb (nonzero fx + nonzero fy) 0 then Ok tt
      else Err InvalidBoundaryConditionsError
    else if (0 <? nonzero fz)%nat && Nat.eqb (nonzero rz) 0 then Err InvalidBoundaryConditionsError
    else
      if (2 <=? nonzero ry + nonzero rx)%nat && (0 <? nonzero fy)%nat then Ok tt
      else if (2 <=? nonzero ry + nonzero rx)%nat && (0 <? nonzero fx)%nat then Ok tt
      else if Nat.eqb (nonzero fx + nonzero fy) 0 then Ok tt
      else Err InvalidBoundaryConditionsError
  else Err InvalidBoundaryConditionsError.

(** ** construct.py 1147-1308: create_springs *)
Section Create.
Context {V : Type}.

(** Arguments common to the spring functions *)
Record args := { a_sig : nanQ; a_X : Q; a_height : Q; a_depth : Q; a_D : option Q; a_L : Q; a_wet : bool; a_perim : option Q; a_perim_in : option Q }.

Record lateral := { has_py : bool; has_hb : bool; has_mt : bool; has_mb : bool;
                    f_py : args -> V; f_mt : args -> V; f_hb : args -> V; f_mb : args -> V }.
Record axial := { f_tz : args -> V; f_qz : args -> V }.
Record slayer := { s_layer : layer; s_lat : option lateral; s_ax : option axial }.

(** Settings of the model that decide on springs *)
Record setting := {
  distributed_lateral : bool; distributed_moment : bool; base_shear : bool; base_moment : bool;
  distributed_axial : bool; base_axial : bool;
  ground : Q; soil_bottom : Q; water : Q; tip : Q;
  elems : list (Q * Q); sig_top : list nanQ; sig_bottom : list nanQ;
  width : nat -> option Q; outer : nat -> option Q; inner : nat -> option Q }.

(** None stands for the zeros the arrays are allocated with. *)
Record made := { m_py : nat -> nat -> option V; m_mt : nat -> nat -> option V; m_tz : nat -> nat -> option V;
                 m_hb : option V; m_mb : option V; m_qz : option V }.

Definition put (f : nat -> nat -> option V) (i : nat) (g : nat -> V) : nat -> nat -> option V :=
  fun e j => if Nat.eqb e i && (j <? 2)%nat then Some (g j) else f e j.

Definition pick {A : Type} (j : nat) (p : A * A) : A := if Nat.eqb j 0 then fst p else snd p.

(** 1178-1210, 1239-1267: arguments for spring j of element i in a layer *)
Definition shaft_args (S : setting) (l : layer) (i j : nat) : args :=
  let e := nth i (elems S) (0, 0) in
  {| a_sig := pick j (nth i (sig_top S) None, nth i (sig_bottom S) None);
     a_X := Qabs (pick j e - ground S);
     a_height := l_top l - l_bottom l;
     a_depth := l_top l - pick j e;
     a_D := width S i;
     a_L := ground S - tip S;
     a_wet := Qle_bool (pick j e) (water S);
     a_perim := outer S i;
     a_perim_in := outer S i (* 1188: perimeter_in reads the outer perimeter *) |}.

(** 1217-1229, 1275-1308: arguments of the base springs; X is the thickness of the soil profile *)
Definition base_args (S : setting) (l : layer) (i : nat) : args :=
  {| a_sig := last (sig_bottom S) None;
     a_X := ground S - soil_bottom S;
     a_height := l_top l - l_bottom l;
     a_depth := l_top l - tip S;
     a_D := width S i;
     a_L := ground S - tip S;
     a_wet := Qle_bool (tip S) (water S);
     a_perim := None; a_perim_in := None |}.

Definition tip_in (S : setting) (l : layer) : bool := Qle_bool (tip S) (l_top l) && Qle_bool (l_bottom l) (tip S).

(** 1175-1308: what the body of the loop does for one element of one layer *)
Definition visit (S : setting) (li : slayer * nat) (m : made) : made :=
  let '(sl, i) := li in
  let l := s_layer sl in
  let m := match s_ax sl with
    | None => m
    | Some ax => {|
        m_py := m_py m; m_mt := m_mt m;
        m_tz := if distributed_axial S then put (m_tz m) i (fun j => f_tz ax (shaft_args S l i j)) else m_tz m;
        m_hb := m_hb m; m_mb := m_mb m;
        m_qz := if tip_in S l && base_axial S then Some (f_qz ax (base_args S l i)) else m_qz m |} end in
  match s_lat sl with
  | None => m
  | Some la => {|
      m_py := if has_py la && distributed_lateral S then put (m_py m) i (fun j => f_py la (shaft_args S l i j)) else m_py m;
      m_mt := if has_mt la && distributed_moment S then put (m_mt m) i (fun j => f_mt la (shaft_args S l i j)) else m_mt m;
      m_tz := m_tz m;
      m_hb := if tip_in S l && (has_hb la && base_shear S) then Some (f_hb la (base_args S l i)) else m_hb m;
      m_mb := if tip_in S l && (has_mb la && base_moment S) then Some (f_mb la (base_args S l i)) else m_mb m;
      m_qz := m_qz m |}
  end.

(** 1169-1175: layers in the order given, then the elements of each layer *)
Definition work (S : setting) (layers : list slayer) : list (slayer * nat) :=
  flat_map (fun sl => map (fun i => (sl, i))
    (filter (fun i => inside (l_top (s_layer sl)) (l_bottom (s_layer sl)) (nth i (elems S) (0, 0))) (seq 0 (length (elems S))))) layers.

Definition no_springs : made := {| m_py := fun _ _ => None; m_mt := fun _ _ => None; m_tz := fun _ _ => None; m_hb := None; m_mb := None; m_qz := None |}.

Definition create_springs (S : setting) (layers : list slayer) : made :=
  fold_left (fun m li => visit S li m) (work S layers) no_springs.
End Create.
