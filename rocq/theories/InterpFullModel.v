(** The analysis of a pile in soil (FullModel) with np.interp as a parameter [f]. *)
From Coq Require Import List Bool Arith ZArith QArith Qabs Reals Qreals.
From Verif Require Import Base LinAlg BCModel PileModel MeshModel StressModel BeamModel SolveModel SpringModel WinklerModel CreateModel WholeModel
  AxialModel LateralModel CapacityModel FullModel InterpModel.
Import ListNotations.
Local Open Scope Q_scope.

Section Full.
Variable f : Q -> list (Q * Q) -> Q.

(** winkler.py 502-637 on a built Model, as [solve_built] *)
Definition solve_built_by (solve : solver) (ty : elem_type) (circ : bool) (E nu : Q) (o : options) (B : built) (l : list bc) (max_iter : nat) : res (option outcome) :=
  let nodes := nodes_of (b_mesh B) in
  let elems := elements_of (b_mesh B) in
  bind (global_forces nodes l) (fun tf =>
  bind (global_disp nodes l) (fun td =>
  bind (global_restrained nodes l) (fun tr =>
  bind (elem_matrices ty circ E nu (b_pile B) elems) (fun ks =>
  bind (if on_mt o then moment_coefs ty circ E nu (b_pile B) elems else Ok (Some [])) (fun cs =>
  match ks, cs, nan_free (length elems) (b_made B) with
  | Some ks, Some cs, true =>
      bind (winkler_by f solve (stiffness_model o (b_pile B) (b_mesh B) ks cs (springs_of (b_made B))) (dof_vector tf) (dof_vector td) (dof_flags tr) max_iter) (fun r => Ok (Some r))
  | _, _, _ => Ok None
  end))))).

(** The whole, as [soil_analysis] *)
Definition soil_analysis_by (rnd : R -> Q) (ch : chance) (sort : list (Q * section) -> list (Q * section)) (solve : solver) (ty : elem_type) (circ : bool) (E nu : Q) (o : options)
    (sections : list section) (ground water : Q) (ys : list soil_layer) (x2mesh : list Q) (c : Q) (cs : list call) (max_iter : nat) : res (option outcome) :=
  bind (construct rnd ch sort o sections ground water ys x2mesh c) (fun B =>
  match B with None => Ok None | Some B => solve_built_by solve ty circ E nu o B (run cs []) max_iter end).
End Full.
