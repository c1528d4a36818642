(** The whole result of an analysis of a Model object whose fields have been assigned to: openpile/winkler.py 502-637.
    The stiffness matrix takes the springs that are switched on at the time of the analysis (kernel.py 717-787); the
    mobilisation tables take the arrays that were made when the model was constructed (winkler.py 29-64, 618-629). *)
From Coq Require Import List Bool Arith QArith Reals.
From Verif Require Import Base LinAlg BCModel PileModel MeshModel BeamModel SolveModel SpringModel WinklerModel CreateModel WholeModel ResultModel FullModel EditModel.
Import ListNotations.
Local Open Scope Q_scope.

(** EditModel.winkler_on with the tables of the result *)
Definition report_on (solve : solver) (ty : elem_type) (circ : bool) (E nu : Q) (o : options) (p : list section) (nodes : list Q) (elems : list (Q * Q))
    (M : @made stored_value) (l : list bc) (max_iter : nat) : res (option result) :=
  let g := springs_of M in
  bind (global_forces nodes l) (fun tf =>
  bind (global_disp nodes l) (fun td =>
  bind (global_restrained nodes l) (fun tr =>
  bind (elem_matrices ty circ E nu p elems) (fun ks =>
  bind (if on_mt o then moment_coefs ty circ E nu p elems else Ok (Some [])) (fun cs =>
  match ks, cs, nan_free (length elems) M with
  | Some ks, Some cs, true =>
      let K := soil_model p elems ks (when_on (on_py o) (g_py g)) (when_on (on_tz o) (g_tz g)) (when_on (on_mt o) (g_mt g))
          (fun e => nth e cs (0, 0, 0, 0)) (when_on (on_hb o) (g_hb g)) (when_on (on_mb o) (g_mb g)) (when_on (on_qz o) (g_qz g)) in
      bind (winkler_model solve K (dof_vector tf) (dof_vector td) (dof_flags tr) max_iter) (fun r =>
      bind (result_of K nodes (g_py g) (g_mt g) (g_hb g) (g_mb g) r) (fun w => Ok (Some w)))
  | _, _, _ => Ok None
  end))))).

(** construct.py 1844-1858 on an object with soil, springs and tables of nodes and elements that belong together *)
Definition report_object (solve : solver) (ob : object) : option (res (option result)) :=
  let f := ob_fields ob in
  match fst (read_nodes ob), fst (read_elems ob), fd_soil f, ob_made ob with
  | Some nodes, Some elems, Some _, Some M =>
      if Nat.eqb (length nodes) (S (length elems))
      then Some (report_on solve (fd_type f) (fd_circ f) (fd_E f) (fd_nu f) (fd_on f) (fd_pile f) nodes elems M (ob_bcs ob) 100) else None
  | _, _, _, _ => None
  end.

(** Construct a model, make the setter calls, analyse *)
Definition soil_report (rnd : R -> Q) (ch : chance) (sort : list (Q * section) -> list (Q * section)) (solve : solver) (ty : elem_type) (circ : bool) (E nu : Q) (o : options)
    (sections : list section) (ground water : Q) (ys : list soil_layer) (x2mesh : list Q) (c : Q) (cs : list call) (max_iter : nat) : res (option result) :=
  bind (construct rnd ch sort o sections ground water ys x2mesh c) (fun B =>
  match B with
  | None => Ok None
  | Some B => report_on solve ty circ E nu o (b_pile B) (nodes_of (b_mesh B)) (elements_of (b_mesh B)) (b_made B) (run cs []) max_iter
  end).
