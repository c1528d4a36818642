(** openpile/winkler.py 449-499: beam called with a model that has soil.  build_stiffness_matrix
    (kernel.py 717-787) is then called without a kind: the springs along the pile are left out (755-757:
    the warning is built and thrown away), the base springs are not (776-785). *)
From Coq Require Import List Bool Arith ZArith QArith.
From Verif Require Import Base BCModel LinAlg PileModel BeamModel SolveModel SpringModel WinklerModel ResultModel WholeModel SessionModel.
Import ListNotations.
Local Open Scope Q_scope.

(** kernel.py 717-787 with u = 0 and kind = None.  A kind that is none of the three names takes the
    branch of the initial stiffness since the displacement is zero (855, 916). *)
Definition beam_matrix (M : wmodel) : res mat :=
  bind (add_base M 2 (w_hb M) base_spring zero Initial (jit_build (w_n M) (w_mech M))) (fun K1 =>
  bind (add_base M 1 (w_mb M) base_spring zero Initial K1) (fun K2 =>
  add_base M 3 (w_qz M) base_axial_spring zero Initial K2)).

(** winkler.py 469-484 *)
Definition beam_in_soil (solve : solver) (M : wmodel) (F U : vec) (restrained : nat -> bool) : res (vec * vec * list vec) :=
  bind (beam_matrix M) (fun K =>
  match solve_equations solve (size M) K F U (supports_of restrained U) with
  | None => Err LinAlgError
  | Some (d, R) => Ok (d, R, pile_internal_forces (S (w_n M)) (w_mech M) d)
  end).

(** winkler.py 486-499 *)
Definition beam_in_soil_result (solve : solver) (M : wmodel) (z : list Q) (F U : vec) (restrained : nat -> bool) : res (option result) :=
  bind (beam_in_soil solve M F U restrained) (fun x => let '(d, R, q) := x in
  Ok (Some {| res_disp := Some (disp_rows z d);
              res_forces := Some (structural_forces z q (map (w_L M) (seq 0 (w_n M))));
              res_reac := reaction_rows (disp_rows z R);
              res_mob := None; res_hb := None; res_mb := None; res_iter := 1 |})).

(** beam(model) on the state of a model object; [fr_soil]: whether it has soil *)
Definition beam_state (solve : solver) (fr : frame) (st : state) : res (option result) :=
  bind (global_forces (fr_nodes fr) (st_bcs st)) (fun tf =>
  bind (global_disp (fr_nodes fr) (st_bcs st)) (fun td =>
  bind (global_restrained (fr_nodes fr) (st_bcs st)) (fun tr =>
  (if fr_soil fr then beam_in_soil_result else beam_result) solve (as_model fr (st_springs st)) (fr_nodes fr)
    (dof_vector tf) (dof_vector td) (dof_flags tr)))).
