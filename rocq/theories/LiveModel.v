(** A Model object with soil as the user holds it: constructed from sections, layers and soil models
    (openpile/construct.py 1147-1360), then set, read and analysed by any program of operations (1398-1454,
    1522-1720, 1844-1858).  Joins FullModel and SessionModel.
    The element matrices, which the code makes anew in every analysis (kernel.py 717-787) from data that do
    not change, are made once here; NaN in them or in the springs gives no answers: Ok None. *)
From Coq Require Import List Bool Arith QArith Reals.
From Verif Require Import Base LinAlg BeamModel PileModel MeshModel GetterModel SpringModel WinklerModel CreateModel WholeModel ResultModel SessionModel SolveModel.
From Verif Require Import FullModel.
Import ListNotations.
Local Open Scope Q_scope.

(** springs[e, j, 0, v] and springs[e, j, 1, v] *)
Definition array_of (f : nat -> nat -> SpringModel.curve) : GetterModel.springs :=
  {| s_p := fun e j v => snd (nth v (f e j) (0, 0)); s_y := fun e j v => fst (nth v (f e j) (0, 0)) |}.
(** mt_springs[e, j, 0, q, v] and mt_springs[e, j, 1, q, v]: [v] numbers the columns *)
Definition array5_of (f : nat -> nat -> list SpringModel.curve) : springs5 :=
  {| t_m := fun e j q v => snd (nth q (nth v (f e j) []) (0, 0)); t_t := fun e j q v => fst (nth q (nth v (f e j) []) (0, 0)) |}.

(** construct.py 1029-1058: the options and arrays of the object *)
Definition live_frame (o : options) (B : built) (ks : list mat) (cs : list (Q * Q * Q * Q)) : frame :=
  let g := springs_of (b_made B) in
  {| fr_nodes := nodes_of (b_mesh B); fr_mech := fun e => nth e ks no_mat; fr_L := elem_length (elements_of (b_mesh B)); fr_mtc := fun e => nth e cs (0, 0, 0, 0);
     fr_soil := true; fr_lateral := on_py o; fr_axial := on_tz o; fr_moment := on_mt o;
     fr_base_shear := on_hb o; fr_base_moment := on_mb o; fr_base_axial := on_qz o;
     fr_hb := FullModel.g_hb g; fr_mb := FullModel.g_mb g; fr_qz := FullModel.g_qz g |}.

Definition live_springs (B : built) : spring_state :=
  let g := springs_of (b_made B) in {| GetterModel.g_py := array_of (FullModel.g_py g); GetterModel.g_tz := array_of (FullModel.g_tz g); GetterModel.g_mt := array5_of (FullModel.g_mt g) |}.

Section Live.
Variable rnd : R -> Q.

(** Pile(...), SoilProfile(...), Model(...), then the operations of [prog] *)
Definition live (ch : chance) (sort : list (Q * section) -> list (Q * section)) (solve : solver) (ty : elem_type) (circ : bool) (E nu : Q) (o : options)
    (sections : list section) (ground water : Q) (ys : list soil_layer) (x2mesh : list Q) (c : Q) (prog : list op) : res (option (list answer)) :=
  bind (construct rnd ch sort o sections ground water ys x2mesh c) (fun B =>
  match B with
  | None => Ok None
  | Some B =>
      bind (elem_matrices ty circ E nu (b_pile B) (elements_of (b_mesh B))) (fun ks =>
      bind (if on_mt o then moment_coefs ty circ E nu (b_pile B) (elements_of (b_mesh B)) else Ok (Some [])) (fun cs =>
      match ks, cs, nan_free (length (elements_of (b_mesh B))) (b_made B) with
      | Some ks, Some cs, true => Ok (Some (fst (session solve (live_frame o B ks cs) prog {| st_bcs := []; st_springs := live_springs B |})))
      | _, _, _ => Ok None
      end))
  end).
End Live.
