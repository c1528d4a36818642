(** A program working on one Model object: openpile/construct.py 1398-1454 (shaft and tip
    resistance), 1522-1623 (setters), 1625-1720 (spring tables) and 1844-1858 (solve) as operations on
    the object's state.  The state that changes is the list of boundary conditions and the arrays of
    distributed springs; pile, mesh, element matrices, options and base springs stay as they were when
    the model was created.  Plots, names and assignments to the fields of the object are not
    modelled. *)
From Coq Require Import List Bool Arith ZArith QArith Qabs Qminmax.
From Verif Require Import Base LinAlg StressModel GetterModel SolveModel SpringModel WinklerModel ResultModel CreateModel BCModel WholeModel.
Import ListNotations.
Local Open Scope Q_scope.

(** construct.py 1147-1151: spring_dim, tz_springs_dim and qz_spring_dim *)
Definition spring_dim : nat := 15.

(** What does not change.  [fr_soil] tells whether the model has a soil profile. *)
Record frame := {
  fr_nodes : list Q;
  fr_mech : nat -> mat;
  fr_L : nat -> Q;
  fr_mtc : nat -> Q * Q * Q * Q;
  fr_soil : bool;
  fr_lateral : bool; fr_axial : bool; fr_moment : bool;
  fr_base_shear : bool; fr_base_moment : bool; fr_base_axial : bool;
  fr_hb : curve; fr_mb : curve; fr_qz : curve }.

Record state := { st_bcs : list bc; st_springs : spring_state }.

Definition fr_n (fr : frame) : nat := (length (fr_nodes fr) - 1)%nat.

(** springs[e, j] as points (displacement, resistance) *)
Definition spring_curve (s : springs) (e j : nat) : curve := map (fun v => (s_y s e j v, s_p s e j v)) (seq 0 spring_dim).

(** mt_springs[e, j]: for every index of the rotation the points over the lateral resistance *)
Definition moment_columns (s : springs5) (e j : nat) : list curve :=
  map (fun v => map (fun q => (t_t s e j q v, t_m s e j q v)) (seq 0 spring_dim)) (seq 0 spring_dim).

Definition when {A : Type} (b : bool) (a : A) : option A := if b then Some a else None.

(** kernel.py 717-787: what build_stiffness_matrix reads *)
Definition as_model (fr : frame) (s : spring_state) : wmodel :=
  {| w_n := fr_n fr; w_mech := fr_mech fr; w_L := fr_L fr;
     w_py := when (fr_lateral fr) (spring_curve (g_py s));
     w_tz := when (fr_axial fr) (spring_curve (g_tz s));
     w_mt := when (fr_moment fr) (moment_columns (g_mt s));
     w_mtc := fr_mtc fr;
     w_hb := when (fr_base_shear fr) (fr_hb fr);
     w_mb := when (fr_base_moment fr) (fr_mb fr);
     w_qz := when (fr_base_axial fr) (fr_qz fr) |}.

Definition arrays_of (fr : frame) (s : spring_state) : soil_arrays :=
  {| a_py := spring_curve (g_py s); a_mt := moment_columns (g_mt s); a_hb := fr_hb fr; a_mb := fr_mb fr |}.

(** construct.py 1844-1858 with winkler.py 449-637: the tables of boundary conditions are made anew
    by every analysis *)
Definition solve_state (solve : solver) (fr : frame) (st : state) : res (option result) :=
  bind (global_forces (fr_nodes fr) (st_bcs st)) (fun tf =>
  bind (global_disp (fr_nodes fr) (st_bcs st)) (fun td =>
  bind (global_restrained (fr_nodes fr) (st_bcs st)) (fun tr =>
  solve_model solve (as_model fr (st_springs st)) (fr_nodes fr) (when (fr_soil fr) (arrays_of fr (st_springs st)))
    (dof_vector tf) (dof_vector td) (dof_flags tr)))).

(** construct.py 1419-1445: compression (minima) and tension (maxima); None when an exception is
    raised *)
Definition extreme_friction (f : list Q -> Q) (n : nat) (s : springs) : list (Q * Q) :=
  map (fun e => (f (map snd (spring_curve s e 0)), f (map snd (spring_curve s e 1)))) (seq 0 n).

Definition shaft_state (fr : frame) (st : state) : option (Q * Q) :=
  if fr_soil fr then
    match StressModel.influence (fr_nodes fr) with
    | Some infl => Some (shaft_sum (extreme_friction qmin (fr_n fr) (g_tz (st_springs st))) infl,
                         shaft_sum (extreme_friction qmax (fr_n fr) (g_tz (st_springs st))) infl)
    | None => None
    end
  else None.

(** construct.py 1448-1454 *)
Definition tip_state (fr : frame) : option Q := when (fr_soil fr) (Qabs (qmin (map snd (fr_qz fr)))).

(** ** Programs *)
Inductive op := Set_ (c : BCModel.call) | Table (g : getter) (k : layout) | Solve | Shaft | Tip.

Inductive answer :=
| Done
| Springs (t : res (option GetterModel.table))
| Analysis (r : res (option result))
| Number2 (r : option (Q * Q))
| Number (r : option Q).

(** construct.py 1641, 1675, 1709: the tables of a model without soil are None *)
Definition table_state (fr : frame) (g : getter) (k : layout) (st : state) : res (option GetterModel.table) * state :=
  if fr_soil fr then
    let '(t, s') := GetterModel.call (fr_n fr) spring_dim (fun i => nth i (fr_nodes fr) 0) g k (st_springs st) in
    (t, {| st_bcs := st_bcs st; st_springs := s' |})
  else (Ok None, st).

Definition step (solve : solver) (fr : frame) (o : op) (st : state) : answer * state :=
  match o with
  | Set_ c => (Done, {| st_bcs := exec (st_bcs st) c; st_springs := st_springs st |})
  | Table g k => let '(t, st') := table_state fr g k st in (Springs t, st')
  | Solve => (Analysis (solve_state solve fr st), st)
  | Shaft => (Number2 (shaft_state fr st), st)
  | Tip => (Number (tip_state fr), st)
  end.

Fixpoint session (solve : solver) (fr : frame) (l : list op) (st : state) : list answer * state :=
  match l with
  | [] => ([], st)
  | o :: t => let '(a, st1) := step solve fr o st in let '(r, st2) := session solve fr t st1 in (a :: r, st2)
  end.
