(** The same pile, soil, loads and supports with the elevations measured from another datum. *)
From Coq Require Import List Bool Arith ZArith QArith Qabs.
From Verif Require Import Base BCModel PileModel MeshModel StressModel CreateModel SolveModel WholeModel SplitSpec FullModel GetterModel ResultModel SessionModel.
Import ListNotations.
Local Open Scope Q_scope.

(** Every elevation counts [d] metres more; nothing else changes *)
Definition raise_section (d : Q) (s : section) : section :=
  mkSection (s_top s + d) (s_bottom s + d) (s_width s) (s_area s) (s_inertia s) (s_entrapped s) (s_outer s) (s_inner s) (s_footprint s).
Definition raise_layer (d : Q) (l : layer) : layer := mkLayer (l_top l + d) (l_bottom l + d) (l_weight l).
Definition raise_soil (d : Q) (y : soil_layer) : soil_layer := mkSL (raise_layer d (y_layer y)) (y_lat y) (y_ax y).
Definition raise_call (d : Q) (c : BCModel.call) : BCModel.call :=
  match c with
  | SetPointload e Py Pz Mx => SetPointload (e + d) Py Pz Mx
  | SetPointdisplacement e Ty Tz Rx => SetPointdisplacement (e + d) Ty Tz Rx
  | SetSupport e Ty Tz Rx => SetSupport (e + d) Ty Tz Rx
  end.
Definition raise_row (d : Q) (r : Q * section) : Q * section := (fst r + d, raise_section d (snd r)).
Definition call_elevation (c : BCModel.call) : Q :=
  match c with SetPointload e _ _ _ | SetPointdisplacement e _ _ _ | SetSupport e _ _ _ => e end.

(** Elevation [a] on the old datum is [b] on the new one *)
Definition up (d a b : Q) : Prop := b == a + d.

(** Sorting looks at nothing but the order of the elevations *)
Definition sorts_alike (d : Q) (sort sort' : list (Q * section) -> list (Q * section)) : Prop :=
  forall rows, sort' (map (raise_row d) rows) = map (raise_row d) (sort rows).

(** Calls with equal numbers get equal random numbers *)
Definition alike (ch ch' : chance) : Prop :=
  forall a a', same_args a a' -> (forall m, c_py ch m a = c_py ch' m a' /\ c_mt ch m a = c_mt ch' m a') /\ (forall m, c_tz ch m a = c_tz ch' m a' /\ c_qz ch m a = c_qz ch' m a').

(** Half-way between two tenths of a millimetre *)
Definition half_way (z : Q) : Prop := exists k, z * 10000 == inject_Z k + (1#2).
(** The datum moves by whole tenths of a millimetre: an even number of them, or no elevation of the mesh is half-way *)
Definition moves (d : Q) (m : list Q) : Prop :=
  exists k, d == inject_Z k / 10000 /\ (Z.even k = true \/ forall z, In z m -> ~ half_way z).

(** Elevations that either datum puts within a thousand kilometres *)
Definition within (d : Q) (ls : list layer) : Prop :=
  forall l, In l ls -> Qabs (l_top l) <= 1000000 /\ Qabs (l_bottom l) <= 1000000 /\ Qabs (l_top l + d) <= 1000000 /\ Qabs (l_bottom l + d) <= 1000000.

(** What is set at elevation [e] reaches the same nodes with both datums *)
Definition same_reach (d : Q) (nodes : list Q) (e : Q) : Prop :=
  forall z, In z nodes -> (Qabs (z - e) <= 0.001 + 0.00001 * Qabs e <-> Qabs (z - e) <= 0.001 + 0.00001 * Qabs (e + d)).
(** It does when no node but the one at [e] itself is near *)
Definition clear_of (d : Q) (nodes : list Q) (e : Q) : Prop :=
  forall z, In z nodes -> z == e \/ (0.001 + 0.00001 * Qabs e < Qabs (z - e) /\ 0.001 + 0.00001 * Qabs (e + d) < Qabs (z - e)).

(** ** Results: the same numbers at elevations that are [d] more *)
Definition rows_up (d : Q) (a b : list (Q * triple)) : Prop := Forall2 (fun r r' => up d (fst r) (fst r') /\ snd r = snd r') a b.
Definition mob_up (d : Q) (a b : list mob_row) : Prop :=
  Forall2 (fun r r' => up d (r_z r) (r_z r') /\ r_p r = r_p r' /\ r_pmax r = r_pmax r' /\ r_m r = r_m r' /\ r_mmax r = r_mmax r') a b.
Definition result_up (d : Q) (a b : result) : Prop :=
  both_or_none (rows_up d) (res_disp a) (res_disp b) /\ both_or_none (rows_up d) (res_forces a) (res_forces b) /\ rows_up d (res_reac a) (res_reac b) /\
  both_or_none (mob_up d) (res_mob a) (res_mob b) /\ res_hb a = res_hb b /\ res_mb a = res_mb b /\ res_iter a = res_iter b.
(** Without soil *)
Definition beam_up (d : Q) (a b : tables) : Prop :=
  t_d a = t_d b /\ t_Q a = t_Q b /\ rows_up d (t_disp a) (t_disp b) /\ rows_up d (t_forces a) (t_forces b) /\ rows_up d (t_reac a) (t_reac b).
(** Both raise the same exception, or both return *)
Definition alike_res {A : Type} (P : A -> A -> Prop) (r r' : res A) : Prop :=
  match r, r' with Ok a, Ok b => P a b | Err e, Err e' => e = e' | _, _ => False end.
(** Tables of springs: the same rows for the nodes *)
Definition table_up (n : nat) (t t' : option GetterModel.table) : Prop :=
  both_or_none (fun t t' => forall i v, (0 < n)%nat -> (i <= n)%nat -> t' i v = t i v) t t'.
Definition answer_up (d : Q) (n : nat) (a b : answer) : Prop :=
  match a, b with
  | Analysis r, Analysis r' => alike_res (both_or_none (result_up d)) r r'
  | Springs t, Springs t' => alike_res (table_up n) t t'
  | _, _ => a = b
  end.

Definition raise_op (d : Q) (o : op) : op := match o with Set_ c => Set_ (raise_call d c) | _ => o end.
Definition sets_clear (d : Q) (nodes : list Q) (o : op) : Prop := match o with Set_ c => same_reach d nodes (call_elevation c) | _ => True end.

(** ** The constructed model *)
Definition built_up (d : Q) (B B' : built) : Prop :=
  b_pile B' = map (raise_section d) (b_pile B) /\ Forall2 (up d) (nodes_of (b_mesh B)) (nodes_of (b_mesh B')) /\
  Forall2 (fun e e' => up d (fst e) (fst e') /\ up d (snd e) (snd e')) (elements_of (b_mesh B)) (elements_of (b_mesh B')) /\
  sig_top (b_setting B') = sig_top (b_setting B) /\ sig_bottom (b_setting B') = sig_bottom (b_setting B) /\ b_made B' = b_made B.
