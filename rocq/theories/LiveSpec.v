(** What the user of a constructed pile in soil may expect of any program of operations on it. *)
From Coq Require Import List Bool Arith QArith Qabs Reals Qreals.
From Verif Require Import Base LinAlg PileModel MeshModel StressSpec SolveModel SpringModel WinklerModel CreateModel ResultModel BCModel GetterModel SessionModel AxialModel CapacityModel CapacitySpec FullModel FullSpec.
Import ListNotations.
Local Open Scope Q_scope.

(** The tables of [w] show the outcome of the iteration *)
Definition shows (nodes : list Q) (out : outcome) (w : result) : Prop :=
  res_disp w = option_map (disp_rows nodes) (o_d out) /\
  res_reac w = match o_Q out with Some R => reaction_rows (disp_rows nodes R) | None => [] end /\
  res_iter w = o_iter out.

(** Every operation is answered by what it promises; the distributed table of the rotational springs is
    the one that raises (C64) *)
Definition answered (o : op) (a : answer) : Prop :=
  match o, a with
  | Set_ _, Done => True
  | Table Rotational Distributed, Springs r => r = Err AttributeError
  | Table _ OtherLayout, Springs r => r = Ok None
  | Table _ _, Springs (Ok (Some _)) => True
  | Solve, Analysis (Ok (Some _)) => True
  | Shaft, Number2 (Some _) => True
  | Tip, Number (Some _) => True
  | _, _ => False
  end.

(** Storage in float32 within a relative error [eps] (6e-8 for numbers that are not subnormal) *)
Definition accurate (eps : R) (rnd : R -> Q) : Prop := forall x, (Rabs (Q2R (rnd x) - x) <= eps * Rabs x)%R.

(** Friction per metre, in compression or in tension, at end [j] of element [i] *)
Definition end_friction (o : options) (sections : list section) (ground water : Q) (ys : list soil_layer) (m : list Q) (compression : bool) (i j : nat) (v : R) : Prop :=
  let e := nth i (elements_of m) (0, 0) in let z := if Nat.eqb j 0 then fst e else snd e in
  (ground <= snd e /\ v = 0%R) \/
  (snd e < ground /\ exists y s, (forall y', In y' ys /\ l_bottom (y_layer y') <= snd e /\ fst e <= l_top (y_layer y') <-> y' = y) /\ nearby sections s e /\
   v = match (if on_tz o then y_ax y else None) with
       | Some md => line_capacity compression md (Q2R (overburden (map y_layer ys) water z)) (Q2R ((l_top (y_layer y) - z) / (l_top (y_layer y) - l_bottom (y_layer y)))) (Q2R (s_outer s)) (Q2R (s_outer s))
       | None => 0%R
       end).

(** End bearing: the layer of the lowest element, the section at the tip *)
Definition tip_bearing_of (o : options) (p : list section) (water b : Q) (ys : list soil_layer) (m : list Q) (v : R) : Prop :=
  let e := last (elements_of m) (0, 0) in
  exists y s, (forall y', In y' ys /\ l_bottom (y_layer y') <= snd e /\ fst e <= l_top (y_layer y') <-> y' = y) /\ last_section p = Ok s /\
   v = match (if on_qz o then y_ax y else None) with
       | Some md => (unit_bearing md (Q2R (overburden (map y_layer ys) water b)) (Q2R ((l_top (y_layer y) - b) / (l_top (y_layer y) - l_bottom (y_layer y)))) *
                    bearing_factor md * Q2R (if plugged true (soil_plug md) then s_footprint s else s_area s))%R
       | None => 0%R
       end.

(** |x - v| <= eps v *)
Definition close (eps x v : R) : Prop := (Rabs (x - v) <= eps * v)%R.
