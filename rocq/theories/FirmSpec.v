(** Comparison of soils of which one is at least as strong as the other, and of curves of which one resists at least as much. *)
From Coq Require Import List Bool Arith QArith Reals Qreals.
From Verif Require Import Base PileModel AxialModel CapacityModel CapacitySpec ApiSandModel LateralModel.
Import ListNotations.
Local Open Scope R_scope.

(** ** Axial soil models and layers *)
Definition firmer_axial (s s' : axial_soil) : Prop :=
  match s, s' with
  | Clay c, Clay c' => ca_Su_top c <= ca_Su_top c' /\ ca_Su_bottom c <= ca_Su_bottom c' /\ ca_plug c' = ca_plug c /\
      factor (ca_tm c) <= factor (ca_tm c') /\ ca_tension c <= ca_tension c' /\ ca_Qm c <= ca_Qm c'
  | Sand s, Sand s' => sa_delta_top s <= sa_delta_top s' /\ sa_delta_bottom s <= sa_delta_bottom s' /\ sa_K s <= sa_K s' /\ sa_plug s' = sa_plug s /\
      factor (sa_tm s) <= factor (sa_tm s') /\ sa_tension s <= sa_tension s' /\ sa_Qm s <= sa_Qm s'
  | _, _ => False
  end.
(** the same layer in another site: not lighter, not weaker *)
Definition firmer_layer (x x' : axial_layer) : Prop :=
  l_top (x_layer x') = l_top (x_layer x) /\ l_bottom (x_layer x') = l_bottom (x_layer x) /\ (l_weight (x_layer x) <= l_weight (x_layer x'))%Q /\
  forall s, x_soil x = Some s -> exists s', x_soil x' = Some s' /\ firmer_axial s s'.

(** ** Curves given by their points: wherever the second is known at no smaller a displacement it resists no less, and it reaches
    every resistance that the first reaches *)
Definition outdone (y p y' p' : list R) : Prop :=
  (forall v w v' w', In (v, w) (combine y p) -> In (v', w') (combine y' p') -> v <= v' -> w <= w') /\
  (forall w, In w p -> exists w', In w' p' /\ w <= w').

(** ** Lateral soil models, compared where a spring is *)
(** a parameter that is no greater than another at [q] *)
Definition at_most (p p' : rparam) (q : place) : Prop := forall v v', custom_value p q = Ok v -> custom_value p' q = Ok v' -> v <= v'.
Definition from (lo : R) (p : rparam) (q : place) : Prop := forall v, custom_value p q = Ok v -> lo <= v.

Definition firmer (m m' : lateral_model) (q : place) : Prop :=
  match m, m' with
  | Bothkennar_clay Su G0 _, Bothkennar_clay Su' G0' _ | Cowden_clay Su G0 _, Cowden_clay Su' G0' _ => at_most Su Su' q /\ at_most G0 G0' q
  | Dunkirk_sand Dr G0 _, Dunkirk_sand Dr' G0' _ => Dr' = Dr /\ at_most G0 G0' q
  | API_sand phi kind k modif _ _ _, API_sand phi' kind' k' modif' _ _ _ => kind' = kind /\ modif' = modif /\ at_most phi phi' q /\
      match modif, k, k' with
      | None, Some k, Some k' => at_most k k' q
      | Some Sorensen, _, _ => True
      | Some Kallehave, _, _ | None, None, None => from 26 phi q
      | _, _, _ => False
      end
  | API_clay Su eps50 kind J _ _ _, API_clay Su' eps50' kind' J' _ _ _ | Modified_Matlock_clay Su eps50 kind J _ _ _, Modified_Matlock_clay Su' eps50' kind' J' _ _ _ =>
      kind = Static /\ kind' = Static /\ at_most Su Su' q /\ at_most eps50' eps50 q /\ J <= J'
  | Custom_pisa_sand G0 py _ _ _ _, Custom_pisa_sand G0' py' _ _ _ _ => py' = py /\ at_most G0 G0' q /\ from (1/8) (f_X py) q
  | Custom_pisa_clay Su G0 py _ _ _ _, Custom_pisa_clay Su' G0' py' _ _ _ _ => py' = py /\ at_most Su Su' q /\ at_most G0 G0' q /\ from (1/8) (f_X py) q
  | _, _ => False
  end.
(** multipliers that do not weaken the springs *)
Definition no_weaker (m m' : lateral_model) (q : place) : Prop :=
  at_X (p_multiplier m) (q_X q) <= at_X (p_multiplier m') (q_X q) /\ at_X (y_multiplier m') (q_X q) <= at_X (y_multiplier m) (q_X q).
(** the same place under no less stress *)
Definition no_shallower (q q' : place) : Prop :=
  q_sig q <= q_sig q' /\ q_X q' = q_X q /\ q_height q' = q_height q /\ q_depth q' = q_depth q /\ q_D q' = q_D q /\ q_L q' = q_L q /\ q_wet q' = q_wet q.
