(** When two lists of layers describe the same soil. *)
From Coq Require Import List Bool Arith ZArith QArith Qabs Reals Qreals Permutation.
From Verif Require Import Base PileModel PileSpec MeshModel MeshSpec StressModel StressSpec CreateModel AxialModel LateralModel CapacityModel FullModel.
Import ListNotations.
Local Open Scope Q_scope.

(** ** The soil at one elevation *)
(** A value given at the top and one given at the bottom of a layer, at elevation [z] *)
Definition linear (l : layer) (v w : R) (z : Q) : R := (v + (w - v) * ((Q2R (l_top l) - Q2R z) / (Q2R (l_top l) - Q2R (l_bottom l))))%R.

(** One number holds for the whole layer, two are interpolated; anything else is no parameter *)
Definition param_at (l : layer) (p : rparam) (z : Q) : option R :=
  match p with PNum v => Some v | PList [v] => Some v | PList [v; w] => Some (linear l v w z) | _ => None end.

Definition shared (l l' : layer) (z : Q) : Prop := l_bottom l <= z /\ z <= l_top l /\ l_bottom l' <= z /\ z <= l_top l'.

Definition same_param (l l' : layer) (p p' : rparam) : Prop := forall z, shared l l' z -> param_at l p z = param_at l' p' z.
(** A function of the depth below ground is the same in both *)
Definition same_custom (l l' : layer) (p p' : rparam) : Prop :=
  match p, p' with
  | PFun f, PFun f' => forall X, f X = f' X
  | PFun _, _ | _, PFun _ => False
  | _, _ => same_param l l' p p'
  end.
Definition same_four (l l' : layer) (f f' : four) : Prop :=
  same_custom l l' (f_X f) (f_X f') /\ same_custom l l' (f_n f) (f_n f') /\ same_custom l l' (f_k f) (f_k f') /\ same_custom l l' (f_Y f) (f_Y f').
Definition same_mult (m m' : multiplier) : Prop := forall X, at_X m X = at_X m' X.
Definition same_mults (m m' : mults) : Prop := same_mult (mu_p m) (mu_p m') /\ same_mult (mu_y m) (mu_y m') /\ same_mult (mu_m m) (mu_m m') /\ same_mult (mu_t m) (mu_t m').

Definition both_or_none {A : Type} (P : A -> A -> Prop) (a a' : option A) : Prop :=
  match a, a' with Some x, Some x' => P x x' | None, None => True | _, _ => False end.

(** The same lateral soil model, with the same parameters wherever both layers are *)
Definition same_lateral (l l' : layer) (m m' : lateral_model) : Prop :=
  match m, m' with
  | Bothkennar_clay Su G0 mu, Bothkennar_clay Su' G0' mu' | Cowden_clay Su G0 mu, Cowden_clay Su' G0' mu' | Dunkirk_sand Su G0 mu, Dunkirk_sand Su' G0' mu' =>
      same_param l l' Su Su' /\ same_param l l' G0 G0' /\ same_mults mu mu'
  | API_sand phi kind k modif e pm ym, API_sand phi' kind' k' modif' e' pm' ym' =>
      same_param l l' phi phi' /\ kind = kind' /\ both_or_none (same_param l l') k k' /\ modif = modif' /\ e = e' /\ same_mult pm pm' /\ same_mult ym ym'
  | API_clay Su eps kind J e pm ym, API_clay Su' eps' kind' J' e' pm' ym' | Modified_Matlock_clay Su eps kind J e pm ym, Modified_Matlock_clay Su' eps' kind' J' e' pm' ym' =>
      same_param l l' Su Su' /\ same_param l l' eps eps' /\ kind = kind' /\ J = J' /\ e = e' /\ same_mult pm pm' /\ same_mult ym ym'
  | Reese_weakrock Ei qu RQD k zt pm ym, Reese_weakrock Ei' qu' RQD' k' zt' pm' ym' =>
      same_param l l' Ei Ei' /\ same_param l l' qu qu' /\ RQD = RQD' /\ k = k' /\ zt = zt' /\ same_mult pm pm' /\ same_mult ym ym'
  | Custom_pisa_sand G0 py mt Hb Mb mu, Custom_pisa_sand G0' py' mt' Hb' Mb' mu' =>
      same_custom l l' G0 G0' /\ same_four l l' py py' /\ same_four l l' mt mt' /\ same_four l l' Hb Hb' /\ same_four l l' Mb Mb' /\ same_mults mu mu'
  | Custom_pisa_clay Su G0 py mt Hb Mb mu, Custom_pisa_clay Su' G0' py' mt' Hb' Mb' mu' =>
      same_custom l l' Su Su' /\ same_custom l l' G0 G0' /\ same_four l l' py py' /\ same_four l l' mt mt' /\ same_four l l' Hb Hb' /\ same_four l l' Mb Mb' /\ same_mults mu mu'
  | _, _ => False
  end.

(** The same axial soil model *)
Definition same_axial (l l' : layer) (m m' : axial_soil) : Prop :=
  match m, m' with
  | Clay a, Clay b => (forall z, shared l l' z -> linear l (ca_Su_top a) (ca_Su_bottom a) z = linear l' (ca_Su_top b) (ca_Su_bottom b) z) /\
      ca_plug a = ca_plug b /\ ca_tm a = ca_tm b /\ ca_zm a = ca_zm b /\ ca_Qm a = ca_Qm b /\ ca_wm a = ca_wm b /\ ca_residual a = ca_residual b /\ ca_tension a = ca_tension b
  | Sand a, Sand b => (forall z, shared l l' z -> linear l (sa_delta_top a) (sa_delta_bottom a) z = linear l' (sa_delta_top b) (sa_delta_bottom b) z) /\
      sa_K a = sa_K b /\ sa_plug a = sa_plug b /\ sa_tm a = sa_tm b /\ sa_zm a = sa_zm b /\ sa_Qm a = sa_Qm b /\ sa_wm a = sa_wm b /\ sa_tension a = sa_tension b
  | _, _ => False
  end.

Definition same_layer (y y' : soil_layer) : Prop :=
  l_weight (y_layer y) == l_weight (y_layer y') /\ both_or_none (same_lateral (y_layer y) (y_layer y')) (y_lat y) (y_lat y') /\
  both_or_none (same_axial (y_layer y) (y_layer y')) (y_ax y) (y_ax y').

(** ** The soil at every elevation *)
Definition overlap (l l' : layer) : Prop := exists z, l_bottom l < z /\ z < l_top l /\ l_bottom l' < z /\ z < l_top l'.
Definition same_soil (ys ys' : list soil_layer) : Prop := forall y y', In y ys -> In y' ys' -> overlap (y_layer y) (y_layer y') -> same_layer y y'.

(** Layers without gaps from [ground] to [bottom], in any order *)
Definition layered (ground : Q) (ys : list soil_layer) (bottom : Q) : Prop :=
  exists d, Permutation (map y_layer ys) d /\ exact_stack ground d /\ stack_bottom ground d == bottom.

(** Every layer of [ys'] is part of one of [ys] *)
Definition finer (ys' ys : list soil_layer) : Prop :=
  forall y', In y' ys' -> exists y, In y ys /\ l_bottom (y_layer y) <= l_bottom (y_layer y') /\ l_top (y_layer y') <= l_top (y_layer y).

(** A pile [p] from [t] to [b] in layers that reach its tip; all elevations to four decimals *)
Record placed (sections : list section) (ground bottom : Q) (ys : list soil_layer) (x : list Q) (c : Q) (p : list section) (b : Q) : Prop := {
  pl_proper : proper sections;
  pl_pile : make_pile sections = Ok p;
  pl_bottom : pile_bottom p = Ok b;
  pl_c : 0.01 <= c;
  pl_layers : layered ground ys bottom;
  pl_deep : bottom <= b;
  pl_tip : b < ground;
  pl_x : forall z, In z x -> b <= z;
  pl_grid : forall z, requested p b (Some (map y_layer ys)) x z -> four_decimals z }.

(** The same elevations are asked for, be it as ends of layers or as additional depths *)
Definition same_requests (p : list section) (b : Q) (ys : list soil_layer) (x : list Q) (ys' : list soil_layer) (x' : list Q) : Prop :=
  forall z, requested p b (Some (map y_layer ys)) x z <-> requested p b (Some (map y_layer ys')) x' z.

(** ** Equal luck *)
(** Calls that differ in nothing but the layer *)
Definition same_call (a a' : args) : Prop :=
  nan_eq (a_sig a) (a_sig a') /\ a_X a == a_X a' /\ a_D a = a_D a' /\ a_L a == a_L a' /\ a_wet a = a_wet a' /\ a_perim a = a_perim a' /\ a_perim_in a = a_perim_in a'.

(** random() and np.argsort give the same for both, in calls at the same elevation *)
Definition same_luck (ys ys' : list soil_layer) (ch ch' : chance) : Prop :=
  forall y y' a a', In y ys -> In y' ys' -> overlap (y_layer y) (y_layer y') -> same_call a a' ->
  a_height a == l_top (y_layer y) - l_bottom (y_layer y) -> a_height a' == l_top (y_layer y') - l_bottom (y_layer y') -> a_depth a - a_depth a' == l_top (y_layer y) - l_top (y_layer y') ->
  (forall m m', y_lat y = Some m -> y_lat y' = Some m' -> c_py ch m a = c_py ch' m' a' /\ c_mt ch m a = c_mt ch' m' a') /\
  (forall m m', y_ax y = Some m -> y_ax y' = Some m' -> c_tz ch m a = c_tz ch' m' a' /\ c_qz ch m a = c_qz ch' m' a').

(** Calls with equal numbers give equal luck *)
Definition same_args (a a' : args) : Prop := same_call a a' /\ a_height a == a_height a' /\ a_depth a == a_depth a'.
Definition steady (ch : chance) : Prop :=
  forall a a', same_args a a' -> (forall m, c_py ch m a = c_py ch m a' /\ c_mt ch m a = c_mt ch m a') /\ (forall m, c_tz ch m a = c_tz ch m a' /\ c_qz ch m a = c_qz ch m a').

(** ** Cutting a layer in two at elevation [z] *)
Definition upper_param (l : layer) (z : Q) (p : rparam) : rparam := match p with PList [v; w] => PList [v; linear l v w z] | _ => p end.
Definition lower_param (l : layer) (z : Q) (p : rparam) : rparam := match p with PList [v; w] => PList [linear l v w z; w] | _ => p end.

Section Part.
Variable part : rparam -> rparam.
Definition part_four (f : four) : four := mkFour (part (f_X f)) (part (f_n f)) (part (f_k f)) (part (f_Y f)).
Definition part_lateral (m : lateral_model) : lateral_model :=
  match m with
  | Bothkennar_clay Su G0 mu => Bothkennar_clay (part Su) (part G0) mu
  | Cowden_clay Su G0 mu => Cowden_clay (part Su) (part G0) mu
  | Dunkirk_sand Dr G0 mu => Dunkirk_sand (part Dr) (part G0) mu
  | API_sand phi kind k modif e pm ym => API_sand (part phi) kind (option_map part k) modif e pm ym
  | API_clay Su eps kind J e pm ym => API_clay (part Su) (part eps) kind J e pm ym
  | Modified_Matlock_clay Su eps kind J e pm ym => Modified_Matlock_clay (part Su) (part eps) kind J e pm ym
  | Reese_weakrock Ei qu RQD k zt pm ym => Reese_weakrock (part Ei) (part qu) RQD k zt pm ym
  | Custom_pisa_sand G0 py mt Hb Mb mu => Custom_pisa_sand (part G0) (part_four py) (part_four mt) (part_four Hb) (part_four Mb) mu
  | Custom_pisa_clay Su G0 py mt Hb Mb mu => Custom_pisa_clay (part Su) (part G0) (part_four py) (part_four mt) (part_four Hb) (part_four Mb) mu
  end.
End Part.

(** values at the top and the bottom of the part from [zt] to [zb] *)
Definition part_axial (l : layer) (zt zb : Q) (m : axial_soil) : axial_soil :=
  match m with
  | Clay c => Clay (mkClayAxial (linear l (ca_Su_top c) (ca_Su_bottom c) zt) (linear l (ca_Su_top c) (ca_Su_bottom c) zb)
                      (ca_plug c) (ca_alpha_limit c) (ca_tm c) (ca_zm c) (ca_Qm c) (ca_wm c) (ca_residual c) (ca_tension c))
  | Sand c => Sand (mkSandAxial (linear l (sa_delta_top c) (sa_delta_bottom c) zt) (linear l (sa_delta_top c) (sa_delta_bottom c) zb)
                      (sa_K c) (sa_plug c) (sa_tm c) (sa_zm c) (sa_Qm c) (sa_wm c) (sa_inside c) (sa_tension c))
  end.

Definition upper_part (y : soil_layer) (z : Q) : soil_layer := let l := y_layer y in
  mkSL (mkLayer (l_top l) z (l_weight l)) (option_map (part_lateral (upper_param l z)) (y_lat y)) (option_map (part_axial l (l_top l) z) (y_ax y)).
Definition lower_part (y : soil_layer) (z : Q) : soil_layer := let l := y_layer y in
  mkSL (mkLayer z (l_bottom l) (l_weight l)) (option_map (part_lateral (lower_param l z)) (y_lat y)) (option_map (part_axial l z (l_bottom l)) (y_ax y)).
(** The additional depths with the elevation of the cut, where that is on the pile *)
Definition with_cut (b z : Q) (x : list Q) : list Q := if Qle_bool b z then z :: x else x.
