(** The same soil, pile and spring written in other units of force and length: one old unit of force is [f] new ones,
    one old unit of length is [l] new ones.  Stresses, strengths and moduli are multiplied by f / l^2, subgrade
    moduli by f / l^3, depths and diameters by l; angles, densities, ratios and multipliers stay, and functions of
    depth take the depth in the new unit. *)
From Coq Require Import List Reals.
From Verif Require Import Base ConicModel ApiSandModel AxialModel LateralModel.
Import ListNotations.
Local Open Scope R_scope.

Section Units.
Variables f l : R.
Definition per_area : R := f / l ^ 2.
Definition per_volume : R := f / l ^ 3.
Definition per_length : R := f / l.
Definition couple : R := f * l.

Definition param_times (c : R) (p : rparam) : rparam :=
  match p with PNum x => PNum (c * x) | PList xs => PList (map (Rmult c) xs) | PFun g => PFun (fun X => c * g (X / l)) end.
Definition stress (p : rparam) : rparam := param_times per_area p.
Definition ratio (p : rparam) : rparam := param_times 1 p.
Definition mult_units (m : multiplier) : multiplier := match m with MNum c => MNum c | MFun g => MFun (fun X => g (X / l)) end.
Definition mults_units (mu : mults) : mults := mkMults (mult_units (mu_p mu)) (mult_units (mu_y mu)) (mult_units (mu_m mu)) (mult_units (mu_t mu)).
Definition four_units (w : four) : four := mkFour (ratio (f_X w)) (ratio (f_n w)) (ratio (f_k w)) (ratio (f_Y w)).

Definition model_units (m : lateral_model) : lateral_model :=
  match m with
  | Bothkennar_clay Su G0 mu => Bothkennar_clay (stress Su) (stress G0) (mults_units mu)
  | Cowden_clay Su G0 mu => Cowden_clay (stress Su) (stress G0) (mults_units mu)
  | Dunkirk_sand Dr G0 mu => Dunkirk_sand (ratio Dr) (stress G0) (mults_units mu)
  | API_sand phi kind k modif e pm ym => API_sand (ratio phi) kind (option_map (param_times per_volume) k) modif e (mult_units pm) (mult_units ym)
  | API_clay Su eps50 kind J e pm ym => API_clay (stress Su) (ratio eps50) kind J e (mult_units pm) (mult_units ym)
  | Modified_Matlock_clay Su eps50 kind J e pm ym => Modified_Matlock_clay (stress Su) (ratio eps50) kind J e (mult_units pm) (mult_units ym)
  | Reese_weakrock Ei qu RQD k ztop pm ym => Reese_weakrock (stress Ei) (stress qu) RQD k (l * ztop) (mult_units pm) (mult_units ym)
  | Custom_pisa_sand G0 py mt Hb Mb mu => Custom_pisa_sand (stress G0) (four_units py) (four_units mt) (four_units Hb) (four_units Mb) (mults_units mu)
  | Custom_pisa_clay Su G0 py mt Hb Mb mu => Custom_pisa_clay (stress Su) (stress G0) (four_units py) (four_units mt) (four_units Hb) (four_units Mb) (mults_units mu)
  end.
Definition place_units (q : place) : place :=
  mkPlace (per_area * q_sig q) (l * q_X q) (l * q_height q) (l * q_depth q) (l * q_D q) (l * q_L q) (q_wet q).

Definition clay_units (m : clay_axial) : clay_axial :=
  mkClayAxial (per_area * ca_Su_top m) (per_area * ca_Su_bottom m) (ca_plug m) (ca_alpha_limit m) (mult_units (ca_tm m)) (mult_units (ca_zm m))
    (ca_Qm m) (ca_wm m) (ca_residual m) (ca_tension m).
Definition sand_units (m : sand_axial) : sand_axial :=
  mkSandAxial (sa_delta_top m) (sa_delta_bottom m) (sa_K m) (sa_plug m) (mult_units (sa_tm m)) (mult_units (sa_zm m))
    (sa_Qm m) (sa_wm m) (sa_inside m) (sa_tension m).
End Units.

(** The second result is the first in the new units, displacements times [cx] and resistances times [cy]; or the
    same error. *)
Definition measured (cx cy : R) (r r' : res curve) : Prop :=
  match r, r' with
  | Ok c, Ok c' => fst c' = map (Rmult cx) (fst c) /\ snd c' = map (option_map (Rmult cy)) (snd c)
  | Err e, Err e' => e = e'
  | _, _ => False
  end.
Definition measured_rows (cx cy : R) (r r' : res curves) : Prop :=
  match r, r' with
  | Ok c, Ok c' => fst c' = map (map (Rmult cx)) (fst c) /\ snd c' = map (map (option_map (Rmult cy))) (snd c)
  | Err e, Err e' => e = e'
  | _, _ => False
  end.
Definition measured_points (cx cy : R) (r r' : res (list R * list R)) : Prop :=
  match r, r' with
  | Ok c, Ok c' => fst c' = map (Rmult cx) (fst c) /\ snd c' = map (Rmult cy) (snd c)
  | Err e, Err e' => e = e'
  | _, _ => False
  end.

(** The models whose formulas have no dimensional constant. *)
Definition dimensionless_formulas (m : lateral_model) : Prop :=
  match m with API_sand _ _ _ _ _ _ _ | Reese_weakrock _ _ _ _ _ _ _ => False | _ => True end.
