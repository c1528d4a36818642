(** What the documentation of the soil models promises about their parameters, stated without the
    validators. *)
From Coq Require Import Reals List String.
From Verif Require Import Base ApiSandModel AxialModel LateralModel FieldModel.
Import ListNotations.
Local Open Scope R_scope.

(** Every number of a parameter satisfies [P]: one number, one or two numbers for top and bottom, or a
    function where functions are allowed. *)
Definition all_numbers (P : R -> Prop) (functions : Prop) (p : rparam) : Prop :=
  match p with
  | PNum x => P x
  | PList [x] => P x
  | PList [x; y] => P x /\ P y
  | PList _ => False
  | PFun _ => functions
  end.
Definition gt0 (x : R) := 0 < x.
Definition number_ok (P : R -> Prop) (m : multiplier) := match m with MNum c => P c | MFun _ => True end.
Definition multipliers_in_range (m : lateral_model) : Prop :=
  number_ok (Rle 0) (p_multiplier m) /\ number_ok gt0 (y_multiplier m) /\ number_ok (Rle 0) (m_multiplier m) /\ number_ok gt0 (t_multiplier m).
Definition conic_in_range (f : four) : Prop :=
  all_numbers gt0 True (f_X f) /\ all_numbers (fun x => 0 <= x < 1) True (f_n f) /\ all_numbers gt0 True (f_k f) /\ all_numbers gt0 True (f_Y f).
(** The documented range of the parameters of every lateral model *)
Definition parameters_in_range (m : lateral_model) : Prop :=
  match m with
  | Bothkennar_clay a b _ | Cowden_clay a b _ | Dunkirk_sand a b _ => all_numbers gt0 False a /\ all_numbers gt0 False b
  | API_sand phi _ k _ _ _ _ => all_numbers (fun x => 15 <= x <= 45) False phi /\ (forall p, k = Some p -> all_numbers gt0 False p)
  | API_clay Su eps50 _ J _ _ _ | Modified_Matlock_clay Su eps50 _ J _ _ _ => all_numbers gt0 False Su /\ all_numbers gt0 False eps50 /\ 0.25 <= J <= 0.5
  | Reese_weakrock Ei qu RQD k ztop _ _ => all_numbers gt0 False Ei /\ all_numbers gt0 False qu /\ 0 <= RQD <= 100 /\ 0.00005 <= k <= 0.0005 /\ 0 <= ztop
  | Custom_pisa_sand G0 a b c d _ => all_numbers gt0 True G0 /\ conic_in_range a /\ conic_in_range b /\ conic_in_range c /\ conic_in_range d
  | Custom_pisa_clay Su G0 a b c d _ => all_numbers gt0 True Su /\ all_numbers gt0 True G0 /\ conic_in_range a /\ conic_in_range b /\ conic_in_range c /\ conic_in_range d
  end.

(** The same model with every single number [x] written as [f x]. *)
Definition rewrite_number (f : R -> list R) (p : rparam) : rparam := match p with PNum x => PList (f x) | _ => p end.
Definition rewrite_four (f : R -> list R) (p : four) : four :=
  mkFour (rewrite_number f (f_X p)) (rewrite_number f (f_n p)) (rewrite_number f (f_k p)) (rewrite_number f (f_Y p)).
Definition rewrite_model (f : R -> list R) (m : lateral_model) : lateral_model :=
  let r := rewrite_number f in let r4 := rewrite_four f in
  match m with
  | Bothkennar_clay Su G0 mu => Bothkennar_clay (r Su) (r G0) mu
  | Cowden_clay Su G0 mu => Cowden_clay (r Su) (r G0) mu
  | Dunkirk_sand Dr G0 mu => Dunkirk_sand (r Dr) (r G0) mu
  | API_sand phi kind k modif e pm ym => API_sand (r phi) kind (option_map r k) modif e pm ym
  | API_clay Su eps50 kind J e pm ym => API_clay (r Su) (r eps50) kind J e pm ym
  | Modified_Matlock_clay Su eps50 kind J e pm ym => Modified_Matlock_clay (r Su) (r eps50) kind J e pm ym
  | Reese_weakrock Ei qu RQD k ztop pm ym => Reese_weakrock (r Ei) (r qu) RQD k ztop pm ym
  | Custom_pisa_sand G0 py mt Hb Mb mu => Custom_pisa_sand (r G0) (r4 py) (r4 mt) (r4 Hb) (r4 Mb) mu
  | Custom_pisa_clay Su G0 py mt Hb Mb mu => Custom_pisa_clay (r Su) (r G0) (r4 py) (r4 mt) (r4 Hb) (r4 Mb) mu
  end.

(** The classical (not PISA) models *)
Definition classical (m : lateral_model) : Prop :=
  match m with API_sand _ _ _ _ _ _ _ | API_clay _ _ _ _ _ _ _ | Modified_Matlock_clay _ _ _ _ _ _ _ | Reese_weakrock _ _ _ _ _ _ _ => True | _ => False end.
Definition plain_multiplier (m : multiplier) : Prop := exists c, m = MNum c.

(** A value a multiplier may take: resistances are not multiplied by a negative number, displacements only by
    positive ones. *)
Definition acceptable (a : axis) (x : R) : Prop := match a with P_axis | M_axis => 0 <= x | Y_axis | T_axis => 0 < x end.
(** The call [f] raises [e] at the position [i] of [ds], after floats that are acceptable or, on the p and m
    axes, not a number. *)
Definition first_exception (a : axis) (f : R -> called) (ds : list R) (e : exn) : Prop :=
  exists before d after, ds = before ++ d :: after /\ f d = Raises e /\
    forall x, In x before -> (exists v, f x = Float (Some v) /\ acceptable a v) \/ (f x = Float None /\ (a = P_axis \/ a = M_axis)).

(** A number: not a list, not a function *)
Definition is_number (p : rparam) : Prop := exists x, p = PNum x.
Definition is_function (p : rparam) : Prop := exists f, p = PFun f.

(** The value at the top and the value at the bottom of a layer *)
Definition top_number (p : rparam) : R := match p with PNum x => x | PList l => hd 0 l | PFun _ => 0 end.
Definition bottom_number (p : rparam) : R := match p with PNum x => x | PList l => last l 0 | PFun _ => 0 end.
(** The documented ranges of the axial models *)
Definition axial_ranges (tm zm : multiplier) (Qm wm tension : R) : Prop :=
  number_ok (Rle 0) tm /\ number_ok gt0 zm /\ 0 <= Qm /\ 0 < wm /\ 0 <= tension <= 1.

(** ** Texts *)
Definition contains (s t : string) : Prop := exists a b, s = (a ++ t ++ b)%string.
(** How the numbers of a parameter are written *)
Definition written (show : R -> string) (p : rparam) (t : string) : Prop :=
  match p with PNum x | PList [x] => t = show x | PList [x; y] => t = (show x ++ "-" ++ show y)%string | _ => False end.
(** The parameters a model shows, with the label before and the unit after the numbers *)
Definition shown (m : lateral_model) : list (string * rparam * string) :=
  match m with
  | Bothkennar_clay Su _ _ | Cowden_clay Su _ _ => [("Su = ", Su, " kPa")]
  | Dunkirk_sand Dr _ _ => [("Dr = ", Dr, "%")]
  | API_sand phi _ _ _ _ _ _ => [("phi = ", phi, " deg")]
  | API_clay Su eps50 _ _ _ _ _ | Modified_Matlock_clay Su eps50 _ _ _ _ _ => [("Su = ", Su, " kPa"); ("eps50 = ", eps50, "")]
  | Reese_weakrock Ei qu RQD _ _ _ _ => [("Ei = ", Ei, "kPa"); ("qu = ", qu, "kPa"); ("RQD = ", PNum RQD, "%")]
  | Custom_pisa_sand _ _ _ _ _ _ | Custom_pisa_clay _ _ _ _ _ _ _ => []
  end%string.
