(** The lateral soil models: openpile/soilmodels.py 591-2570, with the multiplier check of
    openpile/construct.py 677-740.  Every class maps the position of a spring in its layer to the curves of
    openpile/utils; the curves themselves are in PisaModel, ApiSandModel, ApiClayModel, ReeseModel and
    AxialModel.  [u] are the random draws of the clay curves, [idx] the result of np.argsort in the t-z curves.
    The single-precision storage of the m-t matrices is not modelled. *)
From Coq Require Import Reals Lra List Bool Arith Permutation.
From Verif Require Import Base ConicModel PisaModel ApiSandModel ApiClayModel ReeseModel AxialModel.
Import ListNotations.
Local Open Scope R_scope.

(** A soil parameter: a number, a list of one or two numbers, or (custom PISA models) a function of depth. *)
Inductive rparam := PNum (x : R) | PList (l : list R) | PFun (f : R -> R).

(** core/misc.py 12-28: from_list2x_parse_top_bottom *)
Definition top_bottom (p : rparam) : res (R * R) :=
  match p with
  | PNum x => Ok (x, x)
  | PList [x] => Ok (x, x)
  | PList [x; y] => Ok (x, y)
  | _ => Err TypeError
  end.
(** the two lines that follow it everywhere, e.g. soilmodels.py 660-661 *)
Definition in_layer (p : rparam) (depth height : R) : res R :=
  bind (top_bottom p) (fun tb => at_depth (fst tb) (snd tb) depth height).
(** core/misc.py 31-36: get_value_at_current_depth *)
Definition at_current_depth (p : rparam) (depth height X : R) : res R :=
  match p with PFun f => Ok (f X) | _ => in_layer p depth height end.

(** 675-676 and everywhere: a float multiplier, or a function of the depth from ground *)
Definition at_X (m : multiplier) (X : R) : R := match m with MNum c => c | MFun f => f X end.

(** p, y, m and t multipliers, e.g. 627-634 *)
Record mults := mkMults { mu_p : multiplier; mu_y : multiplier; mu_m : multiplier; mu_t : multiplier }.
(** the four parameters X, n, k, Y of one conic curve, e.g. 1992-2014 *)
Record four := mkFour { f_X : rparam; f_n : rparam; f_k : rparam; f_Y : rparam }.
Inductive modification := Kallehave | Sorensen.

Inductive lateral_model :=
| Bothkennar_clay (Su G0 : rparam) (mu : mults)
| Cowden_clay (Su G0 : rparam) (mu : mults)
| Dunkirk_sand (Dr G0 : rparam) (mu : mults)
| API_sand (phi : rparam) (kind : loading) (k : option rparam) (modif : option modification) (extension : bool) (pm ym : multiplier)
| API_clay (Su eps50 : rparam) (kind : loading) (J : R) (extension : bool) (pm ym : multiplier)
| Modified_Matlock_clay (Su eps50 : rparam) (kind : loading) (J : R) (extension : bool) (pm ym : multiplier)
| Reese_weakrock (Ei qu : rparam) (RQD k ztop : R) (pm ym : multiplier)
| Custom_pisa_sand (G0 : rparam) (py mt Hb Mb : four) (mu : mults)
| Custom_pisa_clay (Su G0 : rparam) (py mt Hb Mb : four) (mu : mults).

(** The class variables m_multiplier and t_multiplier of the API and Reese classes are 1.0
    (1355-1356, 1567-1568, 1732-1733, 1882-1883). *)
Definition p_multiplier (m : lateral_model) : multiplier :=
  match m with
  | Bothkennar_clay _ _ mu | Cowden_clay _ _ mu | Dunkirk_sand _ _ mu | Custom_pisa_sand _ _ _ _ _ mu | Custom_pisa_clay _ _ _ _ _ _ mu => mu_p mu
  | API_sand _ _ _ _ _ pm _ | API_clay _ _ _ _ _ pm _ | Modified_Matlock_clay _ _ _ _ _ pm _ | Reese_weakrock _ _ _ _ _ pm _ => pm
  end.
Definition y_multiplier (m : lateral_model) : multiplier :=
  match m with
  | Bothkennar_clay _ _ mu | Cowden_clay _ _ mu | Dunkirk_sand _ _ mu | Custom_pisa_sand _ _ _ _ _ mu | Custom_pisa_clay _ _ _ _ _ _ mu => mu_y mu
  | API_sand _ _ _ _ _ _ ym | API_clay _ _ _ _ _ _ ym | Modified_Matlock_clay _ _ _ _ _ _ ym | Reese_weakrock _ _ _ _ _ _ ym => ym
  end.
Definition m_multiplier (m : lateral_model) : multiplier :=
  match m with
  | Bothkennar_clay _ _ mu | Cowden_clay _ _ mu | Dunkirk_sand _ _ mu | Custom_pisa_sand _ _ _ _ _ mu | Custom_pisa_clay _ _ _ _ _ _ mu => mu_m mu
  | _ => MNum 1
  end.
Definition t_multiplier (m : lateral_model) : multiplier :=
  match m with
  | Bothkennar_clay _ _ mu | Cowden_clay _ _ mu | Dunkirk_sand _ _ mu | Custom_pisa_sand _ _ _ _ _ mu | Custom_pisa_clay _ _ _ _ _ _ mu => mu_t mu
  | _ => MNum 1
  end.

(** The arguments of the spring functions, e.g. 643-654 *)
Record place := mkPlace { q_sig : R; q_X : R; q_height : R; q_depth : R; q_D : R; q_L : R; q_wet : bool }.
Definition value (p : rparam) (q : place) : res R := in_layer p (q_depth q) (q_height q).
Definition custom_value (p : rparam) (q : place) : res R := at_current_depth p (q_depth q) (q_height q) (q_X q).
(** e.g. 656-657 *)
Definition inside_layer {A : Type} (q : place) (r : res A) : res A :=
  if Rlt_dec (q_height q) (q_depth q) then Err ValueError else r.

Definition curve := (list R * list (option R))%type.
Definition numbers (c : res (list R * list R)) : res curve := bind c (fun yp => Ok (fst yp, map Some (snd yp))).

(** The four values of one conic curve, in the order they are evaluated, e.g. 2123-2126 *)
Definition with_four (f : four) (q : place) (k : R -> R -> R -> R -> res curve) : res curve :=
  bind (custom_value (f_X f) q) (fun x => bind (custom_value (f_n f) q) (fun n =>
  bind (custom_value (f_k f) q) (fun kk => bind (custom_value (f_Y f) q) (fun y => k x n kk y)))).

(** 1390-1437: the subgrade modulus handed to the API sand curve.  The user value is read even when a
    modification replaces it. *)
Definition subgrade (phi : R) (k : option rparam) (modif : option modification) (q : place) : res R :=
  bind (match k with None => Ok 0 | Some p => value p q end) (fun given =>
  Ok (match modif with
      | None => given
      | Some Kallehave => kallehave_k phi (q_wet q) (q_X q) (q_D q)
      | Some Sorensen => sorensen_k phi (q_X q) (q_D q)
      end)).

(** The p-y curve of each class before the multipliers: 659-672, 894-907, 1133-1148, 1386-1437, 1598-1616,
    1763-1781, 1905-1921, 2119-2128, 2445-2454 *)
Definition py_curve (m : lateral_model) (u : nat -> R) (q : place) (ymax : R) (n : nat) : res curve :=
  match m with
  | Bothkennar_clay Su G0 _ => bind (value Su q) (fun Su => bind (value G0 q) (fun G0 => py_bothkennar (q_X q) Su G0 (q_D q) n))
  | Cowden_clay Su G0 _ => bind (value Su q) (fun Su => bind (value G0 q) (fun G0 => py_cowden (q_X q) Su G0 (q_D q) n))
  | Dunkirk_sand Dr G0 _ => bind (value Dr q) (fun Dr => bind (value G0 q) (fun G0 => py_dunkirk (q_sig q) (q_X q) Dr G0 (q_D q) (q_L q) n))
  | API_sand phi kind k modif _ _ _ =>
      bind (value phi q) (fun phi => bind (subgrade phi k modif q) (fun k =>
      numbers (api_sand (q_sig q) (q_X q) phi (q_D q) kind (q_wet q) k ymax n)))
  | API_clay Su eps50 kind J _ _ _ =>
      bind (value Su q) (fun Su => bind (value eps50 q) (fun eps50 => numbers (api_clay u (q_sig q) (q_X q) Su eps50 (q_D q) J kind ymax n)))
  | Modified_Matlock_clay Su eps50 kind J _ _ _ =>
      bind (value Su q) (fun Su => bind (value eps50 q) (fun eps50 => numbers (modified_Matlock u (q_sig q) (q_X q) Su eps50 (q_D q) J kind ymax n)))
  | Reese_weakrock Ei qu RQD k ztop _ _ =>
      bind (value Ei q) (fun Ei => bind (value qu q) (fun qu => numbers (reese_weakrock Ei qu RQD (q_X q + ztop) (q_D q) k n)))
  | Custom_pisa_sand G0 py _ _ _ _ =>
      bind (custom_value G0 q) (fun G0 => with_four py q (fun X nn k Y => py_custom_sand (q_sig q) G0 (q_D q) X nn k Y n))
  | Custom_pisa_clay Su G0 py _ _ _ _ =>
      bind (custom_value Su q) (fun Su => bind (custom_value G0 q) (fun G0 => with_four py q (fun X nn k Y => py_custom_clay Su G0 (q_D q) X nn k Y n)))
  end.

(** 678, 913, 1154, 1443, 1622, 1787, 1927, 2134, 2460: y * y_mult, p * p_mult *)
Definition scaled_by (cx cy : R) (c : curve) : curve := (map (fun v => v * cx) (fst c), map (option_map (fun v => v * cy)) (snd c)).
Definition py_spring_fct (m : lateral_model) (u : nat -> R) (q : place) (ymax : R) (n : nat) : res curve :=
  inside_layer q (bind (py_curve m u q ymax n) (fun c => Ok (scaled_by (at_X (y_multiplier m) (q_X q)) (at_X (p_multiplier m) (q_X q)) c))).

(** The base class returns np.linspace(0, ymax, n) and zeros: soilmodels.py 150-166 *)
Definition no_curve (ymax : R) (n : nat) : curve := (linspace 0 ymax n, repeat (Some 0) n).

(** Base shear: 680-712, 915-947, 1156-1189, 2136-2163, 2462-2489.  Without multipliers. *)
Definition Hb_spring_fct (m : lateral_model) (q : place) (ymax : R) (n : nat) : res curve :=
  match m with
  | Bothkennar_clay Su G0 _ => inside_layer q (bind (value Su q) (fun Su => bind (value G0 q) (fun G0 => Hb_bothkennar Su G0 (q_D q) (q_L q) n)))
  | Cowden_clay Su G0 _ => inside_layer q (bind (value Su q) (fun Su => bind (value G0 q) (fun G0 => Hb_cowden Su G0 (q_D q) (q_L q) n)))
  | Dunkirk_sand Dr G0 _ => inside_layer q (bind (value Dr q) (fun Dr => bind (value G0 q) (fun G0 => Hb_dunkirk (q_sig q) Dr G0 (q_D q) (q_L q) n)))
  | Custom_pisa_sand G0 _ _ Hb _ _ =>
      inside_layer q (bind (custom_value G0 q) (fun G0 => with_four Hb q (fun X nn k Y => Hb_custom_sand (q_sig q) G0 (q_D q) X nn k Y n)))
  | Custom_pisa_clay Su G0 _ _ Hb _ _ =>
      inside_layer q (bind (custom_value Su q) (fun Su => bind (custom_value G0 q) (fun G0 => with_four Hb q (fun X nn k Y => Hb_custom_clay Su G0 (q_D q) X nn k Y n))))
  | _ => Ok (no_curve ymax n)
  end.
(** Base moment: 763-795, 998-1030, 1245-1278, 2218-2245, 2543-2570 *)
Definition Mb_spring_fct (m : lateral_model) (q : place) (ymax : R) (n : nat) : res curve :=
  match m with
  | Bothkennar_clay Su G0 _ => inside_layer q (bind (value Su q) (fun Su => bind (value G0 q) (fun G0 => Mb_bothkennar Su G0 (q_D q) (q_L q) n)))
  | Cowden_clay Su G0 _ => inside_layer q (bind (value Su q) (fun Su => bind (value G0 q) (fun G0 => Mb_cowden Su G0 (q_D q) (q_L q) n)))
  | Dunkirk_sand Dr G0 _ => inside_layer q (bind (value Dr q) (fun Dr => bind (value G0 q) (fun G0 => Mb_dunkirk (q_sig q) Dr G0 (q_D q) (q_L q) n)))
  | Custom_pisa_sand G0 _ _ _ Mb _ =>
      inside_layer q (bind (custom_value G0 q) (fun G0 => with_four Mb q (fun X nn k Y => Mb_custom_sand (q_sig q) G0 (q_D q) X nn k Y n)))
  | Custom_pisa_clay Su G0 _ _ _ Mb _ =>
      inside_layer q (bind (custom_value Su q) (fun Su => bind (custom_value G0 q) (fun G0 => with_four Mb q (fun X nn k Y => Mb_custom_clay Su G0 (q_D q) X nn k Y n))))
  | _ => Ok (no_curve ymax n)
  end.

(** ** m-t springs: one moment curve for every point of the p-y curve *)
Definition curves := (list (list R) * list (list (option R)))%type.
(** 745-755, 980-990, 1224-1237, 2192-2211, 2518-2535: row [count] for the value p_array[count]; the matrices
    have n rows, so a longer p_array raises IndexError and a shorter one leaves rows of zeros. *)
Definition mt_rows (n : nat) (p : list (option R)) (row : option R -> res curve) : res curves :=
  bind (mapM row (firstn n p)) (fun cs =>
  if Nat.ltb n (length p) then Err IndexError
  else Ok (map fst cs ++ repeat (repeat 0 n) (n - length p), map snd cs ++ repeat (repeat (Some 0) n) (n - length p))).
(** a NaN value of p gives NaN moments *)
Definition of_p (f : R -> res curve) (p : option R) : res curve :=
  match p with Some v => f v | None => bind (f 0) (fun c => Ok (fst c, map (fun _ => None) (snd c))) end.
(** 757-761, 992-996, 1240-1243, 2213-2216, 2537-2541 *)
Definition scaled_rows (ct cm : R) (c : curves) : curves := (map (map (fun v => v * ct)) (fst c), map (map (option_map (fun v => v * cm))) (snd c)).

(** 1494-1503, 1656-1668, 1821-1833: the positive half of the t-z curve turned into a moment-rotation curve *)
Definition positive_part (l : list R) : list R := filter (fun v => if Rle_dec 0 v then true else false) l.
Definition pad_t (n : nat) (l : list R) : list R := l ++ repeat (last l 0) (n - length l).
Definition pad_z (n : nat) (l : list R) : list R := l ++ map (fun i => last l 0 + INR i * 0.1) (seq 0 (n - length l)).
Definition api_rotation (D : R) (n : nat) (z : list R) : list R := map (fun v => atan (v / (0.5 * D))) (pad_z n (positive_part z)).
Definition api_moment (D : R) (n : nat) (tz : list R) (norm : R) : list R := map (fun v => 1 / 4 * PI * D ^ 2 * v * norm) (pad_t n (positive_part tz)).

(** p.max() of a non-empty array without NaN *)
Definition array_max (l : list R) : R := match l with [] => 0 | a :: t => fold_left Rmax t a end.
(** 1478-1481 *)
Definition normalised (p : list R) : list R := if Rlt_dec 0 (array_max p) then map (fun v => v / array_max p) p else p.
(** The API sand curve has no NaN (ApiSandModel). *)
Definition plain (l : list (option R)) : list R := map (fun v => match v with Some x => x | None => 0 end) l.

(** The m-t curves before the multipliers *)
Definition mt_curve (m : lateral_model) (u : nat -> R) (idx : list nat) (q : place) (ymax : R) (n : nat) : res curves :=
  match m with
  | Bothkennar_clay Su G0 _ => bind (value Su q) (fun Su => bind (value G0 q) (fun G0 =>
      bind (py_bothkennar (q_X q) Su G0 (q_D q) n) (fun c => mt_rows n (snd c) (fun _ => mt_bothkennar (q_X q) Su G0 (q_D q) n))))
  | Cowden_clay Su G0 _ => bind (value Su q) (fun Su => bind (value G0 q) (fun G0 =>
      bind (py_cowden (q_X q) Su G0 (q_D q) n) (fun c => mt_rows n (snd c) (fun _ => mt_cowden (q_X q) Su G0 (q_D q) n))))
  | Dunkirk_sand Dr G0 _ => bind (value Dr q) (fun Dr => bind (value G0 q) (fun G0 =>
      bind (py_dunkirk (q_sig q) (q_X q) Dr G0 (q_D q) (q_L q) n) (fun c =>
      mt_rows n (snd c) (of_p (fun p => mt_dunkirk (q_sig q) (q_X q) Dr G0 p (q_D q) (q_L q) n)))))
  | Custom_pisa_sand G0 py mt _ _ _ => bind (custom_value G0 q) (fun G0 =>
      bind (with_four py q (fun X nn k Y => py_custom_sand (q_sig q) G0 (q_D q) X nn k Y n)) (fun c =>
      mt_rows n (snd c) (of_p (fun p => with_four mt q (fun X nn k Y => mt_custom_sand (q_sig q) G0 p (q_D q) X nn k Y n)))))
  | Custom_pisa_clay Su G0 py mt _ _ _ => bind (custom_value Su q) (fun Su => bind (custom_value G0 q) (fun G0 =>
      bind (with_four py q (fun X nn k Y => py_custom_clay Su G0 (q_D q) X nn k Y n)) (fun c =>
      mt_rows n (snd c) (fun _ => with_four mt q (fun X nn k Y => mt_custom_clay Su G0 (q_D q) X nn k Y n)))))
  | API_sand phi _ _ _ _ _ _ => bind (value phi q) (fun phi => bind (py_spring_fct m u q ymax n) (fun c =>
      let norms := normalised (plain (snd c)) in
      let '(z, tz) := tz_api_sand u idx (q_sig q) (phi - 5) 0.8 1 n in
      Ok (repeat (api_rotation (q_D q) n z) n, map (fun norm => map Some (api_moment (q_D q) n tz norm)) norms)))
  | API_clay Su _ _ _ _ _ _ | Modified_Matlock_clay Su _ _ _ _ _ _ => bind (value Su q) (fun Su =>
      let '(z, tz) := tz_api_clay u idx (q_sig q) Su (q_D q) 1 1 1 n in
      Ok (repeat (api_rotation (q_D q) n z) n, repeat (map Some (api_moment (q_D q) n tz 1)) n))
  | Reese_weakrock _ _ _ _ _ _ _ => Ok ([linspace 0 ymax n], [repeat (Some 0) n])
  end.
(** 714-761, 949-996, 1191-1243, 1445-1505, 1624-1670, 1789-1835, 2165-2216, 2491-2541.  Reese_weakrock inherits the
    zero curve of the base class (156-160), one-dimensional and without the layer check; a model without extension never has this function called. *)
Definition mt_spring_fct (m : lateral_model) (u : nat -> R) (idx : list nat) (q : place) (ymax : R) (n : nat) : res curves :=
  match m with
  | Reese_weakrock _ _ _ _ _ _ _ => mt_curve m u idx q ymax n
  | _ => inside_layer q (bind (mt_curve m u idx q ymax n) (fun c => Ok (scaled_rows (at_X (t_multiplier m) (q_X q)) (at_X (m_multiplier m) (q_X q)) c)))
  end.

(** [p-y, Hb, m-t, Mb]: 638, 873, 1112, 1358-1365, 1570-1577, 1735-1742, 1884, 2098, 2424 *)
Definition spring_signature (m : lateral_model) : list bool :=
  match m with
  | API_sand _ _ _ _ e _ _ | API_clay _ _ _ _ e _ _ | Modified_Matlock_clay _ _ _ _ e _ _ => [true; false; e; false]
  | Reese_weakrock _ _ _ _ _ _ _ => [true; false; false; false]
  | _ => [true; true; true; true]
  end.
