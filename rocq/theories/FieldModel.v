(** Construction of the soil models: the field constraints that pydantic checks (openpile/soilmodels.py
    130-133, 169-173 and the field declarations of every class), the check of callable multipliers
    (openpile/construct.py 676-740) and the printed descriptions (the __str__ methods, core/misc.py 39-46).
    A ValidationError of pydantic is a ValueError.  Not modelled: the coercion of strings and booleans to
    numbers, and the fields G0 of the API classes, which no curve reads. *)
From Coq Require Import String Reals List Bool Arith.
From Verif Require Import Base ConicModel PisaModel ApiSandModel ApiClayModel ReeseModel AxialModel LateralModel.
Import ListNotations.
Local Open Scope R_scope.

(** Field(gt=a), Field(ge=a), Field(ge=a, le=b), Field(ge=a, lt=b) *)
Inductive range := Above (a : R) | AtLeast (a : R) | Within (a b : R) | HalfOpen (a b : R).
Definition leb (x y : R) : bool := if Rle_dec x y then true else false.
Definition ltb (x y : R) : bool := if Rlt_dec x y then true else false.
Definition ok (r : range) (x : R) : bool :=
  match r with
  | Above a => ltb a x
  | AtLeast a => leb a x
  | Within a b => leb a x && leb x b
  | HalfOpen a b => leb a x && ltb x b
  end.

(** e.g. soilmodels.py 618-621: a number, or a list of one or two numbers, or (when [fn]) a callable *)
Definition field (number element : range) (fn : bool) (v : rparam) : bool :=
  match v with
  | PNum x => ok number x
  | PList l => (1 <=? length l)%nat && (length l <=? 2)%nat && forallb (ok element) l
  | PFun _ => fn
  end.
Definition positive (v : rparam) : bool := field (Above 0) (Above 0) false v.
Definition positive_or_function (v : rparam) : bool := field (Above 0) (Above 0) true v.
Definition curvature_field (v : rparam) : bool := field (HalfOpen 0 1) (HalfOpen 0 1) true v.
(** e.g. 628-634: Union[Callable, float >= 0] for p and m, Union[Callable, float > 0] for y and t *)
Definition resistance_multiplier (m : multiplier) : bool := match m with MNum c => ok (AtLeast 0) c | MFun _ => true end.
Definition displacement_multiplier (m : multiplier) : bool := match m with MNum c => ok (Above 0) c | MFun _ => true end.
Definition mults_ok (mu : mults) : bool :=
  resistance_multiplier (mu_p mu) && displacement_multiplier (mu_y mu) && resistance_multiplier (mu_m mu) && displacement_multiplier (mu_t mu).
Definition py_ok (pm ym : multiplier) : bool := resistance_multiplier pm && displacement_multiplier ym.
(** e.g. 1992-2014 *)
Definition four_fields (f : four) : bool :=
  positive_or_function (f_X f) && curvature_field (f_n f) && positive_or_function (f_k f) && positive_or_function (f_Y f).

(** 618-634, 853-869, 1092-1108, 1325-1352, 1539-1564, 1704-1729, 1861-1879, 1986-2094, 2306-2420 *)
Definition lateral_fields (m : lateral_model) : bool :=
  match m with
  | Bothkennar_clay Su G0 mu | Cowden_clay Su G0 mu => positive Su && positive G0 && mults_ok mu
  | Dunkirk_sand Dr G0 mu => positive Dr && positive G0 && mults_ok mu
  | API_sand phi _ k _ _ pm ym =>
      field (Within 15 45) (Within 15 45) false phi && match k with Some p => positive p | None => true end && py_ok pm ym
  | API_clay Su eps50 _ J _ pm ym | Modified_Matlock_clay Su eps50 _ J _ pm ym =>
      positive Su && positive eps50 && ok (Within 0.25 0.5) J && py_ok pm ym
  | Reese_weakrock Ei qu RQD k ztop pm ym =>
      positive Ei && positive qu && ok (Within 0 100) RQD && ok (Within 0.00005 0.0005) k && ok (AtLeast 0) ztop && py_ok pm ym
  | Custom_pisa_sand G0 py mt Hb Mb mu =>
      positive_or_function G0 && four_fields py && four_fields mt && four_fields Hb && four_fields Mb && mults_ok mu
  | Custom_pisa_clay Su G0 py mt Hb Mb mu =>
      positive_or_function Su && positive_or_function G0 && four_fields py && four_fields mt && four_fields Hb && four_fields Mb && mults_ok mu
  end.
Definition make_lateral (m : lateral_model) : res lateral_model := if lateral_fields m then Ok m else Err ValueError.

(** 262-281: API_clay_axial; the strength keeps the form it was given in *)
Definition clay_rest_ok (m : clay_axial) : bool :=
  ok (Above 0) (ca_alpha_limit m) && resistance_multiplier (ca_tm m) && displacement_multiplier (ca_zm m) && ok (AtLeast 0) (ca_Qm m) &&
  ok (Above 0) (ca_wm m) && ok (Within 0.7 0.9) (ca_residual m) && ok (Within 0 1) (ca_tension m).
Definition make_clay_axial (Su : rparam) (p : plug) (alpha : R) (tm zm : multiplier) (Qm wm residual tension : R) : res clay_axial :=
  let m := fun t b => mkClayAxial t b p alpha tm zm Qm wm residual tension in
  if positive Su && clay_rest_ok (m 0 0) then bind (top_bottom Su) (fun tb => Ok (m (fst tb) (snd tb))) else Err ValueError.
(** 458-477: API_sand_axial; a single angle has no upper limit, the angles of a list have one *)
Definition sand_rest_ok (m : sand_axial) : bool :=
  ok (Within 0.8 1) (sa_K m) && resistance_multiplier (sa_tm m) && displacement_multiplier (sa_zm m) && ok (AtLeast 0) (sa_Qm m) &&
  ok (Above 0) (sa_wm m) && ok (Within 0 1) (sa_inside m) && ok (Within 0 1) (sa_tension m).
Definition delta_field (v : rparam) : bool := field (Above 0) (Within 0 45) false v.
Definition make_sand_axial (delta : rparam) (K : R) (p : plug) (tm zm : multiplier) (Qm wm inside tension : R) : res sand_axial :=
  let m := fun t b => mkSandAxial t b K p tm zm Qm wm inside tension in
  if delta_field delta && sand_rest_ok (m 0 0) then bind (top_bottom delta) (fun tb => Ok (m (fst tb) (snd tb))) else Err ValueError.

(** ** Keywords: model_config = ConfigDict(extra=...), soilmodels.py 131-133, 170-172 ("allow"),
    construct.py 66-79, 87 and materials.py 51 ("forbid").  A class is its list of fields, each with an
    optional default. *)
Inductive extra := Allow | Forbid.
Section Keywords.
Context {V : Type}.
Definition keyword := (string * V)%type.
Definition declared (fields : list (string * option V)) (k : string) : bool := existsb (fun f => String.eqb (fst f) k) fields.
Fixpoint lookup (k : string) (kw : list keyword) : option V :=
  match kw with [] => None | (n, v) :: t => if String.eqb n k then Some v else lookup k t end.
(** the values of the fields, in declaration order *)
Definition fill (e : extra) (fields : list (string * option V)) (kw : list keyword) : res (list V) :=
  if match e with Forbid => negb (forallb (fun a => declared fields (fst a)) kw) | Allow => false end then Err ValueError
  else mapM (fun f => match lookup (fst f) kw with
                      | Some v => Ok v
                      | None => match snd f with Some d => Ok d | None => Err ValueError end
                      end) fields.
End Keywords.

(** ** construct.py 676-740: check_multipliers_in_lateral_model *)
(** What calling a multiplier gives: a float ([None] is NaN), something else, or an exception. *)
Inductive called := Float (v : option R) | NotFloat | Raises (e : exn).
Inductive given := GNum (c : R) | GFun (f : R -> called).
Inductive axis := P_axis | Y_axis | M_axis | T_axis.
(** 692-706: the value at which the check prints or builds an exception, and returns *)
Definition stops (a : axis) (v : option R) : bool :=
  match a, v with
  | (P_axis | M_axis), Some x => ltb x 0
  | (P_axis | M_axis), None => false
  | (Y_axis | T_axis), Some x => negb (ltb 0 x)
  | (Y_axis | T_axis), None => true
  end.
(** 684-706: the exceptions of 687-690 and 701-704 are built and not raised *)
Fixpoint check_values (a : axis) (f : R -> called) (depths : list R) : res unit :=
  match depths with
  | [] => Ok tt
  | d :: t => match f d with
              | Raises e => Err e
              | NotFloat => Ok tt
              | Float v => if stops a v then Ok tt else check_values a f t
              end
  end.
(** 678-683 *)
Definition depths (ground top bottom : R) : list R := map (fun z => ground - z) (linspace top bottom 100).
Definition check_multiplier (ground top bottom : R) (a : axis) (m : given) : res unit :=
  match m with GNum _ => Ok tt | GFun f => check_values a f (depths ground top bottom) end.
(** 708-738; [None] is a layer without lateral model *)
Record mlayer := mkMlayer { ml_top : R; ml_bottom : R; ml_mults : option (given * given * given * given) }.
Definition check_layer (ground : R) (l : mlayer) : res unit :=
  match ml_mults l with
  | None => Ok tt
  | Some (p, y, m, t) =>
      let c := check_multiplier ground (ml_top l) (ml_bottom l) in
      bind (c P_axis p) (fun _ => bind (c Y_axis y) (fun _ => bind (c M_axis m) (fun _ => c T_axis t)))
  end.
Fixpoint check_multipliers (ground : R) (l : list mlayer) : res unit :=
  match l with [] => Ok tt | a :: t => bind (check_layer ground a) (fun _ => check_multipliers ground t) end.

(** ** Printing.  [show] is Python's formatting of a float, [show1] that of round(x, 1). *)
Section Print.
Variable show show1 : R -> string.
Local Open Scope string_scope.

(** core/misc.py 39-46 *)
Fixpoint join (sep : string) (l : list string) : string :=
  match l with [] => "" | [x] => x | x :: t => x ++ sep ++ join sep t end.
Definition var_to_str (v : rparam) : res string :=
  match v with PNum x => Ok (show x) | PList l => Ok (join "-" (map show l)) | PFun _ => Err ValueError end.
(** round(self.G0/1000,1): a list or a function cannot be divided by a number *)
Definition in_MPa (v : rparam) : res string := match v with PNum x => Ok (show1 (x / 1000)) | _ => Err TypeError end.
(** one line of the description: a label, a value and a unit *)
Definition line (label : string) (v : res string) (unit : string) : res string := bind v (fun s => Ok (label ++ s ++ unit)).
Fixpoint lines (l : list (res string)) : res string :=
  match l with [] => Ok "" | [x] => x | x :: t => bind x (fun a => bind (lines t) (fun b => Ok (a ++ "|" ++ b))) end.
Definition loading_name (k : loading) : string := match k with Static => "static" | Cyclic => "cyclic" end.
Definition extension_name (e : bool) : string := if e then "mt_curves" else "None".

(** 640, 875, 1114, 1367, 1579, 1744, 1886, 2100, 2426; the line break and tab between the lines is written "|"
    and the degree sign "deg" *)
Definition describe (m : lateral_model) : res string :=
  match m with
  | Bothkennar_clay Su G0 _ => lines [Ok "Cowden clay (PISA)"; line "Su = " (var_to_str Su) " kPa."; line "G0 = " (in_MPa G0) " MPa"]
  | Cowden_clay Su G0 _ => lines [Ok "Cowden clay (PISA)"; line "Su = " (var_to_str Su) " kPa."; line "G0 = " (in_MPa G0) " MPa"]
  | Dunkirk_sand Dr G0 _ => lines [Ok "Dunkirk sand (PISA)"; line "Dr = " (var_to_str Dr) "%. "; line "G0 = " (in_MPa G0) " MPa"]
  | API_sand phi kind _ _ e _ _ => lines [Ok "API sand"; line "phi = " (var_to_str phi) " deg"; Ok (loading_name kind ++ " curves"); Ok ("ext: " ++ extension_name e)]
  | API_clay Su eps50 kind _ e _ _ => lines [Ok "API clay"; line "Su = " (var_to_str Su) " kPa"; line "eps50 = " (var_to_str eps50) ""; Ok (loading_name kind ++ " curves"); Ok ("ext: " ++ extension_name e)]
  | Modified_Matlock_clay Su eps50 kind _ e _ _ => lines [Ok "Modified Matlock clay"; line "Su = " (var_to_str Su) " kPa"; line "eps50 = " (var_to_str eps50) ""; Ok (loading_name kind ++ " curves"); Ok ("ext: " ++ extension_name e)]
  | Reese_weakrock Ei qu RQD _ _ _ _ => lines [Ok "Reese weakrock"; line "Ei = " (var_to_str Ei) "kPa"; line "qu = " (var_to_str qu) "kPa"; line "RQD = " (var_to_str (PNum RQD)) "%"]
  | Custom_pisa_sand G0 _ _ _ _ _ => lines [Ok "Custom PISA sand"; line "G0 = " (in_MPa G0) " MPa"]
  | Custom_pisa_clay _ G0 _ _ _ _ _ => lines [Ok "Custom PISA sand"; line "G0 = " (in_MPa G0) " MPa"]
  end.

(** 283-304, 479-498: the axial models; a multiplier is printed when it is not 1.0, and a function is never equal to 1.0 *)
Definition plug_name (p : plug) : string :=
  match p with PlugBoth => "(Plugged)" | PlugNone => "(Unplugged)" | PlugCompression => "(Plugged in compression, unplugged in tension)" | PlugTension => "(Unplugged in compression, plugged in tension)" end.
Definition as_param (m : multiplier) : rparam := match m with MNum c => PNum c | MFun f => PFun f end.
Definition unless (default : R) (label : string) (v : rparam) : list (res string) :=
  match v with PNum x => if Req_EM_T x default then [] else [line label (var_to_str v) ""] | _ => [line label (var_to_str v) ""] end.
Definition describe_clay_axial (Su : rparam) (m : clay_axial) : res string :=
  lines ([Ok (append "API clay " (plug_name (ca_plug m))); line "Su = " (var_to_str Su) " kPa"; line "alpha_limit = " (var_to_str (PNum (ca_alpha_limit m))) ""] ++
         unless 1 "t-multiplier = " (as_param (ca_tm m)) ++ unless 1 "z-multiplier = " (as_param (ca_zm m)) ++ unless 1 "Q-multiplier = " (PNum (ca_Qm m)) ++
         unless 1 "w-multiplier = " (PNum (ca_wm m)) ++ unless 0.9 "t-residual = " (PNum (ca_residual m)) ++ unless 1 "tension_multiplier = " (PNum (ca_tension m)))%list.
Definition describe_sand_axial (delta : rparam) (m : sand_axial) : res string :=
  lines ([Ok (append "API sand " (plug_name (sa_plug m))); line "delta = " (var_to_str delta) " deg"; line "K = " (var_to_str (PNum (sa_K m))) ""] ++
         unless 1 "t-multiplier = " (as_param (sa_tm m)) ++ unless 1 "z-multiplier = " (as_param (sa_zm m)) ++ unless 1 "Q-multiplier = " (PNum (sa_Qm m)) ++
         unless 1 "w-multiplier = " (PNum (sa_wm m)) ++ unless 1 "tension_multiplier = " (PNum (sa_tension m)))%list.

(** construct.py 552-553: a layer (the name and elevations are printed first and cannot fail); 742-750: a
    profile prints its layers one after the other.  A layer without model prints None. *)
Definition describe_layer (m : option lateral_model) : res string :=
  match m with None => Ok "None" | Some m => describe m end.
Fixpoint describe_profile (l : list (option lateral_model)) : res string :=
  match l with [] => Ok "" | m :: t => bind (describe_layer m) (fun a => bind (describe_profile t) (fun b => Ok (a ++ "~" ++ b))) end.
End Print.

(** soilmodels.py 320-322 and 514-516: unit_shaft_signature.  API_clay_axial has no field inside_friction:
    [given] is the value when the caller passed it as an unknown keyword. *)
Definition clay_signature (given : option R) : res (R * R) := match given with Some v => Ok (1, 1 * v) | None => Err AttributeError end.
Definition sand_signature (m : sand_axial) : res (R * R) := Ok (1, 1 * sa_inside m).
