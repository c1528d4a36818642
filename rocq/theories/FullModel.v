(** A pile in soil, from the user's input to the analysis: openpile/construct.py 281-306, 650-757, 1003-1027 and
    1147-1360 (construction of pile, profile and Model with its springs), openpile/core/kernel.py 434-569 and
    717-787 (stiffness) and openpile/winkler.py 502-637 (analysis), with the soil models of LateralModel and
    AxialModel as the functions called by create_springs.
    Spring values are real numbers until they are stored: [rnd] is the storage in a float32 array. *)
From Coq Require Import List Bool Arith ZArith QArith Qabs Reals Qreals.
From Verif Require Import Base LinAlg BCModel PileModel MeshModel StressModel BeamModel SolveModel SpringModel WinklerModel CreateModel WholeModel
  AxialModel LateralModel CapacityModel.
From Verif Require AccessModel.
Import ListNotations.
Local Open Scope Q_scope.

(** What a spring function leaves in its part of the array: an exception, not-a-number, or the curve (for m-t
    springs 15 curves, point k of the resistances p as one column) *)
Definition stored_value := res (option (list SpringModel.curve)).

Record soil_layer := mkSL { y_layer : layer; y_lat : option lateral_model; y_ax : option axial_soil }.
Record options := mkOptions { on_py : bool; on_mt : bool; on_hb : bool; on_mb : bool; on_tz : bool; on_qz : bool }.

Section Storage.
Variable rnd : R -> Q.

Definition points (y p : list R) : SpringModel.curve := combine (map rnd y) (map rnd p).

(** construct.py 1241, 1279, 1296: assignment of two arrays to rows of 15 numbers.  Arrays of another length raise
    ValueError (numpy broadcasts arrays of length 1, which the models do not return). *)
Definition store_curve (r : res LateralModel.curve) : stored_value :=
  bind r (fun c => let '(y, p) := c in
    if Nat.eqb (length y) 15 && Nat.eqb (length p) 15 then Ok (option_map (fun p => [points y p]) (all_some p)) else Err ValueError).

(** construct.py 1258: two 15 x 15 arrays, kept by column *)
Definition columns {A : Type} (d : A) (rows : list (list A)) : list (list A) := map (fun k => map (fun r => nth k r d) rows) (seq 0 15).
Definition store_curves (r : res LateralModel.curves) : stored_value :=
  bind r (fun c => let '(T, M) := c in
    if Nat.eqb (length T) 15 && Nat.eqb (length M) 15 && forallb (fun r => Nat.eqb (length r) 15) T && forallb (fun r => Nat.eqb (length r) 15) M
    then Ok (option_map (fun M => map (fun tm => points (fst tm) (snd tm)) (combine (columns 0%R T) (columns 0%R M))) (all_some (map all_some M)))
    else Err ValueError).

(** construct.py 1198, 1218, 1312-1313: t-z and Q-z arrays, all entries multiplied by -1 *)
Definition turned (c : SpringModel.curve) : SpringModel.curve := map (fun q => (fst q * (-1), snd q * (-1))) c.
Definition store_axial (r : values) : stored_value :=
  bind r (fun o => match o with
    | None => Ok None
    | Some (z, t) => if Nat.eqb (length z) 15 && Nat.eqb (length t) 15 then Ok (Some [turned (points z t)]) else Err ValueError
    end).

(** The numbers random() gives in a call, and np.argsort's result; for lateral and axial models *)
Record chance := { c_py : lateral_model -> args -> nat -> R; c_mt : lateral_model -> args -> (nat -> R) * list nat; c_tz : draw; c_qz : draw }.

(** construct.py 1239-1308: the call of a lateral spring function with the arguments of CreateModel.
    NaN for the stress or the width gives NaN. *)
Definition at_place {A : Type} (a : args) (f : place -> res A) (store : res A -> stored_value) : stored_value :=
  match a_sig a, a_D a with
  | Some sig, Some D => store (f (mkPlace (Q2R sig) (Q2R (a_X a)) (Q2R (a_height a)) (Q2R (a_depth a)) (Q2R D) (Q2R (a_L a)) (a_wet a)))
  | _, _ => Ok None
  end.

(** spring_signature is [p-y, Hb, m-t, Mb] *)
Definition lateral_of (ch : chance) (m : lateral_model) : @lateral stored_value :=
  {| has_py := nth 0 (spring_signature m) false; has_hb := nth 1 (spring_signature m) false;
     has_mt := nth 2 (spring_signature m) false; has_mb := nth 3 (spring_signature m) false;
     f_py := fun a => at_place a (fun q => py_spring_fct m (c_py ch m a) q 0 15) store_curve;
     f_mt := fun a => at_place a (fun q => mt_spring_fct m (fst (c_mt ch m a)) (snd (c_mt ch m a)) q 0 15) store_curves;
     f_hb := fun a => at_place a (fun q => Hb_spring_fct m q 0 15) store_curve;
     f_mb := fun a => at_place a (fun q => Mb_spring_fct m q 0 15) store_curve |}.

Definition axial_of (ch : chance) (tip_area footprint : Q) (m : axial_soil) : @axial stored_value :=
  {| f_tz := fun a => store_axial (tz_curve (c_tz ch) m a);
     f_qz := fun a => store_axial (qz_curve (c_qz ch) tip_area footprint m a) |}.

Definition slayer_of (ch : chance) (tip_area footprint : Q) (y : soil_layer) : @slayer stored_value :=
  {| s_layer := y_layer y; s_lat := option_map (lateral_of ch) (y_lat y); s_ax := option_map (axial_of ch tip_area footprint) (y_ax y) |}.

(** construct.py 1175-1308: the calls of the loop body for one element of one layer, in order *)
Definition calls_of {V : Type} (st : setting) (li : @slayer V * nat) : list V :=
  let '(sl, i) := li in
  let l := s_layer sl in
  (match s_ax sl with
   | None => []
   | Some ax => (if distributed_axial st then [f_tz ax (shaft_args st l i 0); f_tz ax (shaft_args st l i 1)] else [])
                ++ (if tip_in st l && base_axial st then [f_qz ax (base_args st l i)] else [])
   end)
  ++ match s_lat sl with
     | None => []
     | Some la => (if has_py la && distributed_lateral st then [f_py la (shaft_args st l i 0); f_py la (shaft_args st l i 1)] else [])
                  ++ (if has_mt la && distributed_moment st then [f_mt la (shaft_args st l i 0); f_mt la (shaft_args st l i 1)] else [])
                  ++ (if tip_in st l && (has_hb la && base_shear st) then [f_hb la (base_args st l i)] else [])
                  ++ (if tip_in st l && (has_mb la && base_moment st) then [f_mb la (base_args st l i)] else [])
     end.

Fixpoint first_error (l : list stored_value) : option exn :=
  match l with [] => None | Err e :: _ => Some e | Ok _ :: t => first_error t end.

(** create_springs raises what the first failing call raises *)
Definition make_springs (st : setting) (layers : list (@slayer stored_value)) : res (@made stored_value) :=
  match first_error (flat_map (calls_of st) (work st layers)) with Some e => Err e | None => Ok (create_springs st layers) end.

(** The arrays at the end; 1155-1164: zeros where nothing was written (zeros stay zeros when multiplied by -1). [None] is NaN *)
Definition no_points : SpringModel.curve := repeat (0, 0) 15.
Definition curve_of (v : option stored_value) : option SpringModel.curve :=
  match v with None => Some no_points | Some (Ok (Some [c])) => Some c | _ => None end.
Definition columns_of (v : option stored_value) : option (list SpringModel.curve) :=
  match v with None => Some (repeat no_points 15) | Some (Ok (Some cols)) => Some cols | _ => None end.
Definition known {A : Type} (o : option A) : bool := match o with Some _ => true | None => false end.
Definition or_else {A : Type} (d : A) (o : option A) : A := match o with Some a => a | None => d end.

Record springs := { g_py : nat -> nat -> SpringModel.curve; g_tz : nat -> nat -> SpringModel.curve; g_mt : nat -> nat -> list SpringModel.curve;
                    g_hb : SpringModel.curve; g_mb : SpringModel.curve; g_qz : SpringModel.curve }.

(** No NaN in the springs of [n] elements *)
Definition nan_free (n : nat) (M : @made stored_value) : bool :=
  forallb (fun e => forallb (fun j => known (curve_of (m_py M e j)) && known (columns_of (m_mt M e j)) && known (curve_of (m_tz M e j))) (seq 0 2)) (seq 0 n)
  && known (curve_of (m_hb M)) && known (curve_of (m_mb M)) && known (curve_of (m_qz M)).

Definition springs_of (M : @made stored_value) : springs :=
  {| g_py := fun e j => or_else no_points (curve_of (m_py M e j)); g_tz := fun e j => or_else no_points (curve_of (m_tz M e j));
     g_mt := fun e j => or_else [] (columns_of (m_mt M e j));
     g_hb := or_else no_points (curve_of (m_hb M)); g_mb := or_else no_points (curve_of (m_mb M)); g_qz := or_else no_points (curve_of (m_qz M)) |}.

(** The model as the constructor leaves it *)
Record built := mkBuilt { b_pile : list section; b_mesh : list Q; b_setting : setting; b_made : @made stored_value }.

(** construct.py 1034-1053 and 1166-1190: the setting of create_springs.  [rows] is Pile.data sorted by elevation. *)
Definition setting_of (o : options) (p : list section) (b : Q) (rows : list (Q * section)) (ground water : Q) (ls : list layer) (m : list Q) (sg : list nanQ * list nanQ) : setting :=
  {| distributed_lateral := on_py o; distributed_moment := on_mt o; base_shear := on_hb o; base_moment := on_mb o; distributed_axial := on_tz o; base_axial := on_qz o;
     ground := ground; soil_bottom := profile_bottom ground ls; water := water; tip := b;
     elems := elements_of m; sig_top := fst sg; sig_bottom := snd sg;
     width := fun i => element_property s_width rows (nth i (elements_of m) (0, 0));
     outer := fun i => element_property s_outer rows (nth i (elements_of m) (0, 0));
     inner := fun i => element_property s_inner rows (nth i (elements_of m) (0, 0)) |}.

(** Pile(...), SoilProfile(...), Model(...).  The None case of the mesh is excluded by C15. *)
Definition construct (ch : chance) (sort : list (Q * section) -> list (Q * section)) (o : options) (sections : list section) (ground water : Q) (ys : list soil_layer)
    (x2mesh : list Q) (c : Q) : res (option built) :=
  bind (make_pile sections) (fun p =>
  bind (make_profile ground (map y_layer ys)) (fun ls =>
  bind (pile_length p) (fun len =>
  bind (pile_bottom p) (fun b =>
  bind (accept_model len c b (Some (profile_bottom ground ls))) (fun _ =>
  match mesh p b (Some ls) x2mesh c with
  | None => Ok None
  | Some m =>
      bind (stress ls ground water (elements_of m)) (fun sg =>
      bind (tip_area p) (fun ta =>
      bind (tip_footprint p) (fun fp =>
      let st := setting_of o p b (sort (data_rows p)) ground water ls m sg in
      bind (make_springs st (map (slayer_of ch ta fp) ys)) (fun M => Ok (Some (mkBuilt p m st M))))))
  end))))).

(** kernel.py 479-569: the coefficients of the m-t matrix of element [e]; None when they contain NaN *)
Definition moment_coef (ty : elem_type) (circ : bool) (E nu : Q) (p : list section) (elems : list (Q * Q)) (e : nat) : res (option (Q * Q * Q * Q)) :=
  match ty with
  | EulerBernoulli =>
      match elem_value s_inertia p elems e, elem_value s_area p elems e with
      | Some J, Some A => Ok (Some (mt_coefs ty 0 J A (elem_length elems e)))
      | _, _ => Ok None
      end
  | Timoshenko =>
      if circ then
        match elem_value s_inertia p elems e, elem_value s_area p elems e, elem_value s_width p elems e, elem_value thickness p elems e with
        | Some J, Some A, Some d, Some wt =>
            bind (shear_kappa ty circ nu d wt) (fun kappa =>
            let L := elem_length elems e in
            Ok (Some (mt_coefs ty (E * J * kappa / (A * shear_modulus E nu * (L * L))) J A L)))
        | _, _, _, _ => Ok None
        end
      else Err ValueError
  end.
Definition moment_coefs (ty : elem_type) (circ : bool) (E nu : Q) (p : list section) (elems : list (Q * Q)) : res (option (list (Q * Q * Q * Q))) :=
  bind (collect (length elems) (moment_coef ty circ E nu p elems)) (fun l => Ok (all_some l)).

Definition when_on {A : Type} (b : bool) (a : A) : option A := if b then Some a else None.

(** kernel.py 717-787: the stiffness model of a built Model *)
Definition stiffness_model (o : options) (p : list section) (m : list Q) (ks : list mat) (cs : list (Q * Q * Q * Q)) (g : springs) : wmodel :=
  soil_model p (elements_of m) ks (when_on (on_py o) (g_py g)) (when_on (on_tz o) (g_tz g)) (when_on (on_mt o) (g_mt g))
    (fun e => nth e cs (0, 0, 0, 0)) (when_on (on_hb o) (g_hb g)) (when_on (on_mb o) (g_mb g)) (when_on (on_qz o) (g_qz g)).

(** winkler.py 502-637 on a built Model with the boundary conditions [l].  Springs with NaN give no numbers: Ok None. *)
Definition solve_built (solve : solver) (ty : elem_type) (circ : bool) (E nu : Q) (o : options) (B : built) (l : list bc) (max_iter : nat) : res (option outcome) :=
  let nodes := nodes_of (b_mesh B) in
  let elems := elements_of (b_mesh B) in
  bind (global_forces nodes l) (fun tf =>
  bind (global_disp nodes l) (fun td =>
  bind (global_restrained nodes l) (fun tr =>
  bind (elem_matrices ty circ E nu (b_pile B) elems) (fun ks =>
  bind (if on_mt o then moment_coefs ty circ E nu (b_pile B) elems else Ok (Some [])) (fun cs =>
  match ks, cs, nan_free (length elems) (b_made B) with
  | Some ks, Some cs, true =>
      bind (winkler_model solve (stiffness_model o (b_pile B) (b_mesh B) ks cs (springs_of (b_made B))) (dof_vector tf) (dof_vector td) (dof_flags tr) max_iter) (fun r => Ok (Some r))
  | _, _, _ => Ok None
  end))))).

(** The whole: construct the model, make the setter calls, analyse *)
Definition soil_analysis (ch : chance) (sort : list (Q * section) -> list (Q * section)) (solve : solver) (ty : elem_type) (circ : bool) (E nu : Q) (o : options)
    (sections : list section) (ground water : Q) (ys : list soil_layer) (x2mesh : list Q) (c : Q) (cs : list call) (max_iter : nat) : res (option outcome) :=
  bind (construct ch sort o sections ground water ys x2mesh c) (fun B =>
  match B with None => Ok None | Some B => solve_built solve ty circ E nu o B (run cs []) max_iter end).
End Storage.

(** construct.py 1315-1342: what create_springs warns about, on the numbers of the arrays.  A result that is
    not a number is one entry here; the axial arrays are not checked. *)
Definition entries (v : option stored_value) : list nanQ :=
  match v with
  | None => [Some 0]
  | Some (Ok (Some cols)) => flat_map (fun col => flat_map (fun q => [Some (fst q); Some (snd q)]) col) cols
  | Some _ => [None]
  end.
Definition over (n : nat) (f : nat -> nat -> option stored_value) : list nanQ := flat_map (fun e => entries (f e 0%nat) ++ entries (f e 1%nat)) (seq 0 n).
Definition warnings (n : nat) (M : @made stored_value) : list AccessModel.warning :=
  fst (AccessModel.finish (AccessModel.mkArrays (over n (m_py M)) (over n (m_mt M)) (entries (m_hb M)) (entries (m_mb M)) [] [])).
