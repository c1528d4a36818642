(** Element properties, overburden and weights.
    Models src/openpile/core/_model_build.py 65-124, 200-253 and src/openpile/construct.py
    321-336, 1034-1053, 1147-1320 (which springs are computed with which arguments), 1399-1494. *)
From Coq Require Import List Bool Arith ZArith QArith Qabs Qminmax.
From Verif Require Import Base PileModel MeshModel.
Import ListNotations.
Local Open Scope Q_scope.

(** A float that may be NaN. *)
Definition nanQ := option Q.

Definition n_lift2 (f : Q -> Q -> Q) (a b : nanQ) : nanQ :=
  match a, b with Some x, Some y => Some (f x y) | _, _ => None end.

(** numpy .sum(): NaN as soon as one entry is NaN. *)
Definition n_sum (l : list nanQ) : nanQ := fold_right (n_lift2 Qplus) (Some 0) l.

(** ** pandas.merge_asof(direction="forward") on one key: the first row of the right table
    (sorted ascending) whose key is not below the left key. *)
Fixpoint asof_forward {A : Type} (rows : list (Q * A)) (z : Q) : option A :=
  match rows with
  | [] => None
  | (k, a) :: t => if Qle_bool z k then Some a else asof_forward t z
  end.

(** construct.py 321-336: the rows of Pile.data, keyed by elevation; the row carries its
    section, from which all columns are taken. *)
Definition data_rows (p : list section) : list (Q * section) :=
  flat_map (fun s => [(s_top s, s); (s_bottom s, s)]) p.

(** construct.py 1041: .sort_values(by="Elevation [m]").  The default sort is not stable in
    general, so the order of the two rows of a section boundary is a parameter: [rows] is any
    ascending permutation of the data.  The stable one is [stable_rows]. *)
Definition stable_rows (p : list section) : list (Q * section) := sort_by fst (data_rows p).

(** construct.py 1034-1053: one column (given by [f]) of element_properties. *)
Definition element_property {A : Type} (f : section -> A) (rows : list (Q * section)) (e : Q * Q) : option A :=
  option_map f (asof_forward rows (fst e)).

(** ** _model_build.py 65-82: parameter2elements.  Objects are (top, bottom, value). *)
Definition inside (top bottom : Q) (e : Q * Q) : bool :=
  Qle_bool (fst e) top && Qle_bool bottom (snd e).

Definition parameter2elements {A : Type} (objs : list (Q * Q * A)) (elems : list (Q * Q)) : list (option A) :=
  fold_left (fun col o => map (fun pe => if inside (fst (fst o)) (snd (fst o)) (snd pe) then Some (snd o) else fst pe)
                              (combine col elems))
            objs (map (fun _ => None) elems).

Definition section_objs {A : Type} (f : section -> A) (p : list section) : list (Q * Q * A) :=
  map (fun s => (s_top s, s_bottom s, f s)) p.

(** construct.py 1403-1407: element volumes. *)
Definition volumes (area : section -> Q) (p : list section) (elems : list (Q * Q)) : list nanQ :=
  map (fun ae => option_map (fun a => (fst (snd ae) - snd (snd ae)) * a) (fst ae))
      (combine (parameter2elements (section_objs area p) elems) elems).

(** construct.py 1399-1412: effective_pile_weight for a model with soil. *)
Definition effective_pile_weight (uw water : Q) (p : list section) (elems : list (Q * Q)) : nanQ :=
  n_sum (map (fun ve => option_map (fun v => v * (if Qle_bool (fst (snd ve)) water then uw - 10 else uw)) (fst ve))
             (combine (volumes s_area p elems) elems)).

(** construct.py 1456-1490: entrapped_soil_weight for a model with soil; an element outside every
    layer keeps 0.  [Vi] is computed before the loop over the layers. *)
Definition entrapped_soil_weight (water : Q) (p : list section) (layers : list layer) (elems : list (Q * Q)) : nanQ :=
  n_sum (map (fun ve =>
      fold_left (fun acc l => if inside (l_top l) (l_bottom l) (snd ve)
                              then option_map (fun v => (if Qltb water (fst (snd ve)) then l_weight l else l_weight l - 10) * v) (fst ve)
                              else acc) layers (Some 0))
    (combine (volumes s_entrapped p elems) elems)).

(** ** _model_build.py 200-217, 220-253: soil properties *)

Definition layer_rows (layers : list layer) : list (Q * layer) :=
  sort_by fst (map (fun l => (l_top l, l)) layers).

(** lines 225-241: unit weight of an element, reduced by 10 at or below the water line.  Ties of
    equal layer tops are resolved by the stable order. *)
Definition elem_weight (layers : list layer) (water : Q) (e : Q * Q) : nanQ :=
  option_map (fun l => if Qle_bool (fst e) water then l_weight l - 10 else l_weight l)
             (asof_forward (layer_rows layers) (fst e)).

(** lines 241-243 *)
Definition stress_increment (layers : list layer) (water : Q) (e : Q * Q) : nanQ :=
  option_map (fun w => (fst e - snd e) * w) (elem_weight layers water e).

(** pandas Series.cumsum: NaN entries stay NaN and are skipped. *)
Fixpoint cumsum (acc : Q) (l : list nanQ) : list nanQ :=
  match l with
  | [] => []
  | Some x :: t => Some (acc + x) :: cumsum (acc + x) t
  | None :: t => None :: cumsum acc t
  end.

(** np.where(z_top == ground)[0] *)
Fixpoint where_eq (i : nat) (ground : Q) (elems : list (Q * Q)) : list nat :=
  match elems with
  | [] => []
  | e :: t => if Qeq_bool (fst e) ground then i :: where_eq (S i) ground t else where_eq (S i) ground t
  end.

(** np.insert(arr, [k], v) for one index; with no or several indices the column length does not
    fit the table and pandas raises ValueError. *)
Definition insert_at {A : Type} (k : nat) (v : A) (l : list A) : list A := firstn k l ++ v :: skipn k l.

(** lines 244-249: the two stress columns. *)
Definition stress (layers : list layer) (ground water : Q) (elems : list (Q * Q)) : res (list nanQ * list nanQ) :=
  let cs := cumsum 0 (map (stress_increment layers water) elems) in
  match where_eq 0 ground elems with
  | [k] => Ok (insert_at k (Some 0) (removelast cs), cs)
  | _ => Err ValueError
  end.

(** ** _model_build.py 85-124: get_tip_sig_v_eff.  The [return] is inside the loop: only the
    highest layer is visited; without layers the result is Python's None. *)
Definition tip_layer_stress (tip water mudline : Q) (l : layer) : Q :=
  let g := l_weight l in
  let b := l_weight l - 10 in
  if Qle_bool tip (l_bottom l) then
    mudline + (if Qle_bool water (l_bottom l) then g
               else if Qltb water (l_top l)
                    then (g * (l_top l - water) + b * (water - l_bottom l)) / (l_top l - l_bottom l)
                    else b) * (l_top l - l_bottom l)
  else if Qltb tip (l_top l) && Qltb (l_bottom l) water then
    mudline + (if Qle_bool water tip then g
               else if Qltb water (l_top l)
                    then (g * (l_top l - water) + b * (water - tip)) / (l_top l - tip)
                    else b) * (l_top l - tip)
  else mudline.

Definition tip_sig_v_eff (tip water mudline : Q) (layers : list layer) : option Q :=
  match sort_by (fun l => - l_top l) layers with
  | [] => None
  | l :: _ => Some (tip_layer_stress tip water mudline l)
  end.

(** ** construct.py 1419-1445: shaft_resistance *)

(** np.gradient(z) with unit spacing. *)
Fixpoint grad_inner (z : list Q) : list Q :=
  match z with
  | a :: ((_ :: c :: _) as t) => (c - a) / 2 :: grad_inner t
  | [_; _] => []
  | _ => []
  end.

Definition gradient (z : list Q) : option (list Q) :=
  match z, rev z with
  | a :: b :: _, y :: x :: _ => Some ((b - a) :: grad_inner z ++ [y - x])
  | _, _ => None          (* numpy raises ValueError *)
  end.

Definition influence (z : list Q) : option (list Q) :=
  option_map (map (fun g => Qabs g / 2)) (gradient z).

(** One of the two sums; [f] are the extreme spring values at the top and bottom of the elements. *)
Definition shaft_sum (f : list (Q * Q)) (infl : list Q) : Q :=
  Qsum (map (fun p => Qabs (fst (fst p) * fst (snd p) + snd (fst p) * snd (snd p)))
            (combine f (combine (removelast infl) (tl infl)))).
