(** What it means that a spring function fails, or returns, where the construction of a model calls it. *)
From Coq Require Import List Bool Arith ZArith QArith Reals.
From Verif Require Import Base PileModel MeshModel StressModel StressSpec BeamModel SolveModel CreateModel WholeModel AxialModel LateralModel CapacityModel FullModel FullSpec.
Import ListNotations.
Local Open Scope Q_scope.

(** Arrays that fit into the 15 places of a spring *)
Definition fits_curve (c : LateralModel.curve) : Prop := length (fst c) = 15%nat /\ length (snd c) = 15%nat.
Definition fits_curves (c : LateralModel.curves) : Prop := length (fst c) = 15%nat /\ length (snd c) = 15%nat /\
  (forall r, In r (fst c) -> length r = 15%nat) /\ (forall r, In r (snd c) -> length r = 15%nat).
Definition fits_axial (v : option (list R * list R)) : Prop := match v with None => True | Some (z, t) => length z = 15%nat /\ length t = 15%nat end.

(** The call raises [er], or returns arrays that do not fit, which raises ValueError *)
Definition fails {A : Type} (ok : A -> Prop) (er : exn) (r : res A) : Prop := r = Err er \/ (er = ValueError /\ exists v, r = Ok v /\ ~ ok v).
Definition returns {A : Type} (ok : A -> Prop) (r : res A) : Prop := exists v, r = Ok v /\ ok v.

Section Calls.
Variables (ch : chance) (o : options) (sections : list section) (gr wt b area footprint : Q) (ys : list soil_layer) (m : list Q).
Notation el i := (nth i (elements_of m) (0, 0)).
Notation ls := (map y_layer ys).
Definition height_of (i j : nat) : Q := if Nat.eqb j 0 then fst (el i) else snd (el i).
(** Element [i] is in the layer *)
Definition in_layer (y : soil_layer) (i : nat) : Prop := (i < length (elements_of m))%nat /\ l_bottom (y_layer y) <= snd (el i) /\ fst (el i) <= l_top (y_layer y).

(** The call for end [j] of element [i] ends as [P] says *)
Definition py_call (y : soil_layer) (i j : nat) (P : res LateralModel.curve -> Prop) : Prop := exists s a md, nearby sections s (el i) /\ axial_place ls gr wt (y_layer y) (height_of i j) s a /\
  y_lat y = Some md /\ nth 0 (spring_signature md) false = true /\
  P (py_spring_fct md (c_py ch md a) (spot ls gr wt b (y_layer y) (height_of i j) (gr - height_of i j) (s_width s)) 0 15).
Definition mt_call (y : soil_layer) (i j : nat) (P : res LateralModel.curves -> Prop) : Prop := exists s a md, nearby sections s (el i) /\ axial_place ls gr wt (y_layer y) (height_of i j) s a /\
  y_lat y = Some md /\ nth 2 (spring_signature md) false = true /\
  P (mt_spring_fct md (fst (c_mt ch md a)) (snd (c_mt ch md a)) (spot ls gr wt b (y_layer y) (height_of i j) (gr - height_of i j) (s_width s)) 0 15).
Definition tz_call (y : soil_layer) (i j : nat) (P : values -> Prop) : Prop := exists s a ax, nearby sections s (el i) /\ axial_place ls gr wt (y_layer y) (height_of i j) s a /\
  y_ax y = Some ax /\ P (tz_curve (c_tz ch) ax a).
(** The calls for the tip *)
Definition base_spot (y : soil_layer) (s : section) : place := spot ls gr wt b (y_layer y) b (gr - profile_bottom gr ls) (s_width s).
Definition hb_call (y : soil_layer) (i : nat) (P : res LateralModel.curve -> Prop) : Prop := exists s md, nearby sections s (el i) /\ y_lat y = Some md /\ nth 1 (spring_signature md) false = true /\
  P (Hb_spring_fct md (base_spot y s) 0 15).
Definition mb_call (y : soil_layer) (i : nat) (P : res LateralModel.curve -> Prop) : Prop := exists s md, nearby sections s (el i) /\ y_lat y = Some md /\ nth 3 (spring_signature md) false = true /\
  P (Mb_spring_fct md (base_spot y s) 0 15).
Definition qz_call (y : soil_layer) (i : nat) (P : values -> Prop) : Prop := exists s a ax, nearby sections s (el i) /\ (exists sig, a_sig a = Some sig /\ sig == overburden ls wt b) /\
  a_D a = Some (s_width s) /\ y_ax y = Some ax /\ P (qz_curve (c_qz ch) area footprint ax a).

(** Some call for element [i] in layer [y] fails with [er] *)
Definition raised (y : soil_layer) (i : nat) (er : exn) : Prop :=
  (exists j, (j < 2)%nat /\ ((on_tz o = true /\ tz_call y i j (fails fits_axial er)) \/ (on_py o = true /\ py_call y i j (fails fits_curve er)) \/ (on_mt o = true /\ mt_call y i j (fails fits_curves er)))) \/
  (within (y_layer y) b /\ ((on_qz o = true /\ qz_call y i (fails fits_axial er)) \/ (on_hb o = true /\ hb_call y i (fails fits_curve er)) \/ (on_mb o = true /\ mb_call y i (fails fits_curve er)))).

(** All calls for it return *)
Definition all_return (y : soil_layer) (i : nat) : Prop :=
  (forall j, (j < 2)%nat -> (on_tz o = true -> y_ax y <> None -> tz_call y i j (returns fits_axial)) /\
     forall md, y_lat y = Some md -> (on_py o = true -> nth 0 (spring_signature md) false = true -> py_call y i j (returns fits_curve)) /\
       (on_mt o = true -> nth 2 (spring_signature md) false = true -> mt_call y i j (returns fits_curves))) /\
  (within (y_layer y) b -> (on_qz o = true -> y_ax y <> None -> qz_call y i (returns fits_axial)) /\
     forall md, y_lat y = Some md -> (on_hb o = true -> nth 1 (spring_signature md) false = true -> hb_call y i (returns fits_curve)) /\
       (on_mb o = true -> nth 3 (spring_signature md) false = true -> mb_call y i (returns fits_curve))).
End Calls.
