(** Independent statement of the axial capacity of a pile in layered soil. *)
From Coq Require Import List Bool Arith QArith Reals Qreals.
From Verif Require Import Base PileModel StressSpec CreateModel AxialModel AxialSpec CapacityModel.
Import ListNotations.
Local Open Scope R_scope.

(** A parameter given at the top and the bottom of a layer, at a fraction of its height from the top *)
Definition between (top bottom frac : R) : R := top + (bottom - top) * frac.

(** Peak unit friction (kPa) under the effective stress [sig]; in clay without stress, that under 1 Pa *)
Definition unit_friction (m : axial_soil) (sig frac : R) : R :=
  match m with
  | Clay c => clay_friction (if Req_EM_T sig 0 then 0.001 else sig) (between (ca_Su_top c) (ca_Su_bottom c) frac) 1
  | Sand s => fmax_api_sand sig (between (sa_delta_top s) (sa_delta_bottom s) frac) (sa_K s)
  end.

(** Unit end bearing (kPa) *)
Definition unit_bearing (m : axial_soil) (sig frac : R) : R :=
  match m with
  | Clay c => 9 * between (ca_Su_top c) (ca_Su_bottom c) frac
  | Sand s => Qmax_api_sand sig (between (sa_delta_top s) (sa_delta_bottom s) frac)
  end.

Definition factor (m : multiplier) : R := match m with MNum c => c | MFun _ => 0 end.
Definition soil_plug (m : axial_soil) : plug := match m with Clay c => ca_plug c | Sand s => sa_plug s end.
Definition friction_factor (m : axial_soil) : R := factor (match m with Clay c => ca_tm c | Sand s => sa_tm s end).
Definition tension_factor (m : axial_soil) : R := match m with Clay c => ca_tension c | Sand s => sa_tension s end.
Definition bearing_factor (m : axial_soil) : R := match m with Clay c => ca_Qm c | Sand s => sa_Qm s end.
Definition plugged (compression : bool) (p : plug) : bool :=
  match p with PlugNone => false | PlugCompression => compression | PlugTension => negb compression | PlugBoth => true end.

(** Soil models within their range *)
Definition admissible (m : axial_soil) : Prop :=
  match m with
  | Clay c => (exists t z, ca_tm c = MNum t /\ ca_zm c = MNum z /\ 0 <= t /\ 0 <= z) /\ 0 <= ca_residual c <= 1 /\ 0 <= ca_tension c /\
              0 < ca_Su_top c /\ 0 < ca_Su_bottom c /\ 0 <= ca_Qm c /\ 0 <= ca_wm c
  | Sand s => (exists t z, sa_tm s = MNum t /\ sa_zm s = MNum z /\ 0 <= t /\ 0 <= z) /\ 0 <= sa_K s /\ 0 <= sa_tension s /\
              0 <= sa_delta_top s < 90 /\ 0 <= sa_delta_bottom s < 90 /\ 0 <= sa_Qm s /\ 0 <= sa_wm s
  end.

(** Friction per metre of pile whose outer and inner perimeters are [co] and [ci] *)
Definition line_capacity (compression : bool) (m : axial_soil) (sig frac co ci : R) : R :=
  unit_friction m sig frac * friction_factor m * (if compression then 1 else tension_factor m) *
  sliding_perimeter (plugged compression (soil_plug m)) ci co.

(** The layer that contains an element *)
Definition layer_of (xs : list axial_layer) (e : Q * Q) : option axial_layer :=
  find (fun x => Qle_bool (l_bottom (x_layer x)) (snd e) && Qle_bool (fst e) (l_top (x_layer x))) xs.

(** Friction per metre at the top ([j = 0]) or bottom of element [i] *)
Definition end_capacity (compression : bool) (xs : list axial_layer) (st : setting) (co ci : nat -> Q) (i j : nat) : R :=
  let e := nth i (elems st) (0, 0)%Q in
  let z := if Nat.eqb j 0 then fst e else snd e in
  match layer_of xs e with
  | Some x => match x_soil x with
              | Some m => let l := x_layer x in
                  line_capacity compression m (Q2R (overburden (map x_layer xs) (water st) z))
                    (Q2R ((l_top l - z) / (l_top l - l_bottom l))%Q) (Q2R (co i)) (Q2R (ci i))
              | None => 0
              end
  | None => 0
  end.

Definition Rsum (l : list R) : R := fold_right Rplus 0 l.

(** Height of an element, friction at one of its ends *)
Section Integral.
Variable (cap : nat -> nat -> R) (els : list (Q * Q)).
Definition tall (i : nat) : R := Q2R (fst (nth i els (0, 0)%Q) - snd (nth i els (0, 0)%Q))%Q.
(** The integral of the friction along the pile, by the trapezoidal rule over the elements *)
Definition trapezoids : R := Rsum (map (fun i => tall i * (cap i 0%nat + cap i 1%nat) / 2) (seq 0 (length els))).
(** At every inner node, a quarter of the step in friction times the step in element height *)
Definition steps : R := Rsum (map (fun i => (tall (S i) - tall i) * (cap i 1%nat - cap (S i) 0%nat) / 4) (seq 0 (length els - 1))).
End Integral.

(** End bearing of the pile: the tip is in the layer of the lowest element; a pile plugged in compression
    stands on its footprint, another on its section *)
Definition tip_capacity (xs : list axial_layer) (st : setting) (tip_area footprint : Q) : R :=
  match layer_of xs (last (elems st) (0, 0)%Q) with
  | Some x => match x_soil x with
              | Some m => let l := x_layer x in
                  unit_bearing m (Q2R (overburden (map x_layer xs) (water st) (tip st))) (Q2R ((l_top l - tip st) / (l_top l - l_bottom l))%Q) *
                  bearing_factor m * Q2R (if plugged true (soil_plug m) then footprint else tip_area)
              | None => 0
              end
  | None => 0
  end.
