(** What the user may expect of a pile in soil: when a site is described soundly, and which springs can be used. *)
From Coq Require Import List Bool Arith ZArith QArith Qabs Reals Qreals Permutation.
From Verif Require Import Base PileModel PileSpec MeshModel MeshSpec StressModel StressSpec WholeSpec CreateModel
  AxialModel AxialSpec AxialProofs LateralModel LateralSpec LateralProofs MomentProofs StartProofs CapacityModel CapacitySpec CapacityProofs FullModel.
Import ListNotations.
Local Open Scope Q_scope.

(** Storing a number in a float32 array keeps the order, zero and the sign; no other number becomes zero (none
    is closer to zero than 1e-45). *)
Definition storage (rnd : R -> Q) : Prop := (forall x y, (x <= y)%R -> rnd x <= rnd y) /\ rnd 0%R = 0 /\ (forall x, (0 < x)%R -> 0 < rnd x) /\ (forall x, (x < 0)%R -> rnd x < 0).

(** ** Springs *)
Notation xy c i := (nth i c (0, 0)).
(** A lateral spring: 15 points from the origin, displacements in order, no negative resistance *)
Definition lateral_shape (c : list (Q * Q)) : Prop := length c = 15%nat /\ fst (xy c 0) == 0 /\ snd (xy c 0) == 0 /\
  (forall i j, (i <= j < 15)%nat -> fst (xy c i) <= fst (xy c j)) /\ (forall q, In q c -> 0 <= snd q).
(** The first step is positive, unless the spring is switched off *)
Definition usable_py (c : list (Q * Q)) : Prop := lateral_shape c /\ ((forall q, In q c -> fst q == 0) \/ 0 < fst (xy c 1)).
Definition usable_base (c : list (Q * Q)) : Prop := lateral_shape c /\ ((forall q, In q c -> snd q == 0) \/ 0 < fst (xy c 1)).
(** An axial spring: 15 points, the middle one at the origin, displacements in reverse order *)
Definition axial_shape (c : list (Q * Q)) : Prop := length c = 15%nat /\ fst (xy c 7) == 0 /\ snd (xy c 7) == 0 /\
  (forall i j, (i <= j < 15)%nat -> fst (xy c j) <= fst (xy c i)).
Definition usable_tz (c : list (Q * Q)) : Prop := axial_shape c /\ ((forall q, In q c -> fst q == 0) \/ (fst (xy c 8) < 0 /\ 0 < fst (xy c 6))).
Definition usable_qz (c : list (Q * Q)) : Prop := axial_shape c /\ ((forall q, In q c -> snd q == 0) \/ (fst (xy c 8) < 0 /\ 0 < fst (xy c 6))).
(** A rotational spring: 15 curves over the rotation, for 15 lateral resistances *)
Definition usable_mt (cols : list (list (Q * Q))) : Prop := length cols = 15%nat /\
  (forall c, In c cols -> length c = 15%nat /\ forall q, In q c -> 0 <= fst q /\ 0 <= snd q) /\
  (forall i j k, (i <= j < 15)%nat -> fst (xy (nth i cols []) k) <= fst (xy (nth j cols []) k)) /\
  (forall q, In q (nth 0 cols []) -> fst q == 0 /\ snd q == 0) /\
  ((forall c q, In c cols -> In q c -> fst q == 0) \/ (forall q, In q (nth 1 cols []) -> 0 < fst q)).

Definition usable (g : springs) : Prop := (forall e j, usable_py (g_py g e j)) /\ (forall e j, usable_tz (g_tz g e j)) /\ (forall e j, usable_mt (g_mt g e j)) /\
  usable_base (g_hb g) /\ usable_base (g_mb g) /\ usable_qz (g_qz g).

(** A lateral spring that resists every displacement, and an axial one that resists every movement *)
Definition resists (c : list (Q * Q)) : Prop := 0 < fst (xy c 1) /\ forall i, (1 <= i < 15)%nat -> 0 < snd (xy c i).
Definition resists_axial (c : list (Q * Q)) : Prop := fst (xy c 8) < 0 /\ (forall i, (i < 7)%nat -> 0 < snd (xy c i)) /\ forall i, (8 <= i < 15)%nat -> snd (xy c i) < 0.

(** ** The site *)
(** Elevation [z] in layer [l], for a section of width [D] and depth [X]; [b] is the tip *)
Definition spot (ls : list layer) (ground water b : Q) (l : layer) (z X D : Q) : place :=
  mkPlace (Q2R (overburden ls water z)) (Q2R X) (Q2R (l_top l - l_bottom l)) (Q2R (l_top l - z)) (Q2R D) (Q2R (ground - b)) (Qle_bool z water).

Definition within (l : layer) (z : Q) : Prop := l_bottom l <= z /\ z <= l_top l.

(** Soil parameters in the range of their models, everywhere along the pile *)
Record sound_soil (o : options) (sections : list section) (ground water b : Q) (ys : list soil_layer) : Prop := {
  so_py : forall y m s z, on_py o = true -> In y ys -> y_lat y = Some m -> In s sections -> within (y_layer y) z -> b <= z ->
    let q := spot (map y_layer ys) ground water b (y_layer y) z (ground - z) (s_width s) in
    LateralProofs.admissible m q 15 /\ (0 <= at_X (p_multiplier m) (q_X q))%R /\ (0 <= at_X (y_multiplier m) (q_X q))%R;
  so_mt : forall y m s z, on_mt o = true -> nth 2 (spring_signature m) false = true -> In y ys -> y_lat y = Some m -> In s sections -> within (y_layer y) z -> b <= z ->
    let q := spot (map y_layer ys) ground water b (y_layer y) z (ground - z) (s_width s) in
    moment_usable m q 15 /\ (0 <= at_X (p_multiplier m) (q_X q))%R /\ (0 <= at_X (m_multiplier m) (q_X q))%R /\ (0 <= at_X (t_multiplier m) (q_X q))%R;
  (** the depth the base models are given is that of the bottom of the soil *)
  so_base : forall y m s, on_hb o && nth 1 (spring_signature m) false = true \/ on_mb o && nth 3 (spring_signature m) false = true ->
    In y ys -> y_lat y = Some m -> In s sections -> within (y_layer y) b ->
    base_admissible m (spot (map y_layer ys) ground water b (y_layer y) b (ground - profile_bottom ground (map y_layer ys)) (s_width s));
  so_ax : forall y s, In y ys -> y_ax y = Some s -> CapacitySpec.admissible s;
  so_tip : forall y s, on_qz o = true -> In y ys -> y_ax y = Some s -> (0 < match s with Clay c => ca_wm c | Sand c => sa_wm c end)%R }.

(** random() is in [0, 1) and np.argsort sorts *)
Definition fair_chance (ch : chance) : Prop :=
  (forall m a i, (0 <= c_py ch m a i < 1)%R) /\ (forall m a, (forall i, (0 <= fst (c_mt ch m a) i < 1)%R) /\ sorted_draw m (fst (c_mt ch m a)) (snd (c_mt ch m a))) /\
  fair (c_tz ch) /\ fair_tip (c_qz ch).

(** A pile in layered soil, meshed into [m] *)
Record sound_site (o : options) (sections : list section) (ground water : Q) (ys : list soil_layer) (x : list Q) (c : Q) (p : list section) (t b : Q) (m : list Q) : Prop := {
  si_mesh : meshed sections (Some (map y_layer ys)) x c p t b m;
  si_fine : 5 * c <= t - b;
  si_stack : exists d, Permutation (map y_layer ys) d /\ exact_stack ground d /\ stack_bottom ground d <= b;
  si_tip : b < ground;
  si_weight : forall y, In y ys -> 10 < l_weight (y_layer y);
  si_water : water_at (requested p b (Some (map y_layer ys)) x) water;
  si_outer : forall s, In s sections -> 0 < s_outer s /\ 0 <= s_footprint s;
  si_soil : sound_soil o sections ground water b ys }.

(** ** Which springs a site has *)
(** An array holds the curve a spring function returned *)
Definition holds_curve (rnd : R -> Q) (r : res LateralModel.curve) (c : list (Q * Q)) : Prop :=
  exists y p, r = Ok (y, map Some p) /\ length c = 15%nat /\ forall i, (i < 15)%nat -> xy c i = (rnd (nth i y 0%R), rnd (nth i p 0%R)).
Definition holds_curves (rnd : R -> Q) (r : res LateralModel.curves) (cols : list (list (Q * Q))) : Prop :=
  exists T M, r = Ok (T, map (map Some) M) /\ length cols = 15%nat /\
  forall k i, (k < 15)%nat -> (i < 15)%nat -> xy (nth k cols []) i = (rnd (nth k (nth i T []) 0%R), rnd (nth k (nth i M []) 0%R)).
Definition holds_axial (rnd : R -> Q) (r : values) (c : list (Q * Q)) : Prop :=
  exists z t, r = Ok (Some (z, t)) /\ length c = 15%nat /\ forall i, (i < 15)%nat -> fst (xy c i) == - rnd (nth i z 0%R) /\ snd (xy c i) == - rnd (nth i t 0%R).
Definition no_spring (c : list (Q * Q)) : Prop := length c = 15%nat /\ forall q, In q c -> q = (0, 0).

(** The section an element gets its properties from: its own, or the one directly above *)
Definition nearby (sections : list section) (s : section) (e : Q * Q) : Prop :=
  In s sections /\ (in_section s e \/ exists s0, In s0 sections /\ in_section s0 e /\ s_bottom s == s_top s0).

(** Arguments of the axial springs at elevation [z]; the perimeter inside is that outside (C103) *)
Definition axial_place (ls : list layer) (ground water : Q) (l : layer) (z : Q) (s : section) (a : args) : Prop :=
  (exists sig, a_sig a = Some sig /\ sig == overburden ls water z) /\ a_X a == ground - z /\ a_depth a == l_top l - z /\ a_height a == l_top l - l_bottom l /\
  a_D a = Some (s_width s) /\ a_perim a = Some (s_outer s) /\ a_perim_in a = Some (s_outer s).

(** A spring is there if it is asked for ([on]) and the layer has a model of it *)
Definition given {A B : Type} (on : bool) (m : option A) (sig : A -> bool) (P : A -> B -> Prop) (none : B -> Prop) (c : B) : Prop :=
  match m with Some a => if on && sig a then P a c else none c | None => none c end.

(** The springs at both ends of element [i] *)
Definition own_springs (rnd : R -> Q) (ch : chance) (o : options) (sections : list section) (ground water b : Q) (ys : list soil_layer) (m : list Q) (g : springs) (i j : nat) : Prop :=
  let e := nth i (elements_of m) (0, 0) in let z := if Nat.eqb j 0 then fst e else snd e in
  (ground <= snd e /\ no_spring (g_py g i j) /\ (forall col, In col (g_mt g i j) -> no_spring col) /\ no_spring (g_tz g i j)) \/
  (snd e < ground /\ exists y s, (forall y', In y' ys /\ l_bottom (y_layer y') <= snd e /\ fst e <= l_top (y_layer y') <-> y' = y) /\ nearby sections s e /\
     let q := spot (map y_layer ys) ground water b (y_layer y) z (ground - z) (s_width s) in
     given (on_py o) (y_lat y) (fun md => nth 0 (spring_signature md) false) (fun md c => exists u, (forall i, (0 <= u i < 1)%R) /\ holds_curve rnd (py_spring_fct md u q 0 15) c) no_spring (g_py g i j) /\
     given (on_mt o) (y_lat y) (fun md => nth 2 (spring_signature md) false) (fun md c => exists u idx, (forall i, (0 <= u i < 1)%R) /\ holds_curves rnd (mt_spring_fct md u idx q 0 15) c)
       (fun cols => forall col, In col cols -> no_spring col) (g_mt g i j) /\
     given (on_tz o) (y_ax y) (fun _ => true) (fun ax c => exists a, axial_place (map y_layer ys) ground water (y_layer y) z s a /\ holds_axial rnd (tz_curve (c_tz ch) ax a) c) no_spring (g_tz g i j)).

(** The springs at the tip; the depth their models are given is that of the bottom of the soil *)
Definition own_base (rnd : R -> Q) (ch : chance) (o : options) (sections : list section) (ground water b area footprint : Q) (ys : list soil_layer) (m : list Q) (g : springs) : Prop :=
  exists y s, (forall y', In y' ys /\ l_bottom (y_layer y') <= snd (last (elements_of m) (0, 0)) /\ fst (last (elements_of m) (0, 0)) <= l_top (y_layer y') <-> y' = y) /\
    nearby sections s (last (elements_of m) (0, 0)) /\
    let q := spot (map y_layer ys) ground water b (y_layer y) b (ground - profile_bottom ground (map y_layer ys)) (s_width s) in
    given (on_hb o) (y_lat y) (fun md => nth 1 (spring_signature md) false) (fun md => holds_curve rnd (Hb_spring_fct md q 0 15)) no_spring (g_hb g) /\
    given (on_mb o) (y_lat y) (fun md => nth 3 (spring_signature md) false) (fun md => holds_curve rnd (Mb_spring_fct md q 0 15)) no_spring (g_mb g) /\
    given (on_qz o) (y_ax y) (fun _ => true) (fun ax c => exists a, (exists sig, a_sig a = Some sig /\ sig == overburden (map y_layer ys) water b) /\ a_depth a == l_top (y_layer y) - b /\
       a_height a == l_top (y_layer y) - l_bottom (y_layer y) /\ a_D a = Some (s_width s) /\ holds_axial rnd (qz_curve (c_qz ch) area footprint ax a) c) no_spring (g_qz g).

(** An element in a layer whose lateral model is not switched off by its multipliers *)
Definition resisting_layer (ground : Q) (ys : list soil_layer) (e : Q * Q) : Prop := exists y md, In y ys /\ l_bottom (y_layer y) <= snd e /\ fst e <= l_top (y_layer y) /\ snd e < ground /\
  y_lat y = Some md /\ forall X, (0 < X)%R -> (0 < at_X (p_multiplier md) X)%R /\ (0 < at_X (y_multiplier md) X)%R.

(** A shaft friction that is not switched off *)
Definition friction_works (m : axial_soil) : Prop :=
  match m with
  | Clay c => (exists t z, ca_tm c = MNum t /\ ca_zm c = MNum z /\ 0 < t /\ 0 < z)%R /\ (0 < ca_residual c)%R /\ (0 < ca_tension c)%R
  | Sand s => (exists t z, sa_tm s = MNum t /\ sa_zm s = MNum z /\ 0 < t /\ 0 < z)%R /\ (0 < sa_K s)%R /\ (0 < sa_tension s)%R /\ (0 < sa_delta_top s)%R /\ (0 < sa_delta_bottom s)%R
  end.
Definition sticking_layer (ground : Q) (ys : list soil_layer) (e : Q * Q) : Prop := exists y md, In y ys /\ l_bottom (y_layer y) <= snd e /\ fst e <= l_top (y_layer y) /\ snd e < ground /\
  y_ax y = Some md /\ friction_works md.
