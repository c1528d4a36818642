(** Properties C88-C90: construction of soil models, check of multipliers, printed descriptions. *)
From Coq Require Import String Reals Lra Lia List Bool Arith.
From Verif Require Import Base ConicModel ConicSpec PisaModel PisaSpec ApiSandModel ApiClayModel ReeseModel AxialModel AxialSpec AxialProofs LateralModel LateralSpec LateralProofs MomentProofs LateralProps PisaProps FieldModel FieldSpec FieldProofs.
Import ListNotations.
Local Open Scope R_scope.

(** ** C88: which soil models can be made, and what they promise *)
Theorem C88_accepted : forall m,
  (make_lateral m = Ok m <-> parameters_in_range m /\ multipliers_in_range m) /\
  (~ (parameters_in_range m /\ multipliers_in_range m) -> make_lateral m = Err ValueError).
Proof.
  intros m. unfold make_lateral. pose proof (fields_iff m) as F. destruct (lateral_fields m).
  - split; [split; [intros _; apply F; reflexivity|reflexivity]|]. intros N. exfalso. apply N, F. reflexivity.
  - split; [|reflexivity]. split; [discriminate|]. intros H. apply F in H. discriminate.
Qed.

(** Every accepted API, Matlock or weak rock model gives reaction curves everywhere in its layer, and the two
    PISA clays do down to six diameters.  Missing: the PISA clays deeper than that and the PISA sands, for
    which the next theorems show failures, and callable multipliers (C89). *)
Definition shallow_clay (m : lateral_model) (q : place) : Prop :=
  match m with Bothkennar_clay _ _ _ | Cowden_clay _ _ _ => q_X q <= 6 * q_D q | _ => False end.
Theorem C88_curves_partial : forall m m' u q ymax n, make_lateral m = Ok m' -> classical m' \/ shallow_clay m' q ->
  plain_multiplier (p_multiplier m') -> plain_multiplier (y_multiplier m') ->
  (forall i, 0 <= u i < 1) -> good_place q -> 0 <= ymax -> (8 <= n)%nat ->
  exists y p, py_spring_fct m' u q ymax n = Ok (y, map Some p) /\ spring_curve n y p /\ (hardening m' -> nondecreasing p).
Proof.
  intros m m' u q ymax n E C PP PY U G HY N. unfold make_lateral in E. destruct (lateral_fields m) eqn:F; [|discriminate]. injection E as <-.
  apply fields_iff in F. destruct F as [F (M1 & M2 & _)]. pose proof (plain_at _ _ (q_X q) M1 PP) as A1. pose proof (plain_at _ _ (q_X q) M2 PY) as A2. unfold gt0 in A2.
  apply C68_py_springs_partial; auto; [|lra]. clear M1 M2 PP PY A1 A2.
  destruct m; cbn [classical shallow_clay] in C; try (destruct C; contradiction); cbn [parameters_in_range] in F; cbn [admissible].
  - destruct C as [[]|C]. destruct F as [F1 F2]. split; [apply numbers_values; exact F1|]. split; [apply numbers_values; exact F2|exact C].
  - destruct C as [[]|C]. destruct F as [F1 F2]. split; [apply numbers_values; exact F1|]. split; [apply numbers_values; exact F2|exact C].
  - destruct F as [F1 F2]. split; [apply numbers_values; exact F1|]. destruct k as [p|]; [|exact Logic.I]. apply numbers_values, (F2 p eq_refl).
  - destruct F as (F1 & F2 & F3). split; [apply numbers_values; exact F1|]. split; [apply numbers_values; exact F2|exact F3].
  - destruct F as (F1 & F2 & F3). split; [apply numbers_values; exact F1|]. split; [apply numbers_values; exact F2|exact F3].
  - destruct F as (F1 & F2 & F3). split; [apply numbers_values; exact F1|]. split; [apply numbers_values; exact F2|exact F3].
Qed.

(** A number, the list of it and the list of it twice are the same lateral model. *)
Theorem C88_number_or_list : forall m g, g = (fun x => [x]) \/ g = (fun x => [x; x]) ->
  (make_lateral (rewrite_model g m) = Ok (rewrite_model g m) <-> make_lateral m = Ok m) /\
  forall u idx q ymax n,
    py_spring_fct (rewrite_model g m) u q ymax n = py_spring_fct m u q ymax n /\ mt_spring_fct (rewrite_model g m) u idx q ymax n = mt_spring_fct m u idx q ymax n /\
    Hb_spring_fct (rewrite_model g m) q ymax n = Hb_spring_fct m q ymax n /\ Mb_spring_fct (rewrite_model g m) q ymax n = Mb_spring_fct m q ymax n.
Proof.
  intros m g H.
  assert (HG : forall p d h, in_layer (rewrite_number g p) d h = in_layer p d h) by (destruct H as [-> | ->]; [apply in_layer_one|apply in_layer_two]).
  assert (HF : forall r x, forallb (ok r) (g x) = ok r x) by (destruct H as [-> | ->]; [apply one_ok|apply two_ok]).
  assert (HL : forall x, (1 <= length (g x) <= 2)%nat) by (destruct H as [-> | ->]; intros x; cbn [length]; lia).
  split.
  - unfold make_lateral. rewrite (same_fields g HF HL). destruct (lateral_fields m); split; intros; auto; discriminate.
  - intros u idx q ymax n. split; [apply rw_spring; auto|]. split; [apply rw_mt; auto|]. split; [apply rw_Hb|apply rw_Mb]; auto.
Qed.

(** The interface friction angle of sand is an exception: a single angle is not limited to 45 degrees, and the
    angle 0 can only be written as a list. *)
Theorem C88_friction_angle_refuted : forall K p tm zm Qm wm inside tension d, sand_rest_ok (mkSandAxial 0 0 K p tm zm Qm wm inside tension) = true ->
  let make v := make_sand_axial v K p tm zm Qm wm inside tension in
  (0 < d -> exists m, make (PNum d) = Ok m) /\ (45 < d -> make (PList [d]) = Err ValueError /\ make (PList [d; d]) = Err ValueError) /\
  make (PNum 0) = Err ValueError /\ (exists m, make (PList [0]) = Ok m).
Proof.
  intros K p tm zm Qm wm inside tension d HR. cbv zeta. unfold make_sand_axial, delta_field, field. rewrite HR.
  assert (A : forall x, 0 < x -> ok (Above 0) x = true) by (intros x H; apply above; exact H).
  assert (N0 : ok (Above 0) 0 = false) by (destruct (ok (Above 0) 0) eqn:E; [apply above in E; lra|reflexivity]).
  assert (W : 45 < d -> ok (Within 0 45) d = false) by (intros H; destruct (ok (Within 0 45) d) eqn:E; [apply within_iff in E; lra|reflexivity]).
  assert (W0 : ok (Within 0 45) 0 = true) by (apply within_iff; lra).
  split; [intros H; rewrite (A d H); eexists; reflexivity|]. split.
  - intros H. cbn [length forallb]. rewrite (W H). split; reflexivity.
  - rewrite N0. split; [reflexivity|]. cbn [length forallb]. rewrite W0. eexists; reflexivity.
Qed.
(** An accepted angle above 90 degrees gives negative shaft friction at every depth under stress. *)
Theorem C88_negative_friction_refuted : forall K p tm zm Qm wm inside tension d m sig depth height, 90 < d < 180 -> 0 < sig -> height <> 0 ->
  make_sand_axial (PNum d) K p tm zm Qm wm inside tension = Ok m -> exists f, sand_shaft_friction m sig depth height = Ok f /\ f < 0.
Proof.
  intros K p tm zm Qm wm inside tension d m sig depth height HD HS HH E. unfold make_sand_axial in E. destruct (delta_field (PNum d)); [|discriminate].
  destruct (sand_rest_ok _) eqn:R; [|discriminate]. cbn [andb bind top_bottom fst snd] in E. injection E as <-.
  unfold sand_shaft_friction, at_depth, nonzero. cbn [sa_delta_top sa_delta_bottom sa_K]. destruct (Req_EM_T height 0); [contradiction|]. cbn [bind]. eexists. split; [reflexivity|].
  replace (d + (d - d) * depth / height) with d by (field; auto). unfold fmax_api_sand. pose proof (tan_obtuse d HD) as T.
  assert (HK : 0.8 <= K). { unfold sand_rest_ok in R. rewrite !andb_true_iff in R. cbn [sa_K] in R. destruct R as [[[[[[R _] _] _] _] _] _]. apply within_iff in R. lra. }
  eapply Rle_lt_trans; [apply Rmin_r|]. assert (0 < K * sig) by (apply Rmult_lt_0_compat; lra). nra.
Qed.

(** Relative densities are not limited to 100: at 200 the springs at ground level have their full resistance
    without displacement, and no value at the last point. *)
Theorem C88_density_refuted : forall G0 cp cy mu u q ymax n, 0 < G0 -> 0 < cp -> 0 < cy -> mu_p mu = MNum cp -> mu_y mu = MNum cy ->
  resistance_multiplier (mu_m mu) = true -> displacement_multiplier (mu_t mu) = true -> good_place q -> q_X q = 0 -> 0 < q_sig q -> 0 < q_L q -> (8 <= n)%nat ->
  let m := Dunkirk_sand (PNum 200) (PNum G0) mu in
  make_lateral m = Ok m /\ exists y p v, py_spring_fct m u q ymax n = Ok (y, p) /\ nth 0 y 1 = 0 /\ nth 0 p None = Some v /\ 0 < v /\ last p (Some 0) = None /\ forall d, In d y -> d <= 0.
Proof.
  intros G0 cp cy mu u q ymax n HG HP HY EP EY EM ET GP EX HS HL N m. destruct GP as [G1 G2 GD GS GX]. split.
  - unfold make_lateral. cbn [m lateral_fields]. unfold positive, field, mults_ok. rewrite EP, EY, EM, ET. cbn [resistance_multiplier displacement_multiplier].
    rewrite (proj2 (above 0 200)) by lra. rewrite (proj2 (above 0 G0)) by lra. rewrite (proj2 (at_least 0 cp)) by lra. rewrite (proj2 (above 0 cy)) by lra. reflexivity.
  - pose proof (dunkirk_200 (q_sig q) G0 (q_D q) (q_L q) n GD HL HG N) as E.
    unfold py_spring_fct. rewrite inside_ok by apply G2. cbn [m py_curve p_multiplier y_multiplier]. unfold value, in_layer, at_depth, nonzero. cbn [top_bottom bind fst snd]. destruct (Req_EM_T (q_height q) 0); [lra|]. cbn [bind].
    replace (200 + (200 - 200) * q_depth q / q_height q) with 200 by (field; auto). replace (G0 + (G0 - G0) * q_depth q / q_height q) with G0 by (field; auto).
    rewrite EX, E, EP, EY. cbn [bind at_X]. unfold scaled_by. cbn [fst snd]. eexists _, _, _. split; [reflexivity|].
    destruct n as [|[|n]]; try lia. replace (S (S n) - 1)%nat with (S n) by lia. cbn [repeat app map option_map nth].
    assert (PQ : 0 < q_sig q * q_D q) by (apply Rmult_lt_0_compat; auto). assert (PC : 0 < q_sig q * q_D q / G0) by (apply Rdiv_lt_0_compat; auto).
    split; [|split; [reflexivity|split; [apply Rmult_lt_0_compat; lra|split]]].
    + unfold conic_x. cbn [map app nth]. lra.
    + rewrite map_app. cbn [map option_map]. rewrite app_comm_cons. apply last_last.
    + intros d I. rewrite map_map in I. apply in_map_iff in I. destruct I as (v & <- & I). apply conic_x_negative in I; [|lra].
      assert (0 <= q_sig q * q_D q / G0 * cy) by (apply Rmult_le_pos; lra). nra.
Qed.

(** The share of inside friction of sand is accepted and changes no spring; clay has no such parameter, and
    asking for its unit shaft signature fails. *)
Theorem C88_inside_friction_refuted : forall dt db K p tm zm Qm wm inside inside' tension u idx cin cout sig height depth tip footprint D n,
  let m := mkSandAxial dt db K p tm zm Qm wm inside tension in let m' := mkSandAxial dt db K p tm zm Qm wm inside' tension in
  sand_tz m u idx cin cout sig height depth n = sand_tz m' u idx cin cout sig height depth n /\
  sand_Qz m u idx tip footprint sig height depth D n = sand_Qz m' u idx tip footprint sig height depth D n /\
  sand_signature m = Ok (1, inside) /\ clay_signature None = Err AttributeError.
Proof. intros. split; [reflexivity|]. split; [reflexivity|]. split; [|reflexivity]. unfold sand_signature, m. cbn [sa_inside]. do 2 f_equal. ring. Qed.

(** Pile sections, materials and layers reject a keyword they do not know; soil models ignore it, so that a
    misspelt optional parameter keeps its default. *)
Theorem C88_unknown_keyword : forall V (fields : list (string * option V)) kw k v, declared fields k = false ->
  fill Forbid fields (kw ++ [(k, v)]) = Err ValueError /\ fill Allow fields (kw ++ [(k, v)]) = fill Allow fields kw.
Proof.
  intros V fields kw k v H. split.
  - unfold fill. rewrite forallb_app. cbn [forallb fst]. rewrite H, andb_false_r. reflexivity.
  - unfold fill. apply mapM_eq. intros f I. rewrite lookup_other; [reflexivity|]. intros E. rewrite <- E, (declared_in fields f I) in H. discriminate.
Qed.
(** A model that is accepted has a value for every field: the last default or the first value given. *)
Theorem C88_fields_filled : forall V e (fields : list (string * option V)) kw vs, fill e fields kw = Ok vs ->
  length vs = length fields /\ forall i name d v, nth_error fields i = Some (name, d) -> nth_error vs i = Some v -> lookup name kw = Some v \/ (lookup name kw = None /\ d = Some v).
Proof.
  intros V e fields kw vs E. unfold fill in E. destruct (match e with Allow => false | Forbid => _ end); [discriminate|].
  revert vs E. induction fields as [|[nm df] t IH]; intros vs E; cbn [mapM fst snd] in E.
  - injection E as <-. split; [reflexivity|]. intros [|i]; discriminate.
  - destruct (lookup nm kw) as [w|] eqn:L; [|destruct df as [w|]]; cbn [bind] in E; try discriminate;
      (destruct (mapM _ t) as [ws|] eqn:M; cbn [bind] in E; [|discriminate]; injection E as <-; destruct (IH ws eq_refl) as [LW HW];
       split; [cbn [length]; congruence|]; intros [|i] name d v F G; [cbn [nth_error] in F, G; injection F as <- <-; injection G as <-; rewrite L; auto|exact (HW i name d v F G)]).
Qed.

(** The axial models: accepted exactly within their ranges, and they keep what they are given, the strength or
    angle at the top of the layer first *)
Theorem C88_clay_axial : forall Su p alpha tm zm Qm wm residual tension,
  let good := all_numbers gt0 False Su /\ 0 < alpha /\ axial_ranges tm zm Qm wm tension /\ 0.7 <= residual <= 0.9 in
  (good -> make_clay_axial Su p alpha tm zm Qm wm residual tension = Ok (mkClayAxial (top_number Su) (bottom_number Su) p alpha tm zm Qm wm residual tension)) /\
  (~ good -> make_clay_axial Su p alpha tm zm Qm wm residual tension = Err ValueError).
Proof.
  intros Su p alpha tm zm Qm wm residual tension good. unfold make_clay_axial.
  assert (I : positive Su && clay_rest_ok (mkClayAxial 0 0 p alpha tm zm Qm wm residual tension) = true <-> good).
  { unfold good, axial_ranges, clay_rest_ok. cbn [ca_alpha_limit ca_tm ca_zm ca_Qm ca_wm ca_residual ca_tension]. rewrite !andb_true_iff, positive_iff, res_mult_iff, disp_mult_iff. cbn [ok]. rewrite !andb_true_iff, !ltb_iff, !leb_iff. tauto. }
  destruct (positive Su && clay_rest_ok _).
  - split; [intros G|intros N; exfalso; apply N, I; reflexivity]. destruct G as [HS _]. destruct Su as [x|[|x [|y [|w l]]]|f]; cbn in HS; try contradiction; reflexivity.
  - split; [intros G; apply I in G; discriminate|reflexivity].
Qed.
Theorem C88_sand_axial : forall delta K p tm zm Qm wm inside tension,
  let good := match delta with PNum x => 0 < x | PList [x] => 0 <= x <= 45 | PList [x; y] => 0 <= x <= 45 /\ 0 <= y <= 45 | _ => False end /\
    0.8 <= K <= 1 /\ axial_ranges tm zm Qm wm tension /\ 0 <= inside <= 1 in
  (good -> make_sand_axial delta K p tm zm Qm wm inside tension = Ok (mkSandAxial (top_number delta) (bottom_number delta) K p tm zm Qm wm inside tension)) /\
  (~ good -> make_sand_axial delta K p tm zm Qm wm inside tension = Err ValueError).
Proof.
  intros delta K p tm zm Qm wm inside tension good. unfold make_sand_axial.
  assert (D : delta_field delta = true <-> match delta with PNum x => 0 < x | PList [x] => 0 <= x <= 45 | PList [x; y] => 0 <= x <= 45 /\ 0 <= y <= 45 | _ => False end).
  { unfold delta_field. destruct delta as [x|[|x [|y [|w l]]]|f]; cbn [field ok length forallb Nat.leb]; rewrite ?andb_true_iff, ?ltb_iff, ?leb_iff; intuition discriminate. }
  assert (I : delta_field delta && sand_rest_ok (mkSandAxial 0 0 K p tm zm Qm wm inside tension) = true <-> good).
  { unfold good, axial_ranges, sand_rest_ok. cbn [sa_K sa_tm sa_zm sa_Qm sa_wm sa_inside sa_tension]. rewrite !andb_true_iff, D, res_mult_iff, disp_mult_iff. cbn [ok]. rewrite !andb_true_iff, !ltb_iff, !leb_iff. tauto. }
  destruct (delta_field delta && sand_rest_ok _).
  - split; [intros G|intros N; exfalso; apply N, I; reflexivity]. destruct G as [HS _]. destruct delta as [x|[|x [|y [|w l]]]|f]; try contradiction; reflexivity.
  - split; [intros G; apply I in G; discriminate|reflexivity].
Qed.

(** ** C89: the check of callable multipliers *)
(** No profile is rejected for the values of its multipliers: only an exception of a callable stops it. *)
Definition silent (m : given) : Prop := match m with GNum _ => True | GFun f => forall d e, f d <> Raises e end.
Theorem C89_never_rejects : forall ground l,
  (forall a p y m t, In a l -> ml_mults a = Some (p, y, m, t) -> silent p /\ silent y /\ silent m /\ silent t) -> check_multipliers ground l = Ok tt.
Proof.
  intros ground l. induction l as [|a l IH]; intros H; [reflexivity|]. cbn [check_multipliers].
  assert (E : check_layer ground a = Ok tt).
  { unfold check_layer. destruct (ml_mults a) as [[[[p y] m] t]|] eqn:M; [|reflexivity]. destruct (H a p y m t (or_introl eq_refl) M) as (S1 & S2 & S3 & S4).
    assert (C : forall x g, silent g -> check_multiplier ground (ml_top a) (ml_bottom a) x g = Ok tt).
    { intros x [c|f] SG; [reflexivity|]. apply check_values_ok. intros d e _. apply SG. }
    rewrite !C by auto. reflexivity. }
  rewrite E. cbn [bind]. apply IH. intros b p y m t I. apply H. right; auto.
Qed.
(** The exception of a callable comes through, from the first depth, axis and layer that raises before an
    unacceptable value ends the check. *)
Theorem C89_exceptions : forall ground top bottom a f e, bottom < top ->
  (check_multiplier ground top bottom a (GFun f) = Err e <-> first_exception a f (depths ground top bottom) e) /\
  length (depths ground top bottom) = 100%nat /\ nth 0 (depths ground top bottom) 0 = ground - top /\ nth 99 (depths ground top bottom) 0 = ground - bottom /\
  (forall d, In d (depths ground top bottom) -> ground - top <= d <= ground - bottom).
Proof.
  intros ground top bottom a f e H. split; [apply check_values_err|]. destruct (depths_ends ground top bottom) as (A & B & C). do 3 (split; [auto|]). intros d I. apply (depths_in _ _ _ _ H I).
Qed.
Theorem C89_order : forall ground l a l' p y m t, ml_mults a = Some (p, y, m, t) -> check_multipliers ground l = Ok tt ->
  let c := check_multiplier ground (ml_top a) (ml_bottom a) in
  check_multipliers ground (l ++ a :: l') =
    match c P_axis p with Err e => Err e | Ok _ => match c Y_axis y with Err e => Err e | Ok _ => match c M_axis m with Err e => Err e | Ok _ =>
    match c T_axis t with Err e => Err e | Ok _ => check_multipliers ground l' end end end end.
Proof.
  intros ground l a l' p y m t M E. cbv zeta. rewrite check_layers_app, E. cbn [bind check_multipliers]. unfold check_layer. rewrite M.
  destruct (check_multiplier _ _ _ P_axis p); [|reflexivity]. cbn [bind]. destruct (check_multiplier _ _ _ Y_axis y); [|reflexivity]. cbn [bind]. destruct (check_multiplier _ _ _ M_axis m); [|reflexivity]. cbn [bind].
  destruct (check_multiplier _ _ _ T_axis t); reflexivity.
Qed.
(** A number below 0 is refused (C88); the constant function of it is accepted, passes the check, and turns
    every spring around. *)
Theorem C89_negative_multiplier_refuted : forall m c, c < 0 -> lateral_fields (with_py (MNum 1) (MNum 1) m) = true ->
  make_lateral (with_py (MNum c) (MNum 1) m) = Err ValueError /\
  make_lateral (with_py (MFun (fun _ => c)) (MNum 1) m) = Ok (with_py (MFun (fun _ => c)) (MNum 1) m) /\
  (forall ground top bottom, check_multiplier ground top bottom P_axis (GFun (fun _ => Float (Some c))) = Ok tt) /\
  (forall u q ymax n y p, py_spring_fct (with_py (MNum 1) (MNum 1) m) u q ymax n = Ok (y, map Some p) ->
     py_spring_fct (with_py (MFun (fun _ => c)) (MNum 1) m) u q ymax n = Ok (y, map Some (map (Rmult c) p))).
Proof.
  intros m c HC HF.
  assert (R0 : resistance_multiplier (MNum c) = false) by (cbn [resistance_multiplier]; destruct (ok (AtLeast 0) c) eqn:E; [apply at_least in E; lra|reflexivity]).
  assert (R1 : resistance_multiplier (MNum 1) = true) by (apply at_least; lra).
  split; [|split; [|split]].
  - unfold make_lateral. assert (E : lateral_fields (with_py (MNum c) (MNum 1) m) = false); [|rewrite E; reflexivity].
    destruct m; cbn [with_py lateral_fields] in *; unfold mults_ok, py_ok in *; cbn [mu_p mu_y mu_m mu_t] in *; rewrite R0; cbn [andb]; rewrite ?andb_false_r; reflexivity.
  - unfold make_lateral. assert (E : lateral_fields (with_py (MFun (fun _ => c)) (MNum 1) m) = true); [|rewrite E; reflexivity].
    rewrite <- HF. destruct m; cbn [with_py lateral_fields] in *; unfold mults_ok, py_ok in *; cbn [mu_p mu_y mu_m mu_t] in *; rewrite R1; reflexivity.
  - intros ground top bottom. apply check_values_ok. intros d e _. discriminate.
  - intros u q ymax n y p E. pose proof (C69_p_y_multipliers m u q ymax n (MFun (fun _ => c)) (MNum 1)) as H. rewrite E in H.
    destruct (py_spring_fct (with_py (MFun (fun _ => c)) (MNum 1) m) u q ymax n) as [[y' p']|]; [|contradiction]. destruct H as (L1 & L2 & HY & HP). cbn [at_X] in *. f_equal. f_equal.
    + apply nth_ext with (d := 0) (d' := 0); auto. intros i Hi. rewrite HY. ring.
    + apply nth_ext with (d := None) (d' := None); [rewrite !map_length; rewrite map_length in L2; exact L2|]. intros i Hi. specialize (HP i). rewrite L2, map_length in Hi.
      rewrite nth_indep with (d' := Some 0) in HP by (rewrite map_length; auto). rewrite map_nth in HP. rewrite HP.
      rewrite nth_indep with (d' := Some (c * 0)) by (rewrite !map_length; auto). rewrite map_nth with (d := c * 0). rewrite (map_nth (Rmult c)). reflexivity.
Qed.

(** ** C90: printed descriptions *)
Section C90.
Variable show show1 : R -> string.
Notation desc := (describe show show1).

Lemma var_ok : forall P p, all_numbers P False p -> exists s, var_to_str show p = Ok s.
Proof. intros P p A. destruct p as [x|l|f]; cbn [var_to_str]; try (eexists; reflexivity). contradiction. Qed.
(** The modulus in the description of a PISA model *)
Definition modulus (m : lateral_model) : option rparam :=
  match m with Bothkennar_clay _ G0 _ | Cowden_clay _ G0 _ | Dunkirk_sand _ G0 _ | Custom_pisa_sand G0 _ _ _ _ _ | Custom_pisa_clay _ G0 _ _ _ _ _ => Some G0 | _ => None end.
(** An accepted model prints if and only if its modulus is one number, or it has none. *)
Theorem C90_prints : forall m, make_lateral m = Ok m ->
  match modulus m with
  | None => exists s, desc m = Ok s
  | Some G0 => (is_number G0 -> exists s, desc m = Ok s) /\ (~ is_number G0 -> desc m = Err TypeError)
  end.
Proof.
  intros m E. apply C88_accepted in E. destruct E as [F _].
  assert (MP : forall G0, (is_number G0 -> exists s, in_MPa show1 G0 = Ok s) /\ (~ is_number G0 -> in_MPa show1 G0 = Err TypeError)).
  { intros [x|l|f]; (split; [intros (y & EY)|intros N]); cbn [in_MPa]; try discriminate; eauto. exfalso. apply N. exists x. reflexivity. }
  destruct m; cbn [modulus parameters_in_range describe lines line] in *.
  - destruct F as [F1 _]. destruct (var_ok _ _ F1) as (s & ->). destruct (MP G0) as [M1 M2]. split; intros H; [destruct (M1 H) as (g & ->); eexists; reflexivity|rewrite (M2 H); reflexivity].
  - destruct F as [F1 _]. destruct (var_ok _ _ F1) as (s & ->). destruct (MP G0) as [M1 M2]. split; intros H; [destruct (M1 H) as (g & ->); eexists; reflexivity|rewrite (M2 H); reflexivity].
  - destruct F as [F1 _]. destruct (var_ok _ _ F1) as (s & ->). destruct (MP G0) as [M1 M2]. split; intros H; [destruct (M1 H) as (g & ->); eexists; reflexivity|rewrite (M2 H); reflexivity].
  - destruct F as [F1 _]. destruct (var_ok _ _ F1) as (s & ->). eexists; reflexivity.
  - destruct F as (F1 & F2 & _). destruct (var_ok _ _ F1) as (s & ->). destruct (var_ok _ _ F2) as (s' & ->). eexists; reflexivity.
  - destruct F as (F1 & F2 & _). destruct (var_ok _ _ F1) as (s & ->). destruct (var_ok _ _ F2) as (s' & ->). eexists; reflexivity.
  - destruct F as (F1 & F2 & _). destruct (var_ok _ _ F1) as (s & ->). destruct (var_ok _ _ F2) as (s' & ->). eexists; reflexivity.
  - destruct (MP G0) as [M1 M2]. split; intros H; [destruct (M1 H) as (g & ->); eexists; reflexivity|rewrite (M2 H); reflexivity].
  - destruct (MP G0) as [M1 M2]. split; intros H; [destruct (M1 H) as (g & ->); eexists; reflexivity|rewrite (M2 H); reflexivity].
Qed.
(** So a PISA layer whose modulus varies with depth is a valid layer, with springs, that cannot be printed. *)
Theorem C90_varying_modulus_refuted : forall m G0 a b, make_lateral m = Ok m -> modulus m = Some G0 -> G0 = PList [a; b] -> desc m = Err TypeError.
Proof. intros m G0 a b E M ->. pose proof (C90_prints m E) as H. rewrite M in H. apply H. intros (x & F). discriminate. Qed.
(** A profile prints exactly when all its layers do, and stops at the first that does not. *)
Theorem C90_profile : forall l,
  ((exists s, describe_profile show show1 l = Ok s) <-> forall m, In (Some m) l -> exists s, desc m = Ok s) /\
  forall e, describe_profile show show1 l = Err e <-> exists before m after, l = before ++ Some m :: after /\ desc m = Err e /\ (forall m', In (Some m') before -> exists s, desc m' = Ok s).
Proof.
  induction l as [|a l [IH1 IH2]].
  - split; [split; [intros _ m []|eexists; reflexivity]|]. intros e. split; [discriminate|]. intros (b & m & c & E & _). destruct b; discriminate.
  - cbn [describe_profile]. assert (A : (exists s, describe_layer show show1 a = Ok s) \/ exists m e, a = Some m /\ desc m = Err e /\ describe_layer show show1 a = Err e).
    { destruct a as [m|]; cbn [describe_layer]; [|left; eexists; reflexivity]. destruct (desc m) as [s|e] eqn:D; [left; exists s; reflexivity|right; exists m, e; auto]. }
    destruct A as [[s EA]|(m & e & -> & D & EA)]; rewrite EA; cbn [bind].
    + assert (PA : forall m, a = Some m -> exists s, desc m = Ok s) by (intros m ->; cbn [describe_layer] in EA; eauto). split.
      * split.
        { intros (r & E) m [->|I]; [apply PA; reflexivity|]. apply IH1; auto. destruct (describe_profile show show1 l) as [t|]; [eexists; reflexivity|discriminate]. }
        { intros H. destruct (proj2 IH1) as (t & ->); [intros m I; apply H; right; auto|]. eexists; reflexivity. }
      * intros e. destruct (describe_profile show show1 l) as [t|e'] eqn:DP; cbn [bind].
        { split; [discriminate|]. intros (b & m & c & E & D & HB). exfalso. destruct b as [|x b]; cbn [app] in E; injection E as E1 E2; [destruct (PA m E1) as (? & F); congruence|].
          assert (X : Ok t = Err e :> res string); [|discriminate]. apply IH2. exists b, m, c. split; [exact E2|]. split; [exact D|]. intros m' I. apply HB. right; auto. }
        { split.
          - intros E. destruct (proj1 (IH2 e')) as (b & m & c & E1 & D & HB); [reflexivity|]. exists (a :: b), m, c. split; [cbn [app]; congruence|]. split; [congruence|]. intros m' [->|I]; [apply PA; reflexivity|apply HB; auto].
          - intros (b & m & c & E & D & HB). destruct b as [|x b]; cbn [app] in E; injection E as E1 E2; [destruct (PA m E1) as (? & F); congruence|].
            assert (X : Err e' = Err e :> res string); [|congruence]. apply IH2. exists b, m, c. split; [exact E2|]. split; [exact D|]. intros m' I. apply HB. right; auto. }
    + split.
      * split; [intros (r & E); discriminate|]. intros H. destruct (H m (or_introl eq_refl)) as (s & F). congruence.
      * intros e0. split.
        { intros E. exists [], m, l. split; [reflexivity|]. split; [congruence|]. intros m' []. }
        { intros (b & m0 & c & E & D0 & HB). destruct b as [|x b]; cbn [app] in E; injection E as E1 E2; [subst m0; congruence|]. destruct (HB m) as (s & F); [left; auto|]. congruence. }
Qed.
(** What is printed: every shown number between its label and its unit, the modulus in MPa, the layers of a
    profile in their order *)
Theorem C90_content : forall m s, make_lateral m = Ok m -> desc m = Ok s ->
  (forall label p unit, In (label, p, unit) (shown m) -> exists t, written show p t /\ contains s (label ++ t ++ unit)) /\
  (forall x, modulus m = Some (PNum x) -> contains s ("G0 = " ++ show1 (x / 1000) ++ " MPa")).
Proof.
  intros m s E D. apply C88_accepted in E. destruct E as [F _].
  assert (VW : forall P p, all_numbers P False p -> exists t, var_to_str show p = Ok t /\ written show p t).
  { intros P p A. destruct p as [x|[|x [|y [|w l]]]|f]; cbn in A; try contradiction; eexists; (split; [reflexivity|]); reflexivity. }
  assert (AA : forall a b c : string, ((a ++ b) ++ c = a ++ b ++ c)%string) by (induction a as [|ch a IHa]; intros b c; cbn; [reflexivity|rewrite IHa; reflexivity]).
  assert (A0 : forall a : string, (a ++ "" = a)%string) by (induction a as [|ch a IHa]; cbn; [reflexivity|rewrite IHa; reflexivity]).
  assert (C2 : forall a t u, contains t u -> contains (a ++ t) u) by (intros a t u (b & c & ->); exists (a ++ b)%string, c; rewrite !AA; reflexivity).
  assert (C4 : forall t, contains t t) by (intros t; exists ""%string, ""%string; rewrite A0; reflexivity).
  assert (C5 : forall a t u, contains a u -> contains (a ++ t) u) by (intros a t u (b & c & ->); exists b, (c ++ t)%string; rewrite !AA; reflexivity).
  assert (C6 : forall l t u r, contains (l ++ t ++ (u ++ r)) (l ++ t ++ u)) by (intros l t u r; exists ""%string, r; cbn; rewrite !AA; reflexivity).
  destruct m; cbn [parameters_in_range describe shown modulus] in *.
  all: try (destruct F as [F1 F2]; destruct (VW _ _ F1) as (t1 & E1 & W1); cbn [lines line] in D; rewrite E1 in D).
  all: try (destruct F2 as [F2 F3]; destruct (VW _ _ F2) as (t2 & E2 & W2); rewrite E2 in D).
  all: cbn [lines line bind var_to_str] in D; try destruct G0 as [g|g|g]; cbn [in_MPa line bind] in D; try discriminate.
  all: match type of D with Ok ?r = Ok _ => assert (ES : s = r) by congruence end; clear D; subst s; split; [|intros x EX; try discriminate EX; injection EX as ->].
  all: try (intros label p unit H; cbn [In] in H).
  all: try change " kPa."%string with (" kPa" ++ ".")%string; try change "%. "%string with ("%" ++ ". ")%string.
  all: try (repeat (match goal with H : _ \/ _ |- _ => destruct H as [H|H] | H : False |- _ => contradiction | H : (_, _, _) = (_, _, _) |- _ => injection H as <- <- <- end)).
  all: match goal with
       | |- exists t, written _ ?p t /\ _ => first [exists t1; split; [assumption|] | exists t2; split; [assumption|] | eexists; split; [reflexivity|]]
       | |- contains _ _ => idtac
       end.
  all: let rec find := first [apply C4 | apply C6 | apply C5; find | apply C2; find] in find.
Qed.
Theorem C90_profile_content : forall l s, describe_profile show show1 l = Ok s ->
  exists ts, Forall2 (fun m t => match m with Some m => desc m = Ok t | None => t = "None"%string end) l ts /\ s = fold_right (fun t r => (t ++ "~" ++ r)%string) ""%string ts.
Proof.
  induction l as [|a l IH]; intros s E; cbn [describe_profile] in E; [exists (@nil string); split; [apply Forall2_nil|cbn [fold_right]; congruence]|].
  destruct (describe_layer show show1 a) as [t|] eqn:EA; [|discriminate]. cbn [bind] in E. destruct (describe_profile show show1 l) as [r|]; [|discriminate]. cbn [bind] in E.
  destruct (IH r eq_refl) as (ts & F & ER). exists (t :: ts). split; [constructor; [|exact F]|cbn [fold_right]; congruence]. destruct a; cbn [describe_layer] in EA; congruence.
Qed.
(** Bothkennar clay introduces itself as Cowden clay, and the custom clay as the custom sand, although their
    springs differ. *)
Theorem C90_names_refuted : forall Su G0 mu py mt Hb Mb,
  desc (Bothkennar_clay Su G0 mu) = desc (Cowden_clay Su G0 mu) /\ desc (Custom_pisa_clay Su G0 py mt Hb Mb mu) = desc (Custom_pisa_sand G0 py mt Hb Mb mu).
Proof. intros. split; reflexivity. Qed.
Theorem C90_same_name_other_springs_refuted : forall s g cy cp mm tm u q ymax n, 0 < s -> 0 < g -> 0 < cy -> good_place q -> q_X q <= 6 * q_D q -> (7 <= n)%nat ->
  let mu := mkMults (MNum cp) (MNum cy) mm tm in
  desc (Bothkennar_clay (PNum s) (PNum g) mu) = desc (Cowden_clay (PNum s) (PNum g) mu) /\
  exists y p y' p', py_spring_fct (Bothkennar_clay (PNum s) (PNum g) mu) u q ymax n = Ok (y, p) /\ py_spring_fct (Cowden_clay (PNum s) (PNum g) mu) u q ymax n = Ok (y', p') /\ last y 0 < last y' 0.
Proof.
  intros s g cy cp mm tm u q ymax n HS HG HC [G1 G2 GD GS GX] X6 N mu. split; [reflexivity|].
  destruct (C43_py_bothkennar (q_X q) s g (q_D q) n) as (x1 & y1 & E1 & _ & _ & _ & _ & _ & _ & _ & L1 & _); try lra; try lia.
  destruct (C43_py_cowden (q_X q) s g (q_D q) n) as (x2 & y2 & E2 & _ & _ & _ & _ & _ & _ & _ & L2 & _); try lra; try lia.
  unfold py_spring_fct. rewrite !inside_ok by apply G2. cbn [py_curve]. unfold value, in_layer, at_depth, nonzero. cbn [top_bottom bind fst snd]. destruct (Req_EM_T (q_height q) 0); [lra|]. cbn [bind].
  replace (s + (s - s) * q_depth q / q_height q) with s by (field; auto). replace (g + (g - g) * q_depth q / q_height q) with g by (field; auto).
  rewrite E1, E2. cbn [bind y_multiplier p_multiplier mu mu_y mu_p at_X]. unfold scaled_by. cbn [fst snd]. eexists _, _, _, _. split; [reflexivity|]. split; [reflexivity|].
  assert (LM : forall l, last (map (fun v => v * cy) l) 0 = last l 0 * cy). { intros l. induction l as [|a [|b t] IH]; cbn [map last] in *; [ring|reflexivity|exact IH]. }
  rewrite !LM, L1, L2. assert (0 < s * q_D q / g * cy). { apply Rmult_lt_0_compat; [|exact HC]. apply Rdiv_lt_0_compat; [apply Rmult_lt_0_compat; lra|lra]. } nra.
Qed.
(** An axial model with a callable multiplier, which it accepts, cannot be printed. *)
Theorem C90_axial : forall Su m delta s, all_numbers gt0 False Su -> all_numbers (fun _ => True) False delta ->
  ((exists c, ca_tm m = MNum c) -> (exists c, ca_zm m = MNum c) -> exists r, describe_clay_axial show Su m = Ok r) /\
  ((exists f, ca_tm m = MFun f) \/ (exists f, ca_zm m = MFun f) -> describe_clay_axial show Su m = Err ValueError) /\
  ((exists c, sa_tm s = MNum c) -> (exists c, sa_zm s = MNum c) -> exists r, describe_sand_axial show delta s = Ok r) /\
  ((exists f, sa_tm s = MFun f) \/ (exists f, sa_zm s = MFun f) -> describe_sand_axial show delta s = Err ValueError).
Proof.
  intros Su m delta s HS HD. destruct (var_ok _ _ HS) as (x & EX). destruct (var_ok _ _ HD) as (y & EY).
  unfold describe_clay_axial, describe_sand_axial. rewrite EX, EY.
  assert (LO : forall l, (forall r, In r l -> exists v, r = Ok v) -> exists v, lines l = Ok v).
  { induction l as [|a [|b l] IH]; intros H; cbn [lines]; [eexists; reflexivity|apply H; left; auto|]. destruct (H a) as (v & ->); [left; auto|]. destruct IH as (w & EW); [intros r I; apply H; right; auto|]. cbn [lines] in EW. rewrite EW. eexists; reflexivity. }
  assert (LE : forall l e, In (Err e) l -> (forall r, In r l -> (exists v, r = Ok v) \/ r = Err e) -> lines l = Err e).
  { induction l as [|a [|b l] IH]; intros e I H; [contradiction| |].
    - destruct I as [->|[]]. reflexivity.
    - change (lines (a :: b :: l)) with (bind a (fun a => bind (lines (b :: l)) (fun c => Ok (append a (append "|" c))))).
      destruct (H a (or_introl eq_refl)) as [(v & ->)| ->]; [|reflexivity]. cbn [bind]. rewrite (IH e); [reflexivity| |intros r J; apply H; right; auto]. destruct I as [E|I]; [discriminate|auto]. }
  assert (UN : forall d lab c r, In r (unless show d lab (PNum c)) -> exists v, r = Ok v).
  { intros d lab c r I. unfold unless in I. destruct (Req_EM_T c d); [contradiction|]. destruct I as [<-|[]]. eexists; reflexivity. }
  assert (UF : forall d lab f, unless show d lab (PFun f) = [Err ValueError]) by reflexivity.
  assert (UM : forall lab (t : multiplier) r, In r (unless show 1 lab (as_param t)) -> (exists v, r = Ok v) \/ r = Err ValueError).
  { intros lab [c|f] r I; cbn [as_param] in I; [left; eapply UN; eauto|]. rewrite UF in I. destruct I as [<-|[]]. auto. }
  assert (EF : forall lab (t : multiplier), (exists f, t = MFun f) -> In (Err ValueError) (unless show 1 lab (as_param t))) by (intros lab t (f & ->); left; reflexivity).
  split; [|split; [|split]].
  - intros (c & E1) (c' & E2). apply LO. intros r I. rewrite E1, E2 in I. cbn [as_param] in I. rewrite !in_app_iff in I. cbn [In] in I.
    destruct I as [[<-|[<-|[<-|[]]]]|[I|[I|[I|[I|[I|I]]]]]]; try (eexists; reflexivity); eapply UN; eauto.
  - intros H. apply LE.
    + rewrite !in_app_iff. destruct H as [H|H]; [right; left|right; right; left]; apply EF; auto.
    + intros r I. rewrite !in_app_iff in I. cbn [In] in I.
      destruct I as [[<-|[<-|[<-|[]]]]|[I|[I|[I|[I|[I|I]]]]]]; try (left; eexists; reflexivity); try (eapply UM; eassumption); left; eapply UN; eauto.
  - intros (c & E1) (c' & E2). apply LO. intros r I. rewrite E1, E2 in I. cbn [as_param] in I. rewrite !in_app_iff in I. cbn [In] in I.
    destruct I as [[<-|[<-|[<-|[]]]]|[I|[I|[I|[I|I]]]]]; try (eexists; reflexivity); eapply UN; eauto.
  - intros H. apply LE.
    + rewrite !in_app_iff. destruct H as [H|H]; [right; left|right; right; left]; apply EF; auto.
    + intros r I. rewrite !in_app_iff in I. cbn [In] in I.
      destruct I as [[<-|[<-|[<-|[]]]]|[I|[I|[I|[I|I]]]]]; try (left; eexists; reflexivity); try (eapply UM; eassumption); left; eapply UN; eauto.
Qed.
(** The words: the name of the model, the loading of the curves and their extension *)
Definition title (m : lateral_model) : string :=
  match m with
  | Bothkennar_clay _ _ _ | Cowden_clay _ _ _ => "Cowden clay (PISA)" | Dunkirk_sand _ _ _ => "Dunkirk sand (PISA)" | API_sand _ _ _ _ _ _ _ => "API sand" | API_clay _ _ _ _ _ _ _ => "API clay"
  | Modified_Matlock_clay _ _ _ _ _ _ _ => "Modified Matlock clay" | Reese_weakrock _ _ _ _ _ _ _ => "Reese weakrock" | Custom_pisa_sand _ _ _ _ _ _ | Custom_pisa_clay _ _ _ _ _ _ _ => "Custom PISA sand"
  end%string.
Definition curve_words (m : lateral_model) : option (loading * bool) :=
  match m with API_sand _ k _ _ e _ _ => Some (k, e) | API_clay _ _ k _ e _ _ => Some (k, e) | Modified_Matlock_clay _ _ k _ e _ _ => Some (k, e) | _ => None end.
Lemma lines_contain : forall l s t, lines l = Ok s -> In (Ok t) l -> contains s t.
Proof.
  assert (AA : forall a b c : string, ((a ++ b) ++ c = a ++ b ++ c)%string) by (induction a as [|ch a IHa]; intros b c; cbn; [reflexivity|rewrite IHa; reflexivity]).
  assert (A0 : forall a : string, (a ++ "" = a)%string) by (induction a as [|ch a IHa]; cbn; [reflexivity|rewrite IHa; reflexivity]).
  induction l as [|a [|b l] IH]; intros s t E I; [contradiction| |].
  - destruct I as [->|[]]. cbn [lines] in E. injection E as <-. exists ""%string, ""%string. cbn. rewrite A0. reflexivity.
  - change (lines (a :: b :: l)) with (bind a (fun a => bind (lines (b :: l)) (fun c => Ok (append a (append "|" c))))) in E.
    destruct a as [a|]; [|discriminate]. cbn [bind] in E. destruct (lines (b :: l)) as [c|] eqn:EC; [|discriminate]. cbn [bind] in E. injection E as <-. destruct I as [I|I].
    + injection I as <-. exists ""%string, ("|" ++ c)%string. reflexivity.
    + destruct (IH c t eq_refl I) as (x & y & ->). exists (a ++ "|" ++ x)%string, y. rewrite !AA. reflexivity.
Qed.
Theorem C90_words : forall m s, desc m = Ok s -> contains s (title m) /\
  forall k e, curve_words m = Some (k, e) -> contains s (match k with Static => "static curves" | Cyclic => "cyclic curves" end) /\ contains s (if e then "ext: mt_curves" else "ext: None").
Proof.
  intros m s D. unfold describe in D. split.
  - destruct m; apply (lines_contain _ _ _ D); left; reflexivity.
  - intros k e W. destruct m; try discriminate W; injection W as <- <-; (split; apply (lines_contain _ _ _ D)); cbn [In]; unfold loading_name, extension_name;
      match goal with |- context [if ?x then _ else _] => destruct x | |- context [match ?x with Static => _ | Cyclic => _ end] => destruct x end; cbn; auto 8.
Qed.
(** The text of the axial models: the plugging, the strength, and every factor that differs from its default *)
Definition plug_words (p : plug) : string :=
  match p with PlugBoth => "(Plugged)" | PlugNone => "(Unplugged)" | PlugCompression => "(Plugged in compression, unplugged in tension)" | PlugTension => "(Unplugged in compression, plugged in tension)" end%string.
Definition told (s : string) (label : string) (default : R) (v : R) : Prop := v <> default -> contains s (label ++ show v).
Theorem C90_axial_content : forall Su m delta k, all_numbers gt0 False Su -> all_numbers (fun _ => True) False delta ->
  (forall s, describe_clay_axial show Su m = Ok s ->
    contains s ("API clay " ++ plug_words (ca_plug m)) /\ (exists t, written show Su t /\ contains s ("Su = " ++ t ++ " kPa")) /\ contains s ("alpha_limit = " ++ show (ca_alpha_limit m)) /\
    (forall c, ca_tm m = MNum c -> told s "t-multiplier = " 1 c) /\ (forall c, ca_zm m = MNum c -> told s "z-multiplier = " 1 c) /\ told s "Q-multiplier = " 1 (ca_Qm m) /\ told s "w-multiplier = " 1 (ca_wm m) /\
    told s "t-residual = " 0.9 (ca_residual m) /\ told s "tension_multiplier = " 1 (ca_tension m)) /\
  (forall s, describe_sand_axial show delta k = Ok s ->
    contains s ("API sand " ++ plug_words (sa_plug k)) /\ (exists t, written show delta t /\ contains s ("delta = " ++ t ++ " deg")) /\ contains s ("K = " ++ show (sa_K k)) /\
    (forall c, sa_tm k = MNum c -> told s "t-multiplier = " 1 c) /\ (forall c, sa_zm k = MNum c -> told s "z-multiplier = " 1 c) /\ told s "Q-multiplier = " 1 (sa_Qm k) /\ told s "w-multiplier = " 1 (sa_wm k) /\
    told s "tension_multiplier = " 1 (sa_tension k)).
Proof.
  intros Su m delta k HS HD.
  assert (A0 : forall a : string, (a ++ "" = a)%string) by (induction a as [|ch a IHa]; cbn; [reflexivity|rewrite IHa; reflexivity]).
  assert (VW : forall P p, all_numbers P False p -> exists t, var_to_str show p = Ok t /\ written show p t).
  { intros P p A. destruct p as [x|[|x [|y [|w l]]]|f]; cbn in A; try contradiction; eexists; (split; [reflexivity|]); reflexivity. }
  assert (UN : forall d lab v, v <> d -> In (Ok (lab ++ show v)%string) (unless show d lab (PNum v))).
  { intros d lab v N. unfold unless. destruct (Req_EM_T v d); [contradiction|]. left. unfold line. cbn [var_to_str bind]. rewrite A0. reflexivity. }
  destruct (VW _ _ HS) as (x & EX & WX). destruct (VW _ _ HD) as (y & EY & WY). split.
  - intros s D. unfold describe_clay_axial in D. rewrite EX in D. pose proof (fun t => lines_contain _ s t D) as C. clear D.
    split; [apply C; destruct (ca_plug m); left; reflexivity|]. split; [exists x; split; [exact WX|apply C; right; left; reflexivity]|].
    split; [apply C; right; right; left; cbn [var_to_str line bind]; rewrite A0; reflexivity|].
    split; [intros c E N; apply C; rewrite E; cbn [as_param]; rewrite !in_app_iff; right; left; apply UN; exact N|].
    split; [intros c E N; apply C; rewrite E; cbn [as_param]; rewrite !in_app_iff; right; right; left; apply UN; exact N|].
    split; [intros N; apply C; rewrite !in_app_iff; do 3 right; left; apply UN; exact N|]. split; [intros N; apply C; rewrite !in_app_iff; do 4 right; left; apply UN; exact N|].
    split; [intros N; apply C; rewrite !in_app_iff; do 5 right; left; apply UN; exact N|]. intros N; apply C; rewrite !in_app_iff; do 6 right; apply UN; exact N.
  - intros s D. unfold describe_sand_axial in D. rewrite EY in D. pose proof (fun t => lines_contain _ s t D) as C. clear D.
    split; [apply C; destruct (sa_plug k); left; reflexivity|]. split; [exists y; split; [exact WY|apply C; right; left; reflexivity]|].
    split; [apply C; right; right; left; cbn [var_to_str line bind]; rewrite A0; reflexivity|].
    split; [intros c E N; apply C; rewrite E; cbn [as_param]; rewrite !in_app_iff; right; left; apply UN; exact N|].
    split; [intros c E N; apply C; rewrite E; cbn [as_param]; rewrite !in_app_iff; right; right; left; apply UN; exact N|].
    split; [intros N; apply C; rewrite !in_app_iff; do 3 right; left; apply UN; exact N|]. split; [intros N; apply C; rewrite !in_app_iff; do 4 right; left; apply UN; exact N|].
    intros N; apply C; rewrite !in_app_iff; do 5 right; apply UN; exact N.
Qed.
End C90.

(** ** Examples *)
Definition sand_model : lateral_model := API_sand (PList [30; 35]) Static None None false (MNum 1) (MNum 1).
Definition no_mult : mults := mkMults (MNum 1) (MNum 1) (MNum 1) (MNum 1).
Definition dense : lateral_model := Dunkirk_sand (PNum 200) (PNum 50000) no_mult.
Definition a_place : place := mkPlace 10 0 5 0 2 10 true.
Ltac rok := unfold make_lateral; cbn [lateral_fields sand_model dense]; unfold positive, field, mults_ok, py_ok; cbn [mu_p mu_y mu_m mu_t resistance_multiplier displacement_multiplier no_mult length forallb];
  repeat (first [rewrite (proj2 (within_iff _ _ _)) by lra | rewrite (proj2 (above _ _)) by lra | rewrite (proj2 (at_least _ _)) by lra]); reflexivity.
Example C88_example : make_lateral sand_model = Ok sand_model /\ classical sand_model /\ plain_multiplier (p_multiplier sand_model) /\ good_place a_place /\ make_lateral dense = Ok dense /\
  make_lateral (API_clay (PList [20; 30; 40]) (PNum 0.01) Static 0.5 false (MNum 1) (MNum 1)) = Err ValueError.
Proof.
  split; [rok|]. split; [exact Logic.I|]. split; [exists 1; reflexivity|]. split; [split; cbn; lra|]. split; [rok|]. reflexivity.
Qed.
Example C88_angle_example : exists m, make_sand_axial (PNum 120) 0.8 PlugNone (MNum 1) (MNum 1) 1 1 1 1 = Ok m /\ exists f, sand_shaft_friction m 100 2 4 = Ok f /\ f < 0.
Proof.
  assert (R : sand_rest_ok (mkSandAxial 0 0 0.8 PlugNone (MNum 1) (MNum 1) 1 1 1 1) = true).
  { unfold sand_rest_ok. cbn [sa_K sa_tm sa_zm sa_Qm sa_wm sa_inside sa_tension resistance_multiplier displacement_multiplier].
    repeat (first [rewrite (proj2 (within_iff _ _ _)) by lra | rewrite (proj2 (above _ _)) by lra | rewrite (proj2 (at_least _ _)) by lra]). reflexivity. }
  destruct (C88_friction_angle_refuted _ _ _ _ _ _ _ _ 120 R) as (H & _). destruct (H ltac:(lra)) as (m & E). exists m. split; [exact E|].
  eapply (C88_negative_friction_refuted _ _ _ _ _ _ _ _ 120 m 100 2 4); try exact E; lra.
Qed.
Example C88_keyword_example : let fields := [("Su"%string, None); ("t_multiplier"%string, Some 1%nat)] in
  fill Allow fields [("Su"%string, 50%nat); ("t_multplier"%string, 0%nat)] = Ok [50; 1]%nat /\ fill Forbid fields [("Su"%string, 50%nat); ("t_multplier"%string, 0%nat)] = Err ValueError.
Proof. split; reflexivity. Qed.
Example C89_example : check_multipliers 0 [mkMlayer 0 (-5) (Some (GFun (fun _ => Float (Some (-2))), GNum 1, GFun (fun _ => NotFloat), GNum 1)); mkMlayer (-5) (-9) (Some (GNum 1, GFun (fun _ => Raises ZeroDivisionError), GNum 1, GNum 1))] = Err ZeroDivisionError.
Proof.
  cbn [check_multipliers]. assert (E1 : check_layer 0 (mkMlayer 0 (-5) (Some (GFun (fun _ => Float (Some (-2))), GNum 1, GFun (fun _ => NotFloat), GNum 1))) = Ok tt).
  { unfold check_layer. cbn [ml_mults ml_top ml_bottom check_multiplier]. rewrite !check_values_ok by (intros; discriminate). reflexivity. }
  rewrite E1. cbn [bind]. unfold check_layer. cbn [ml_mults ml_top ml_bottom check_multiplier bind].
  assert (E2 : check_values Y_axis (fun _ => Raises ZeroDivisionError) (depths 0 (-5) (-9)) = Err ZeroDivisionError); [|rewrite E2; reflexivity].
  apply check_values_err. destruct (depths 0 (-5) (-9)) as [|d t] eqn:E; [destruct (depths_ends 0 (-5) (-9)) as [L _]; rewrite E in L; discriminate|]. exists [], d, t. split; [reflexivity|]. split; [reflexivity|]. intros x [].
Qed.
Example C90_example : let m := Cowden_clay (PList [20; 30]) (PList [10000; 20000]) no_mult in
  make_lateral m = Ok m /\ describe (fun _ => EmptyString) (fun _ => EmptyString) m = Err TypeError.
Proof.
  cbv zeta. assert (E : make_lateral (Cowden_clay (PList [20; 30]) (PList [10000; 20000]) no_mult) = Ok (Cowden_clay (PList [20; 30]) (PList [10000; 20000]) no_mult)) by rok.
  split; [exact E|]. eapply C90_varying_modulus_refuted; [exact E|reflexivity|reflexivity].
Qed.

Print Assumptions C88_accepted.
Print Assumptions C88_curves_partial.
Print Assumptions C88_number_or_list.
Print Assumptions C88_friction_angle_refuted.
Print Assumptions C88_negative_friction_refuted.
Print Assumptions C88_density_refuted.
Print Assumptions C88_inside_friction_refuted.
Print Assumptions C88_unknown_keyword.
Print Assumptions C88_fields_filled.
Print Assumptions C89_never_rejects.
Print Assumptions C89_exceptions.
Print Assumptions C89_order.
Print Assumptions C89_negative_multiplier_refuted.
Print Assumptions C90_prints.
Print Assumptions C90_varying_modulus_refuted.
Print Assumptions C90_profile.
Print Assumptions C90_names_refuted.
Print Assumptions C90_same_name_other_springs_refuted.
Print Assumptions C90_axial.
Print Assumptions C90_words.
Print Assumptions C90_axial_content.
Print Assumptions C88_clay_axial.
Print Assumptions C88_sand_axial.
Print Assumptions C90_content.
Print Assumptions C90_profile_content.
