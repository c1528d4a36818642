(** Properties C68-C74: lateral soil models. *)
From Coq Require Import Reals Lra Lia List Bool Arith Permutation.
From Verif Require Import Base ConicModel ConicSpec ConicProofs PisaModel PisaSpec PisaProofs PisaProps ApiSandModel ApiSandSpec ApiSandProofs ApiClayModel ApiClayProofs ReeseModel ReeseSpec ReeseProofs ReeseProps
  AxialModel AxialSpec AxialProofs AxialProps LateralModel LateralSpec LateralProofs MomentProofs.
Import ListNotations.
Local Open Scope R_scope.

(** ** C68: every model gives reaction curves throughout its layer *)
Theorem C68_py_springs_partial : forall m u q ymax n, (forall i, 0 <= u i < 1) -> good_place q -> admissible m q n -> 0 <= ymax -> (8 <= n)%nat ->
  0 <= at_X (p_multiplier m) (q_X q) -> 0 <= at_X (y_multiplier m) (q_X q) ->
  exists y p, py_spring_fct m u q ymax n = Ok (y, map Some p) /\ spring_curve n y p /\ (hardening m -> nondecreasing p).
Proof.
  intros m u q ymax n U G A HY N HP HM. destruct (py_curve_ok m u q ymax n U G A HY N) as (y & p & E & C & H).
  eexists _, _. unfold py_spring_fct. rewrite inside_ok by apply (g_depth q G). rewrite E. cbn [bind]. rewrite scaled_numbers. split; [reflexivity|].
  split; [apply spring_scale; auto|]. intros K. apply nd_scale; auto.
Qed.

Theorem C68_base_springs_partial : forall m q ymax n, good_place q -> base_admissible m q -> (7 <= n)%nat ->
  (exists y p, Hb_spring_fct m q ymax n = Ok (y, map Some p) /\ spring_curve n y p /\ nondecreasing p) /\
  (exists t M, Mb_spring_fct m q ymax n = Ok (t, map Some M) /\ spring_curve n t M /\ nondecreasing M).
Proof. exact base_ok. Qed.

Theorem C68_moment_springs_partial : forall m u idx q ymax n, (forall i, 0 <= u i < 1) -> good_place q -> moment_admissible m q n -> 0 <= ymax -> (8 <= n)%nat ->
  0 <= at_X (m_multiplier m) (q_X q) -> 0 <= at_X (t_multiplier m) (q_X q) ->
  exists T M, mt_spring_fct m u idx q ymax n = Ok (T, map (map Some) M) /\ length T = n /\ length M = n /\
    forall i, (i < n)%nat -> spring_curve n (nth i T []) (nth i M []) /\ nondecreasing (nth i M []).
Proof.
  intros m u idx q ymax n U G A HY N HM HT. destruct (moment_ok m u idx q ymax n U G A HY N) as (y & p & T & M & _ & _ & E & L1 & L2 & H & _).
  exists (map (map (fun v => v * at_X (t_multiplier m) (q_X q))) T), (map (map (fun v => v * at_X (m_multiplier m) (q_X q))) M).
  split. { assert (NR : mt_spring_fct m u idx q ymax n = inside_layer q (bind (mt_curve m u idx q ymax n) (fun c => Ok (scaled_rows (at_X (t_multiplier m) (q_X q)) (at_X (m_multiplier m) (q_X q)) c)))).
    { destruct m; try reflexivity. destruct A as [_ []]. }
    rewrite NR, inside_ok by apply (g_depth q G). rewrite E. cbn [bind]. rewrite scaled_rows_numbers. reflexivity. }
  rewrite !map_length. do 2 (split; [auto|]). intros i Hi. destruct (H i Hi) as [C D]. rewrite !nth_rows. split; [apply spring_scale; auto|apply nd_scale; auto].
Qed.

(** ** C69: multipliers scale their curve and nothing else *)
Definition with_py (pm ym : multiplier) (m : lateral_model) : lateral_model :=
  let set mu := mkMults pm ym (mu_m mu) (mu_t mu) in
  match m with
  | Bothkennar_clay a b mu => Bothkennar_clay a b (set mu)
  | Cowden_clay a b mu => Cowden_clay a b (set mu)
  | Dunkirk_sand a b mu => Dunkirk_sand a b (set mu)
  | API_sand a b c d e _ _ => API_sand a b c d e pm ym
  | API_clay a b c d e _ _ => API_clay a b c d e pm ym
  | Modified_Matlock_clay a b c d e _ _ => Modified_Matlock_clay a b c d e pm ym
  | Reese_weakrock a b c d e _ _ => Reese_weakrock a b c d e pm ym
  | Custom_pisa_sand a b c d e mu => Custom_pisa_sand a b c d e (set mu)
  | Custom_pisa_clay a b c d e f mu => Custom_pisa_clay a b c d e f (set mu)
  end.
Definition with_mt (mm tm : multiplier) (m : lateral_model) : lateral_model :=
  let set mu := mkMults (mu_p mu) (mu_y mu) mm tm in
  match m with
  | Bothkennar_clay a b mu => Bothkennar_clay a b (set mu)
  | Cowden_clay a b mu => Cowden_clay a b (set mu)
  | Dunkirk_sand a b mu => Dunkirk_sand a b (set mu)
  | Custom_pisa_sand a b c d e mu => Custom_pisa_sand a b c d e (set mu)
  | Custom_pisa_clay a b c d e f mu => Custom_pisa_clay a b c d e f (set mu)
  | _ => m
  end.
(** The models with the four spring types and four multipliers *)
Definition is_pisa (m : lateral_model) : Prop := spring_signature m = [true; true; true; true].

Lemma multiplied_by : forall cy cp y p, multiplied cy cp (map (fun v => v * 1) y) (map (option_map (fun v => v * 1)) p) (map (fun v => v * cy) y) (map (option_map (fun v => v * cp)) p).
Proof.
  intros cy cp y p. unfold multiplied. rewrite !map_length. do 2 (split; [auto|]). split; [intros i; rewrite !nth_scale; ring|]. intros i.
  assert (E : forall c, nth i (map (option_map (fun v => v * c)) p) None = option_map (fun v => v * c) (nth i p None)) by (intros c; exact (map_nth (option_map (fun v => v * c)) p None i)).
  rewrite !E. destruct (nth i p None); cbn; [f_equal; ring|reflexivity].
Qed.

Theorem C69_p_y_multipliers : forall m u q ymax n pm ym,
  match py_spring_fct (with_py (MNum 1) (MNum 1) m) u q ymax n, py_spring_fct (with_py pm ym m) u q ymax n with
  | Ok (y, p), Ok (y', p') => multiplied (at_X ym (q_X q)) (at_X pm (q_X q)) y p y' p'
  | Err e, Err e' => e = e'
  | _, _ => False
  end.
Proof.
  intros m u q ymax n pm ym. unfold py_spring_fct.
  replace (py_curve (with_py (MNum 1) (MNum 1) m) u q ymax n) with (py_curve m u q ymax n) by (destruct m; reflexivity).
  replace (py_curve (with_py pm ym m) u q ymax n) with (py_curve m u q ymax n) by (destruct m; reflexivity).
  replace (y_multiplier (with_py (MNum 1) (MNum 1) m)) with (MNum 1) by (destruct m; reflexivity). replace (p_multiplier (with_py (MNum 1) (MNum 1) m)) with (MNum 1) by (destruct m; reflexivity).
  replace (y_multiplier (with_py pm ym m)) with ym by (destruct m; reflexivity). replace (p_multiplier (with_py pm ym m)) with pm by (destruct m; reflexivity).
  unfold inside_layer. destruct (Rlt_dec _ _); [reflexivity|]. destruct (py_curve m u q ymax n) as [[y p]|e]; cbn [bind]; [|reflexivity]. apply multiplied_by.
Qed.

Theorem C69_m_t_multipliers : forall m u idx q ymax n mm tm, is_pisa m ->
  match mt_spring_fct (with_mt (MNum 1) (MNum 1) m) u idx q ymax n, mt_spring_fct (with_mt mm tm m) u idx q ymax n with
  | Ok (T, M), Ok (T', M') => length T' = length T /\ length M' = length M /\
      forall i, multiplied (at_X tm (q_X q)) (at_X mm (q_X q)) (nth i T []) (nth i M []) (nth i T' []) (nth i M' [])
  | Err e, Err e' => e = e'
  | _, _ => False
  end.
Proof.
  intros m u idx q ymax n mm tm P.
  assert (E : forall mm tm, mt_spring_fct (with_mt mm tm m) u idx q ymax n = inside_layer q (bind (mt_curve m u idx q ymax n) (fun c => Ok (scaled_rows (at_X tm (q_X q)) (at_X mm (q_X q)) c)))).
  { intros mm' tm'. unfold is_pisa in P. destruct m; cbn [spring_signature] in P; try discriminate; reflexivity. }
  rewrite !E. unfold inside_layer. destruct (Rlt_dec _ _); [reflexivity|]. destruct (mt_curve m u idx q ymax n) as [[T M]|e]; cbn [bind]; [|reflexivity]. unfold scaled_rows. cbn [fst snd at_X].
  rewrite !map_length. do 2 (split; [auto|]). intros i. rewrite !nth_rows.
  assert (EO : forall c, nth i (map (map (option_map (fun v => v * c))) M) [] = map (option_map (fun v => v * c)) (nth i M [])) by (intros c; exact (map_nth (map (option_map (fun v => v * c))) M [] i)).
  rewrite !EO. apply multiplied_by.
Qed.

Theorem C69_base_springs_not_multiplied : forall m q ymax n pm ym mm tm,
  Hb_spring_fct (with_mt mm tm (with_py pm ym m)) q ymax n = Hb_spring_fct m q ymax n /\ Mb_spring_fct (with_mt mm tm (with_py pm ym m)) q ymax n = Mb_spring_fct m q ymax n /\
  spring_signature (with_mt mm tm (with_py pm ym m)) = spring_signature m.
Proof. intros m q ymax n pm ym mm tm. destruct m; repeat split; reflexivity. Qed.

Theorem C69_independent : forall m u idx q ymax n pm ym mm tm,
  py_spring_fct (with_mt mm tm m) u q ymax n = py_spring_fct m u q ymax n /\
  (is_pisa m -> mt_spring_fct (with_py pm ym m) u idx q ymax n = mt_spring_fct m u idx q ymax n).
Proof.
  intros m u idx q ymax n pm ym mm tm. split; [destruct m; reflexivity|]. unfold is_pisa. destruct m; cbn [spring_signature]; intros H; try discriminate; reflexivity.
Qed.

(** ** C70: positions outside the layer *)
Theorem C70_below_the_layer : forall m u idx q ymax n, q_height q < q_depth q ->
  py_spring_fct m u q ymax n = Err ValueError /\
  (nth 1 (spring_signature m) false = true -> Hb_spring_fct m q ymax n = Err ValueError) /\
  (nth 2 (spring_signature m) false = true -> mt_spring_fct m u idx q ymax n = Err ValueError) /\
  (nth 3 (spring_signature m) false = true -> Mb_spring_fct m q ymax n = Err ValueError).
Proof.
  intros m u idx q ymax n H. split; [apply outside; auto|].
  destruct m; cbn [spring_signature nth Hb_spring_fct Mb_spring_fct mt_spring_fct]; rewrite ?outside by auto; repeat split; intros; reflexivity || discriminate.
Qed.

Lemma bothkennar_opp : forall X s g D n xs ys, g <> 0 -> py_bothkennar X s g D n = Ok (xs, map Some ys) -> py_bothkennar X (- s) g D n = Ok (map Ropp xs, map Some (map Ropp ys)).
Proof.
  intros X s g D n xs ys G. unfold py_bothkennar, nonzero at 1 2. destruct (Req_EM_T D 0); [discriminate|]. unfold scaled. destruct (conic _ _ _ _ _) as [[a b]|e]; cbn [bind fst snd]; [|discriminate].
  rewrite !nonzero_ok by auto. intros H. assert (H1 : map (fun v => v * (s * D / g)) a = xs) by congruence. assert (H2 : map (option_map (fun v => v * (s * D))) b = map Some ys) by congruence.
  f_equal. f_equal.
  - rewrite <- H1, map_map. apply map_ext. intros v. field. auto.
  - replace (map Some (map Ropp ys)) with (map (option_map Ropp) (map Some ys)) by (rewrite !map_map; reflexivity). rewrite <- H2, map_map. apply map_ext. intros [v|]; cbn; [f_equal; ring|reflexivity].
Qed.
Lemma last_opp : forall l, last (map Ropp l) 0 = - last l 0.
Proof. intros l. induction l as [|a [|b t] IH]; [cbn; ring|reflexivity|]. exact IH. Qed.

(** A position above the layer is extrapolated: here to a negative strength, so the spring pushes. *)
Theorem C70_above_the_layer_refuted : forall u q ymax n mu, q_depth q = - 0.2 * q_height q -> 0 < q_height q -> 0 < q_D q -> 0 <= q_X q <= 6 * q_D q -> (8 <= n)%nat ->
  0 < at_X (mu_p mu) (q_X q) ->
  exists y p, py_spring_fct (Bothkennar_clay (PList [10; 110]) (PNum 10000) mu) u q ymax n = Ok (y, map Some p) /\ last p 0 < 0.
Proof.
  intros u q ymax n mu HDp HH HD HX N HM.
  destruct (C43_py_bothkennar (q_X q) 10 10000 (q_D q) n) as (xs & ys & E & C); try lra; try lia. pose proof C as (_ & _ & _ & _ & _ & _ & _ & _ & LL & _).
  assert (ES : value (PList [10; 110]) q = Ok (- (10))). { unfold value, in_layer. cbn [top_bottom bind fst snd]. rewrite at_depth_between, HDp by lra. unfold between. f_equal. unfold Rdiv. rewrite Rmult_assoc, Rinv_r by lra. lra. }
  assert (EG : value (PNum 10000) q = Ok 10000). { unfold value, in_layer. cbn [top_bottom bind fst snd]. rewrite at_depth_between by lra. unfold between. f_equal. ring. }
  unfold py_spring_fct, inside_layer. destruct (Rlt_dec (q_height q) (q_depth q)) as [W|_]; [lra|]. cbn [py_curve]. rewrite ES, EG. cbn [bind]. rewrite (bothkennar_opp (q_X q) 10 10000 (q_D q) n xs ys ltac:(apply Rgt_not_eq; lra) E). cbn [bind p_multiplier y_multiplier]. rewrite scaled_numbers.
  eexists _, _. split; [reflexivity|]. rewrite last_map_mul by (intros Z; apply map_eq_nil in Z; subst ys; destruct C as (_ & L & _); cbn in L; lia). rewrite last_opp, LL.
  destruct (frac01 (q_X q) (q_D q) 6 HD ltac:(lra) ltac:(lra)) as [R0 R6]. pose proof (exp_neg (-0.8456) (q_X q / q_D q) ltac:(lra) R0) as EX.
  assert (0 < (7.743 - 3.945 * exp (-0.8456 * (q_X q / q_D q))) * (10 * q_D q)) by (apply Rmult_lt_0_compat; lra).
  assert (0 < (7.743 - 3.945 * exp (-0.8456 * (q_X q / q_D q))) * (10 * q_D q) * at_X (mu_p mu) (q_X q)) by (apply Rmult_lt_0_compat; auto). lra.
Qed.

(** ** C71: depth below the rock surface *)
Definition reese_admissible (Ei qu : rparam) (RQD k ztop : R) : Prop := all_values pos Ei /\ all_values pos qu /\ 0 <= RQD <= 100 /\ 0.00005 <= k <= 0.0005 /\ 0 <= ztop.

(** Right when the rock layer starts at ground level. *)
Theorem C71_rock_depth_partial : forall Ei qu RQD k ztop pm ym u q ymax n, good_place q -> reese_admissible Ei qu RQD k ztop -> (8 <= n)%nat -> q_X q = q_depth q ->
  exists qu', value qu q = Ok qu' /\ exists y p, py_spring_fct (Reese_weakrock Ei qu RQD k ztop pm ym) u q ymax n = Ok (y, map Some p) /\
    last p 0 = rock_ultimate qu' RQD (ztop + q_depth q) (q_D q) * at_X pm (q_X q).
Proof.
  intros Ei qu RQD k ztop pm ym u q ymax n G (A1 & A2 & A3 & A4 & A5) N EQ. pose proof G as [G1 G2 GD GS GX]. unfold value in *.
  destruct (value_in _ _ _ _ pos_convex A1 G1 G2) as (s & E1 & P1). destruct (value_in _ _ _ _ pos_convex A2 G1 G2) as (g & E2 & P2). unfold pos in *. exists g. split; [exact E2|].
  pose proof (C47_reese_partial s g RQD (q_X q + ztop) (q_D q) k n P1 ltac:(lra) ltac:(lra) GD ltac:(lra)) as C. cbv zeta in C.
  destruct C as (y & p & E & L1 & L2 & _ & _ & _ & _ & LL & _).
  unfold py_spring_fct. rewrite inside_ok by lra. cbn [py_curve]. unfold value. rewrite E1, E2. cbn [bind]. rewrite E. cbn [numbers bind fst snd]. rewrite scaled_numbers. cbn [p_multiplier y_multiplier].
  eexists _, _. split; [reflexivity|]. rewrite last_map_mul by (intros Z; subst p; cbn [length] in L2; lia). rewrite LL. replace (q_X q + ztop) with (ztop + q_depth q) by lra. reflexivity.
Qed.

Lemma ultimate_lt : forall qu RQD a b D, 0 < qu -> 0 < D -> 0 <= a -> a < b -> a < 3 * D -> rock_ultimate qu RQD a D < rock_ultimate qu RQD b D.
Proof.
  intros qu RQD a b D Q HD A AB A3. unfold rock_ultimate. pose proof (reduction_range RQD) as RR. set (al := rock_reduction RQD) in *.
  assert (C : 0 < al * qu * D) by (apply Rmult_lt_0_compat; [apply Rmult_lt_0_compat; lra|auto]).
  assert (EA : a / D < 3) by (apply Rmult_lt_reg_r with D; [auto|]; unfold Rdiv; rewrite Rmult_assoc, Rinv_l; lra).
  assert (EB : a / D < b / D) by (apply Rmult_lt_compat_r; [apply Rinv_0_lt_compat|]; auto).
  (repeat match goal with |- context [Rle_dec ?x ?y] => destruct (Rle_dec x y) end); unfold Rmin; (repeat match goal with |- context [Rle_dec ?x ?y] => destruct (Rle_dec x y) end); try lra; try nra.
Qed.

(** Under soil of depth X - depth the overburden counts as rock: the resistance is that of a deeper point. *)
Theorem C71_rock_depth_refuted : forall Ei qu RQD k ztop pm ym u q ymax n, good_place q -> reese_admissible Ei qu RQD k ztop -> (8 <= n)%nat ->
  q_depth q < q_X q -> ztop + q_depth q < 3 * q_D q -> 0 < at_X pm (q_X q) ->
  exists qu', value qu q = Ok qu' /\ exists y p, py_spring_fct (Reese_weakrock Ei qu RQD k ztop pm ym) u q ymax n = Ok (y, map Some p) /\
    rock_ultimate qu' RQD (ztop + q_depth q) (q_D q) * at_X pm (q_X q) < last p 0.
Proof.
  intros Ei qu RQD k ztop pm ym u q ymax n G (A1 & A2 & A3 & A4 & A5) N LT L3 PM. pose proof G as [G1 G2 GD GS GX]. unfold value in *.
  destruct (value_in _ _ _ _ pos_convex A1 G1 G2) as (s & E1 & P1). destruct (value_in _ _ _ _ pos_convex A2 G1 G2) as (g & E2 & P2). unfold pos in *. exists g. split; [exact E2|].
  pose proof (C47_reese_partial s g RQD (q_X q + ztop) (q_D q) k n P1 ltac:(lra) ltac:(lra) GD ltac:(lra)) as C. cbv zeta in C.
  destruct C as (y & p & E & L1 & L2 & _ & _ & _ & _ & LL & _).
  unfold py_spring_fct. rewrite inside_ok by lra. cbn [py_curve]. unfold value. rewrite E1, E2. cbn [bind]. rewrite E. cbn [numbers bind fst snd]. rewrite scaled_numbers. cbn [p_multiplier y_multiplier].
  eexists _, _. split; [reflexivity|]. rewrite last_map_mul by (intros Z; subst p; cbn [length] in L2; lia). rewrite LL. apply Rmult_lt_compat_r; [auto|]. apply ultimate_lt; lra.
Qed.

(** ** C72: a custom PISA layer fed with the hooks is the built-in layer *)
Definition hooked (h : norm_param) : four := mkFour (PFun (h_X h)) (PFun (h_n h)) (PFun (h_k h)) (PFun (h_Y h)).
Definition plain_field (p : rparam) : Prop := match p with PFun _ => False | _ => True end.
Lemma plain_value : forall p q, plain_field p -> custom_value p q = value p q.
Proof. intros [x|l|f] q H; [reflexivity|reflexivity|contradiction]. Qed.

Theorem C72_cowden : forall Su G0 mu u idx q ymax n, plain_field Su -> plain_field G0 -> 0 < q_D q -> 0 <= q_X q <= q_L q -> 2 * q_D q <= q_L q <= 6 * q_D q ->
  let c := Custom_pisa_clay Su G0 (hooked (hook_cowden_py (q_D q))) (hooked (hook_cowden_mt (q_D q))) (hooked (hook_cowden_Hb (q_D q) (q_L q))) (hooked (hook_cowden_Mb (q_D q) (q_L q))) mu in
  let m := Cowden_clay Su G0 mu in
  py_spring_fct c u q ymax n = py_spring_fct m u q ymax n /\ Hb_spring_fct c q ymax n = Hb_spring_fct m q ymax n /\
  mt_spring_fct c u idx q ymax n = mt_spring_fct m u idx q ymax n /\ Mb_spring_fct c q ymax n = Mb_spring_fct m q ymax n.
Proof.
  intros Su G0 mu u idx q ymax n FS FG HD HX HL c m.
  destruct (C44_clamps_inactive_in_range (q_X q) 0 (q_D q) (q_L q)) as ((A1 & A2 & A3) & (B1 & B2) & (C1 & C2 & C3) & (D1 & D2 & D3) & _); try lra.
  assert (HK : forall s g, (forall k, py_custom_clay s g (q_D q) (h_X (hook_cowden_py (q_D q)) (q_X q)) (h_n (hook_cowden_py (q_D q)) (q_X q)) (h_k (hook_cowden_py (q_D q)) (q_X q)) (h_Y (hook_cowden_py (q_D q)) (q_X q)) k = py_cowden (q_X q) s g (q_D q) k) /\
    (forall k, mt_custom_clay s g (q_D q) (h_X (hook_cowden_mt (q_D q)) (q_X q)) (h_n (hook_cowden_mt (q_D q)) (q_X q)) (h_k (hook_cowden_mt (q_D q)) (q_X q)) (h_Y (hook_cowden_mt (q_D q)) (q_X q)) k = mt_cowden (q_X q) s g (q_D q) k) /\
    (forall k, Hb_custom_clay s g (q_D q) (h_X (hook_cowden_Hb (q_D q) (q_L q)) (q_X q)) (h_n (hook_cowden_Hb (q_D q) (q_L q)) (q_X q)) (h_k (hook_cowden_Hb (q_D q) (q_L q)) (q_X q)) (h_Y (hook_cowden_Hb (q_D q) (q_L q)) (q_X q)) k = Hb_cowden s g (q_D q) (q_L q) k) /\
    (forall k, Mb_custom_clay s g (q_D q) (h_X (hook_cowden_Mb (q_D q) (q_L q)) (q_X q)) (h_n (hook_cowden_Mb (q_D q) (q_L q)) (q_X q)) (h_k (hook_cowden_Mb (q_D q) (q_L q)) (q_X q)) (h_Y (hook_cowden_Mb (q_D q) (q_L q)) (q_X q)) k = Mb_cowden s g (q_D q) (q_L q) k)).
  { intros s g. split; [|split; [|split]]; intros k; destruct (C44_cowden_hooks (q_X q) s g (q_D q) (q_L q) k ltac:(lra)) as (E1 & E2 & E3 & E4); cbv zeta in *; auto. }
  unfold c, m, py_spring_fct, mt_spring_fct. cbn [py_curve mt_curve Hb_spring_fct Mb_spring_fct p_multiplier y_multiplier m_multiplier t_multiplier]. rewrite !plain_value by auto.
  destruct (value Su q) as [s|e]; cbn [bind]; [|auto]. destruct (value G0 q) as [g|e]; cbn [bind]; [|auto]. destruct (HK s g) as (E1 & E2 & E3 & E4).
  unfold with_four, hooked, custom_value. cbn [f_X f_n f_k f_Y at_current_depth bind]. rewrite E1, E2, E3, E4. auto.
Qed.

Lemma mapM_ext_in : forall A B (f g : A -> res B) l, (forall x, In x l -> f x = g x) -> mapM f l = mapM g l.
Proof. intros A B f g l. induction l as [|x t IH]; intros H; [reflexivity|]. cbn [mapM]. rewrite (H x) by (left; auto). rewrite IH by (intros; apply H; right; auto). reflexivity. Qed.
Lemma mt_rows_ext : forall n p (r r' : option R -> res curve), (forall v, In v p -> r v = r' v) -> mt_rows n p r = mt_rows n p r'.
Proof. intros n p r r' H. unfold mt_rows. rewrite (mapM_ext_in _ _ r r'); [reflexivity|]. intros x I. apply H. rewrite <- (firstn_skipn n p). apply in_or_app. auto. Qed.

(** The density of a Dunkirk layer is a number here, as it is in the hooks. *)
Theorem C72_dunkirk_partial : forall Dr G0 mu u idx q ymax n, plain_field G0 -> (forall i, 0 <= u i < 1) -> good_place q -> admissible (Dunkirk_sand (PNum Dr) G0 mu) q n -> 0 <= ymax -> (8 <= n)%nat ->
  let D := q_D q in let L := q_L q in
  let c := Custom_pisa_sand G0 (hooked (hook_dunkirk_py D L Dr)) (hooked (hook_dunkirk_mt L Dr)) (hooked (hook_dunkirk_Hb D L Dr)) (hooked (hook_dunkirk_Mb D L Dr)) mu in
  let m := Dunkirk_sand (PNum Dr) G0 mu in
  py_spring_fct c u q ymax n = py_spring_fct m u q ymax n /\ Hb_spring_fct c q ymax n = Hb_spring_fct m q ymax n /\
  mt_spring_fct c u idx q ymax n = mt_spring_fct m u idx q ymax n /\ Mb_spring_fct c q ymax n = Mb_spring_fct m q ymax n.
Proof.
  intros Dr G0 mu u idx q ymax n FG U G A HY N D L c m. pose proof G as [G1 G2 GD GS GX]. pose proof A as (A1 & A2 & A3 & A4 & A5). cbn [all_values] in A1. unfold density in A1.
  destruct (py_curve_ok m u q ymax n U G A HY N) as (y & p & EP & (_ & _ & _ & _ & _ & PP) & _).
  destruct (C44_clamps_inactive_in_range (q_X q) Dr D L) as (_ & _ & _ & _ & (B1 & B2 & B3) & C1 & (D1 & D2 & D3) & (F1 & F2)); unfold D, L in *; try lra.
  assert (HK : forall g pv, let hp := hook_dunkirk_py D L Dr in let ht := hook_dunkirk_mt L Dr in let hh := hook_dunkirk_Hb D L Dr in let hm := hook_dunkirk_Mb D L Dr in let X := q_X q in
    py_custom_sand (q_sig q) g D (h_X hp X) (h_n hp X) (h_k hp X) (h_Y hp X) n = py_dunkirk (q_sig q) X Dr g D L n /\
    (0 <= pv -> mt_custom_sand (q_sig q) g pv D (h_X ht X) (h_n ht X) (h_k ht X) (h_Y ht X) n = mt_dunkirk (q_sig q) X Dr g pv D L n) /\
    Hb_custom_sand (q_sig q) g D (h_X hh X) (h_n hh X) (h_k hh X) (h_Y hh X) n = Hb_dunkirk (q_sig q) Dr g D L n /\
    Mb_custom_sand (q_sig q) g D (h_X hm X) (h_n hm X) (h_k hm X) (h_Y hm X) n = Mb_dunkirk (q_sig q) Dr g D L n).
  { intros g pv hp ht hh hm X. destruct (C44_dunkirk_hooks (q_sig q) X Dr g pv D L n) as (E1 & E2 & E3 & E4); unfold D, L; try lra. cbv zeta in *. unfold hp, ht, hh, hm, X. auto. }
  assert (VD : value (PNum Dr) q = Ok Dr). { unfold value, in_layer. cbn [top_bottom bind fst snd]. rewrite at_depth_between by lra. unfold between. f_equal. ring. }
  unfold m in EP. cbn [py_curve] in EP. rewrite VD in EP. cbn [bind] in EP.
  unfold c, m, py_spring_fct, mt_spring_fct. cbn [py_curve mt_curve Hb_spring_fct Mb_spring_fct p_multiplier y_multiplier m_multiplier t_multiplier]. rewrite VD. cbn [bind]. rewrite !plain_value by auto.
  destruct (value G0 q) as [g|e]; cbn [bind] in *; [|discriminate]. destruct (HK g 0) as (E1 & _ & E3 & E4). fold D L in EP, E1, E3, E4 |- *.
  unfold with_four, hooked, custom_value. cbn [f_X f_n f_k f_Y at_current_depth bind]. cbv zeta in *. rewrite E1, E3, E4. do 2 (split; [reflexivity|]). split; [|reflexivity]. rewrite EP. cbn [bind snd].
  rewrite (mt_rows_ext n (map Some p) _ (of_p (fun p0 => mt_dunkirk (q_sig q) (q_X q) Dr g p0 D L n))); [reflexivity|].
  intros v I. apply in_map_iff in I. destruct I as (pv & <- & I). cbn [of_p]. destruct (HK g pv) as (_ & E2 & _). apply E2. apply PP. exact I.
Qed.

(** ** C73: the m-t springs of the API models *)
Definition clay_strength (m : lateral_model) : option rparam := match m with API_clay Su _ _ _ _ _ _ | Modified_Matlock_clay Su _ _ _ _ _ _ => Some Su | _ => None end.
Lemma nth_repeat_lt : forall (A : Type) (x d : A) k i, (i < k)%nat -> nth i (repeat x k) d = x.
Proof. induction k as [|k IH]; intros i H; [lia|]. destruct i as [|i]; [reflexivity|]. cbn. apply IH. lia. Qed.
Lemma one_rows : forall T M, scaled_rows 1 1 (T, map (map Some) M) = (T, map (map Some) M).
Proof.
  intros T M. rewrite scaled_rows_numbers. assert (I : forall l : list (list R), map (map (fun v => v * 1)) l = l).
  { intros l. rewrite <- (map_id l) at 2. apply map_ext. intros r. rewrite <- (map_id r) at 2. apply map_ext. intros v. ring. }
  rewrite !I. reflexivity.
Qed.
Lemma rotation_at : forall D n z i zs rest, (i < length zs)%nat -> positive_part z = zs ++ rest -> nth i (api_rotation D n z) 0 = atan (nth i zs 0 / (0.5 * D)).
Proof.
  intros D n z i zs rest H E. unfold api_rotation, pad_z. rewrite E. rewrite nth_indep with (d' := atan (0 / (0.5 * D))) by (rewrite map_length, !app_length; lia).
  rewrite (map_nth (fun v => atan (v / (0.5 * D)))). rewrite app_nth1 by (rewrite app_length; lia). rewrite app_nth1 by auto. reflexivity.
Qed.
Lemma moment_at : forall D n t norm i ts rest, (i < length ts)%nat -> positive_part t = ts ++ rest -> nth i (api_moment D n t norm) 0 = 1 / 4 * PI * D ^ 2 * nth i ts 0 * norm.
Proof.
  intros D n t norm i ts rest H E. unfold api_moment, pad_t. rewrite E. rewrite nth_indep with (d' := 1 / 4 * PI * D ^ 2 * 0 * norm) by (rewrite map_length, !app_length; lia).
  rewrite (map_nth (fun v => 1 / 4 * PI * D ^ 2 * v * norm)). rewrite app_nth1 by (rewrite app_length; lia). rewrite app_nth1 by auto. reflexivity.
Qed.
Lemma zero_at : forall D n b norm i, (i < n)%nat -> length b = n -> nth i (api_moment D n (scale 0 b) norm) 0 = 0.
Proof.
  intros D n b norm i H L. assert (Z : forall v, In v (scale 0 b) -> v = 0). { intros v I. apply in_map_iff in I. destruct I as (w & <- & _). ring. }
  unfold api_moment. rewrite pp_all by (intros v I; rewrite (Z v I); lra). unfold pad_t. assert (LS : length (scale 0 b) = n) by (unfold scale; rewrite map_length; auto). rewrite LS, Nat.sub_diag. cbn [repeat]. rewrite app_nil_r.
  rewrite nth_indep with (d' := 1 / 4 * PI * D ^ 2 * 0 * norm) by (rewrite map_length; lia). rewrite (map_nth (fun v => 1 / 4 * PI * D ^ 2 * v * norm)). rewrite (Z (nth i (scale 0 b) 0)) by (apply nth_In; lia). ring.
Qed.

(** In clay every row is the friction on the shaft turned into a moment: from the origin, mobilised fully at the
    rotation of an edge displacement of 1% of the diameter and constant from there. *)
Theorem C73_clay_moment : forall m Su u idx q ymax n, clay_strength m = Some Su -> (forall i, 0 <= u i < 1) -> good_place q -> all_values pos Su ->
  argsort (clay_backbone_z u n) idx -> (15 <= n)%nat ->
  exists Su', value Su q = Ok Su' /\ let peak := PI / 4 * q_D q ^ 2 * clay_friction (if Req_EM_T (q_sig q) 0 then 0.001 else q_sig q) Su' 1 in
  exists T M, mt_spring_fct m u idx q ymax n = Ok (T, map (map Some) M) /\ length T = n /\ length M = n /\
    forall i, (i < n)%nat -> spring_curve n (nth i T []) (nth i M []) /\ nondecreasing (nth i M []) /\ (forall t, In t (nth i T []) -> t < PI / 2) /\
      nth 1 (nth i T []) 0 = atan 0.0032 /\ nth 5 (nth i T []) 0 = atan 0.02 /\ (forall j, (5 <= j < n)%nat -> nth j (nth i M []) 0 = peak).
Proof.
  intros m Su u idx q ymax n CS U G AS IX N. pose proof G as [G1 G2 GD GS GX].
  destruct (value_in _ _ _ _ pos_convex AS G1 G2) as (s & E1 & P1). unfold pos in P1. exists s. split; [exact E1|]. intros peak.
  set (z := api_rotation (q_D q) n (scale (q_D q) (clay_backbone_z u n))). set (f := fmax_api_clay (q_sig q) s 1). set (r := api_moment (q_D q) n (scale f (clay_backbone_t 1 1 n idx)) 1).
  assert (E : mt_spring_fct m u idx q ymax n = Ok (repeat z n, map (map Some) (repeat r n))).
  { assert (W : mt_spring_fct m u idx q ymax n = inside_layer q (bind (bind (value Su q) (fun Su => let '(z, tz) := tz_api_clay u idx (q_sig q) Su (q_D q) 1 1 1 n in
      Ok (repeat (api_rotation (q_D q) n z) n, repeat (map Some (api_moment (q_D q) n tz 1)) n))) (fun c => Ok (scaled_rows 1 1 c)))) by (destruct m; cbn in CS; try discriminate; injection CS as ->; reflexivity).
    rewrite W, inside_ok by lra. unfold value. rewrite E1. cbn [bind tz_api_clay]. fold f z r.
    assert (RP : forall k, repeat (map Some r) k = map (map Some) (repeat r k)) by (intros k; induction k as [|k IH]; [reflexivity|]; cbn [repeat map]; rewrite IH; reflexivity). rewrite RP, one_rows. reflexivity. }
  set (sg := if Req_EM_T (q_sig q) 0 then 0.001 else q_sig q) in *.
  assert (HS : 0 < sg) by (unfold sg; destruct (Req_EM_T (q_sig q) 0); lra).
  assert (FS : f = fmax_api_clay sg s 1).
  { unfold f, sg, fmax_api_clay. destruct (Req_EM_T (q_sig q) 0) as [_|NZ]; [destruct (Req_EM_T 0.001 0); [lra|reflexivity]|]. destruct (Req_EM_T (q_sig q) 0); [lra|reflexivity]. }
  destruct (C50_clay_friction_partial sg s 1 HS ltac:(lra) ltac:(lra)) as (F0 & F1 & _ & _). rewrite <- FS in F0, F1. specialize (F1 P1).
  destruct (clay_rotation u n (q_D q) U GD N) as (R1 & R2 & R3 & R4). fold z in R1, R2, R3, R4.
  pose proof (clay_backbone_rises u n idx U IX N) as RB. pose proof (moment_row f (clay_backbone_t 1 1 n idx) (q_D q) n 1 ltac:(lra) GD ltac:(lra) ltac:(lia) RB) as MR. cbv zeta in MR. fold r in MR. destruct MR as (M1 & M2 & M3 & M4 & M5).
  exists (repeat z n), (repeat r n). split; [exact E|]. rewrite !repeat_length. do 2 (split; [auto|]). intros i Hi. rewrite !nth_repeat_lt by auto.
  split. { do 5 (split; [auto|]). intros v I. apply M4. auto. } split; [exact M3|]. split; [exact R4|]. apply and_assoc. split.
  - unfold z. assert (PP : positive_part (scale (q_D q) (clay_backbone_z u n)) = scale (q_D q) [0; 0.0016; 0.0031; 0.0057; 0.0080; 0.0100] ++ scale (q_D q) (positive_part (skipn (length clay_low) (clay_backbone_z u n)))).
    { rewrite pp_scale by auto. unfold scale. rewrite <- map_app. f_equal. rewrite <- pp_clay_low, <- pp_app. f_equal. rewrite (clay_z_eq u n U). rewrite skipn_app, skipn_all, Nat.sub_diag. reflexivity. }
    split; [rewrite (rotation_at (q_D q) n (scale (q_D q) (clay_backbone_z u n)) 1 (scale (q_D q) [0; 0.0016; 0.0031; 0.0057; 0.0080; 0.0100]) _ ltac:(cbn [scale map length]; lia) PP); f_equal; cbn [scale map nth]; unfold Rdiv; rewrite Rinv_mult;
      replace (0.0016 * q_D q * (/ 0.5 * / q_D q)) with (0.0016 * / 0.5 * (q_D q * / q_D q)) by ring; rewrite Rinv_r by lra; lra|].
    rewrite (rotation_at (q_D q) n (scale (q_D q) (clay_backbone_z u n)) 5 (scale (q_D q) [0; 0.0016; 0.0031; 0.0057; 0.0080; 0.0100]) _ ltac:(cbn [scale map length]; lia) PP); f_equal; cbn [scale map nth]; unfold Rdiv; rewrite Rinv_mult.
    replace (0.0100 * q_D q * (/ 0.5 * / q_D q)) with (0.0100 * / 0.5 * (q_D q * / q_D q)) by ring. rewrite Rinv_r by lra. lra.
  - assert (PK : peak = PI / 4 * q_D q ^ 2 * f * 1) by (unfold peak; rewrite F1; ring).
    intros j Hj. assert (X : nth 5 r 0 = peak).
    { destruct (Rle_lt_or_eq_dec 0 f ltac:(lra)) as [FP|FZ].
      - unfold r. assert (PP : positive_part (scale f (clay_backbone_t 1 1 n idx)) = scale f [0; 0.3; 0.5; 0.75; 0.90; 1.00] ++ scale f (positive_part (skipn (length (clay_tlow 1 1)) (clay_backbone_t 1 1 n idx)))).
        { rewrite pp_scale by auto. unfold scale. rewrite <- map_app. f_equal. rewrite <- pp_clay_tlow, <- pp_app. f_equal. rewrite (clay_t_eq u 1 1 n idx U IX). rewrite skipn_app, skipn_all, Nat.sub_diag. reflexivity. }
        rewrite (moment_at (q_D q) n (scale f (clay_backbone_t 1 1 n idx)) 1 5 (scale f [0; 0.3; 0.5; 0.75; 0.90; 1.00]) _ ltac:(cbn [scale map length]; lia) PP). cbn [scale map nth]. rewrite PK. lra.
      - unfold r. rewrite <- FZ. rewrite zero_at; [rewrite PK, <- FZ; ring|lia|apply RB]. }
    apply Rle_antisym; [rewrite PK; apply M4, nth_In; lia|]. rewrite <- X. apply M3; lia.
Qed.

(** In sand the row of a point of the p-y curve is the same curve, reduced in proportion to the resistance of that point. *)
Theorem C73_sand_moment : forall phi kind k modif e pm ym u idx q ymax n, (forall i, 0 <= u i < 1) -> good_place q -> 0 <= ymax ->
  let m := API_sand phi kind k modif e pm ym in admissible m q n -> 0 <= at_X pm (q_X q) ->
  argsort (sand_backbone_z u n) idx -> (15 <= n)%nat ->
  exists phi', value phi q = Ok phi' /\ let peak := PI / 4 * q_D q ^ 2 * fmax_api_sand (q_sig q) (phi' - 5) 0.8 in
  exists y p T M, py_spring_fct m u q ymax n = Ok (y, map Some p) /\ mt_spring_fct m u idx q ymax n = Ok (T, map (map Some) M) /\ length p = n /\ length T = n /\ length M = n /\
    forall i, (i < n)%nat -> length (nth i T []) = n /\ length (nth i M []) = n /\ nth 0 (nth i T []) 0 = 0 /\ nth 0 (nth i M []) 0 = 0 /\ nondecreasing (nth i T []) /\ nondecreasing (nth i M []) /\
      (forall t, In t (nth i T []) -> t < PI / 2) /\ nth 1 (nth i T []) 0 = atan (0.0254 / (q_D q / 2)) /\
      forall pmax, is_max pmax p -> forall j, (1 <= j < n)%nat -> nth j (nth i M []) 0 = if Rlt_dec 0 pmax then peak * (nth i p 0 / pmax) else 0.
Proof.
  intros phi kind k modif e pm ym u idx q ymax n U G HY m A HP IX N. pose proof G as [G1 G2 GD GS GX]. destruct A as (A1 & A2).
  destruct (value_in _ _ _ _ (within_convex 15 45) A1 G1 G2) as (s & E1 & P1). unfold within in P1. exists s. split; [exact E1|]. intros peak.
  destruct (py_curve_ok m u q ymax n U G (conj A1 A2) HY ltac:(lia)) as (y0 & p0 & EP & (LY & LP0 & _ & _ & _ & PP0) & ND0). specialize (ND0 I).
  set (p := map (fun v => v * at_X pm (q_X q)) p0). assert (LP : length p = n) by (unfold p; rewrite map_length; auto).
  assert (PP : forall v, In v p -> 0 <= v). { intros v I0. apply in_map_iff in I0. destruct I0 as (w & <- & I0). apply Rmult_le_pos; auto. }
  assert (EPS : py_spring_fct m u q ymax n = Ok (map (fun v => v * at_X ym (q_X q)) y0, map Some p)).
  { unfold py_spring_fct. rewrite inside_ok by lra. rewrite EP. cbn [bind p_multiplier y_multiplier m]. rewrite scaled_numbers. reflexivity. }
  assert (PN : p <> []) by (intros Z; rewrite Z in LP; cbn in LP; lia). pose proof (array_max_is p PN) as AM. set (pmx := array_max p) in *.
  set (z := api_rotation (q_D q) n (sand_backbone_z u n)). set (f := fmax_api_sand (q_sig q) (s - 5) 0.8). set (r := fun w => api_moment (q_D q) n (scale f (sand_backbone_t 1 n idx)) w).
  assert (E : mt_spring_fct m u idx q ymax n = Ok (repeat z n, map (map Some) (map r (normalised p)))).
  { unfold mt_spring_fct, m. fold m. rewrite inside_ok by lra. unfold mt_curve, m. fold m. unfold value. rewrite E1. cbn [bind]. rewrite EPS. cbn [bind snd tz_api_sand]. rewrite plain_some. fold f z.
    replace (map (fun norm => map Some (api_moment (q_D q) n (scale f (sand_backbone_t 1 n idx)) norm)) (normalised p)) with (map (map Some) (map r (normalised p))) by (rewrite map_map; reflexivity).
    cbn [m_multiplier t_multiplier at_X m]. rewrite one_rows. reflexivity. }
  assert (F0 : 0 <= f). { destruct (C50_sand_friction (q_sig q) (s - 5) 0.8 GS ltac:(lra) ltac:(lra)) as (F & _). apply F. }
  destruct (sand_rotation u n (q_D q) U GD N) as (R1 & R2 & R3 & R4). fold z in R1, R2, R3, R4. pose proof (sand_backbone_rises u n idx U IX N) as RB.
  assert (NI : forall i, (i < n)%nat -> nth i (normalised p) 0 = (if Rlt_dec 0 pmx then nth i p 0 / pmx else 0) /\ 0 <= nth i (normalised p) 0).
  { intros i Hi. assert (Q0 : 0 <= nth i p 0) by (apply PP, nth_In; lia). unfold normalised. fold pmx. destruct (Rlt_dec 0 pmx) as [PZ|PZ].
    - rewrite nth_indep with (d' := 0 / pmx) by (rewrite map_length; lia). rewrite (map_nth (fun v => v / pmx)). split; [reflexivity|]. apply Rmult_le_pos; [auto|left; apply Rinv_0_lt_compat; auto].
    - split; [|auto]. assert (nth i p 0 <= pmx) by (apply AM, nth_In; lia). lra. }
  assert (LN : length (normalised p) = n). { unfold normalised. destruct (Rlt_dec 0 (array_max p)); rewrite ?map_length; auto. }
  exists (map (fun v => v * at_X ym (q_X q)) y0), p, (repeat z n), (map r (normalised p)). split; [exact EPS|]. split; [exact E|]. split; [exact LP|]. rewrite repeat_length, map_length, LN. do 2 (split; [auto|]).
  intros i Hi. rewrite !nth_repeat_lt by auto. destruct (NI i Hi) as [NV N0].
  assert (ER : nth i (map r (normalised p)) [] = r (nth i (normalised p) 0)). { rewrite nth_indep with (d' := r 0) by (rewrite map_length; lia). apply map_nth. }
  rewrite ER. set (w := nth i (normalised p) 0) in *.
  pose proof (moment_row f (sand_backbone_t 1 n idx) (q_D q) n w F0 GD N0 ltac:(lia) RB) as MR. cbv zeta in MR. fold (r w) in MR. destruct MR as (M1 & M2 & M3 & M4 & M5).
  do 7 (split; [auto|]). split.
  - unfold z. assert (PQ : positive_part (sand_backbone_z u n) = [0; 0.0254; 0.03; 0.032; 0.034; 0.036] ++ positive_part (skipn (length sand_low) (sand_backbone_z u n))).
    { rewrite <- pp_sand_low, <- pp_app. f_equal. rewrite (sand_z_eq u n U). rewrite skipn_app, skipn_all, Nat.sub_diag. reflexivity. }
    rewrite (rotation_at (q_D q) n (sand_backbone_z u n) 1 [0; 0.0254; 0.03; 0.032; 0.034; 0.036] _ ltac:(cbn [length]; lia) PQ). f_equal. cbn [nth]. f_equal. lra.
  - intros pmax PMX j Hj. assert (pmax = pmx) as ->. { destruct PMX as [I1 U1]. destruct AM as [I2 U2]. apply Rle_antisym; auto. }
    assert (X1 : nth 1 (r w) 0 = PI / 4 * q_D q ^ 2 * f * w).
    { destruct (Rle_lt_or_eq_dec 0 f F0) as [FP|FZ].
      - unfold r. assert (PQ : positive_part (scale f (sand_backbone_t 1 n idx)) = scale f [0; 1; 1; 1; 1; 1] ++ scale f (positive_part (skipn (length (sand_tlow 1)) (sand_backbone_t 1 n idx)))).
        { rewrite pp_scale by auto. unfold scale. rewrite <- map_app. f_equal. rewrite <- pp_sand_tlow, <- pp_app. f_equal. rewrite (sand_t_eq u 1 n idx U IX). rewrite skipn_app, skipn_all, Nat.sub_diag. reflexivity. }
        rewrite (moment_at (q_D q) n (scale f (sand_backbone_t 1 n idx)) w 1 (scale f [0; 1; 1; 1; 1; 1]) _ ltac:(cbn [scale map length]; lia) PQ). cbn [scale map nth]. lra.
      - unfold r. rewrite <- FZ. rewrite zero_at; [ring|lia|apply RB]. }
    transitivity (PI / 4 * q_D q ^ 2 * f * w).
    { apply Rle_antisym; [apply M4, nth_In; lia|]. rewrite <- X1. apply M3; lia. }
    unfold peak. rewrite NV. destruct (Rlt_dec 0 pmx); fold f; ring.
Qed.

(** ** C74: no lateral resistance, no distributed moment *)
Theorem C74_api_sand : forall phi kind k modif e pm ym u idx q ymax n, (forall i, 0 <= u i < 1) -> good_place q -> 0 <= ymax ->
  let m := API_sand phi kind k modif e pm ym in admissible m q n -> at_X pm (q_X q) = 0 -> argsort (sand_backbone_z u n) idx -> (15 <= n)%nat ->
  exists y p T M, py_spring_fct m u q ymax n = Ok (y, map Some p) /\ mt_spring_fct m u idx q ymax n = Ok (T, map (map Some) M) /\
    (forall v, In v p -> v = 0) /\ forall i j, (i < n)%nat -> (j < n)%nat -> nth j (nth i M []) 0 = 0.
Proof.
  intros phi kind k modif e pm ym u idx q ymax n U G HY m A HP IX N.
  pose proof (C73_sand_moment phi kind k modif e pm ym u idx q ymax n U G HY A ltac:(lra) IX N) as (s & _ & y & p & T & M & E1 & E2 & LP & LT & LM & H). fold m in E1, E2.
  assert (Z : forall v, In v p -> v = 0).
  { unfold py_spring_fct in E1. rewrite inside_ok in E1 by apply (g_depth q G). destruct (py_curve_ok m u q ymax n U G A HY ltac:(lia)) as (y0 & p0 & EP & _). rewrite EP in E1. cbn [bind p_multiplier y_multiplier m] in E1. rewrite scaled_numbers, HP in E1.
    assert (EM : map Some (map (fun v => v * 0) p0) = map Some p) by congruence. intros v I. assert (J : In (Some v) (map Some p)) by (apply in_map; auto). rewrite <- EM in J. apply in_map_iff in J. destruct J as (w & J & K).
    injection J as <-. apply in_map_iff in K. destruct K as (w' & <- & _). ring. }
  exists y, p, T, M. do 3 (split; [auto|]). intros i j Hi Hj. destruct (H i Hi) as (_ & _ & _ & M0 & _ & _ & _ & _ & HM). destruct j as [|j]; [exact M0|].
  rewrite (HM 0); [destruct (Rlt_dec 0 0); [lra|reflexivity]| |lia]. split; [|intros v I; rewrite (Z v I); lra]. rewrite <- (Z (nth 0 p 0)) by (apply nth_In; lia). apply nth_In. lia.
Qed.

(** The moments of the PISA sand come from the resistance before the p-multiplier: a layer without lateral
    resistance keeps them. *)
Theorem C74_dunkirk_refuted : forall Dr G0 mu u idx q ymax n, (forall i, 0 <= u i < 1) -> good_place q -> moment_admissible (Dunkirk_sand Dr G0 mu) q n -> 0 <= ymax -> (8 <= n)%nat ->
  0 < q_sig q -> at_X (mu_p mu) (q_X q) = 0 -> 0 < at_X (mu_m mu) (q_X q) ->
  let m := Dunkirk_sand Dr G0 mu in
  exists y p T M, py_spring_fct m u q ymax n = Ok (y, map Some p) /\ mt_spring_fct m u idx q ymax n = Ok (T, map (map Some) M) /\
    (forall v, In v p -> v = 0) /\ 0 < last (nth (n - 1) M []) 0.
Proof.
  intros Dr G0 mu u idx q ymax n U G A HY N HS HP HM m. pose proof G as [G1 G2 GD GS GX].
  destruct (moment_ok m u idx q ymax n U G A HY N) as (y & p & T & M & EP & LP & E & L1 & L2 & H & HS'). destruct (HS' I) as (Y & Y0 & HL). clear HS'.
  assert (PL : 0 < nth (n - 1) p 0).
  { destruct A as [(A1 & A2 & A3 & A4 & A5) _]. destruct (value_in _ _ _ _ density_convex A1 G1 G2) as (s & E1 & P1). destruct (value_in _ _ _ _ pos_convex A2 G1 G2) as (g & E2 & P2). unfold value, m in *. cbn [py_curve] in EP. unfold value in EP. rewrite E1, E2 in EP. cbn [bind] in EP.
    specialize (A5 s E1). unfold pos, density in *. destruct (C43_py_dunkirk_partial (q_sig q) (q_X q) s g (q_D q) (q_L q) n) as (xs & ys & E3 & C); try lra; auto.
    assert (EY : map Some ys = map Some p) by congruence. assert (ys = p) as ->. { apply (f_equal plain) in EY. rewrite !plain_some in EY. exact EY. }
    destruct C as (_ & _ & _ & _ & _ & _ & _ & _ & LL & _). rewrite last_nth0, LP in LL. rewrite LL. apply Rmult_lt_0_compat; [|apply Rmult_lt_0_compat; auto].
    destruct (frac01 (q_X q) (q_L q) 1) as [F0 F1]; try lra. assert (D0 : 0 <= s / 100 <= 1) by lra. assert (0 <= s / 100 * (1 - q_X q / q_L q)) by (apply Rmult_le_pos; lra). lra. }
  eexists _, _, _, _. split; [unfold py_spring_fct; rewrite inside_ok by lra; rewrite EP; cbn [bind]; rewrite scaled_numbers; reflexivity|].
  split; [unfold mt_spring_fct, m; fold m; rewrite inside_ok by lra; rewrite E; cbn [bind]; rewrite scaled_rows_numbers; reflexivity|]. split.
  - cbn [p_multiplier m]. rewrite HP. intros v I. apply in_map_iff in I. destruct I as (w & <- & _). ring.
  - cbn [m_multiplier m]. destruct (H (n - 1)%nat ltac:(lia)) as [C _]. rewrite nth_rows, last_map_mul.
    + apply Rmult_lt_0_compat; [|auto]. rewrite (HL (n - 1)%nat ltac:(lia)). apply Rmult_lt_0_compat; [auto|apply Rmult_lt_0_compat; auto].
    + intros Z. destruct C as (_ & C & _). rewrite Z in C. cbn in C. lia.
Qed.

(** ** Cases *)
(** 4 m below the top of a 10 m layer that starts 2 m below ground, pile of diameter 4 m and length 16 m *)
Definition case_place : place := mkPlace 60 6 10 4 4 16 true.
Definition case_mults : mults := mkMults (MFun (fun x => 1 + x / 100)) (MNum 1) (MNum 0.9) (MNum 1).
Definition case_four : four := mkFour (PList [100; 120]) (PNum 0.4) (PFun (fun x => 8 + x / 10)) (PNum 6).
Lemma case_good : good_place case_place. Proof. constructor; cbn; lra. Qed.

Definition case_custom : lateral_model := Custom_pisa_clay (PList [50; 90]) (PNum 20000) case_four case_four case_four case_four case_mults.
Lemma case_fields : conic_fields case_four 6 /\ conic_regular case_four case_place.
Proof.
  split; [unfold conic_fields; cbn; unfold wide, curvature, pos; lra|]. intros x n k y _ E _ _. left.
  cbn [f_n case_four] in E. unfold custom_value, at_current_depth, in_layer in E. cbn [top_bottom bind fst snd] in E. rewrite at_depth_between in E by (cbn; lra). unfold between in E. assert (n = (1 - q_depth case_place / q_height case_place) * 0.4 + q_depth case_place / q_height case_place * 0.4) by congruence. lra.
Qed.
Example C68_case : good_place case_place /\ base_admissible case_custom case_place /\ moment_admissible case_custom case_place 15 /\ admissible case_custom case_place 15 /\ is_pisa case_custom /\
  admissible (API_clay (PList [20; 60]) (PNum 0.02) Cyclic 0.5 true (MNum 1) (MNum 2)) case_place 15 /\ admissible (Reese_weakrock (PNum 2000) (PNum 500) 50 0.0002 1 (MNum 1) (MNum 1)) case_place 15 /\
  admissible (API_sand (PList [30; 35]) Static None (Some Kallehave) true (MNum 0) (MNum 1)) case_place 15.
Proof.
  destruct case_fields as [F R]. split; [apply case_good|].
  assert (P : custom_values pos (PList [50; 90]) 6 /\ custom_values pos (PNum 20000) 6) by (cbn; unfold pos; lra). destruct P as [P1 P2].
  split; [unfold case_custom, base_admissible; cbn [q_X case_place]; auto 10|]. split; [unfold moment_admissible, case_custom, admissible; cbn [q_X case_place]; auto 10|]. split; [unfold case_custom, admissible; cbn [q_X case_place]; auto 10|].
  split; [reflexivity|]. cbn. unfold pos, within. repeat split; lra || auto.
Qed.

(** A regular Dunkirk layer: the conic has no singular sample when n yu <= (1 - n) k xu. *)
Lemma dunkirk_regular_if : forall Dr q m, (forall Dr', value Dr q = Ok Dr' -> let d := Dr' / 100 in
  0 < 146.1 - 92.11 * d /\ 0 < (0.917 + 0.06193 * d) * (0.3667 + 25.89 * d + (0.3375 - 8.9 * d) * (q_X q / q_L q)) /\ 0.917 + 0.06193 * d < 1 /\
  (0.917 + 0.06193 * d) * (0.3667 + 25.89 * d + (0.3375 - 8.9 * d) * (q_X q / q_L q)) <= (1 - (0.917 + 0.06193 * d)) * (8.731 - 0.6982 * d - 0.9178 * (q_X q / q_D q)) * (146.1 - 92.11 * d)) -> dunkirk_regular Dr q m.
Proof.
  intros Dr q m H Dr' E. specialize (H Dr' E). cbv zeta in *. set (n := 0.917 + 0.06193 * (Dr' / 100)) in *. set (k := 8.731 - 0.6982 * (Dr' / 100) - 0.9178 * (q_X q / q_D q)) in *.
  set (xu := 146.1 - 92.11 * (Dr' / 100)) in *. set (yu := 0.3667 + 25.89 * (Dr' / 100) + (0.3375 - 8.9 * (Dr' / 100)) * (q_X q / q_L q)) in *. destruct H as (X0 & NY & N1 & K).
  intros x _ Hx Hxu EQ. assert (n * yu * x < n * yu * xu) by (apply Rmult_lt_compat_l; auto). pose proof (Rmax_r (yu / xu) k) as MR.
  assert ((1 - n) * k * xu * xu <= (1 - n) * Rmax (yu / xu) k * xu ^ 2).
  { replace ((1 - n) * Rmax (yu / xu) k * xu ^ 2) with ((1 - n) * Rmax (yu / xu) k * xu * xu) by ring. repeat (apply Rmult_le_compat_r; [lra|]). apply Rmult_le_compat_l; lra. }
  assert (n * yu * xu <= (1 - n) * k * xu * xu) by (apply Rmult_le_compat_r; lra). lra.
Qed.
Example C74_case : moment_admissible (Dunkirk_sand (PNum 75) (PNum 50000) (mkMults (MNum 0) (MNum 1) (MNum 1) (MNum 1))) case_place 15 /\ 0 < q_sig case_place.
Proof.
  assert (V : forall Dr', value (PNum 75) case_place = Ok Dr' -> Dr' = 75).
  { intros Dr' E. unfold value, in_layer in E. cbn [top_bottom bind fst snd] in E. rewrite at_depth_between in E by (cbn; lra). unfold between in E. assert (Dr' = (1 - q_depth case_place / q_height case_place) * 75 + q_depth case_place / q_height case_place * 75) by congruence. lra. }
  split; [|cbn; lra]. split; [|intros Dr' E; rewrite (V _ E); cbn; lra]. cbn [admissible]. split; [cbn; unfold density; lra|]. split; [cbn; unfold pos; lra|]. split; [cbn; lra|]. split; [cbn; lra|].
  apply dunkirk_regular_if. intros Dr' E. rewrite (V _ E). cbn [q_X q_L q_D case_place]. cbv zeta. lra.
Qed.
Example C70_case : q_depth (mkPlace 0 1 10 (- 0.2 * 10) 4 16 true) = - 0.2 * q_height (mkPlace 0 1 10 (- 0.2 * 10) 4 16 true) /\ 0 < at_X (mu_p case_mults) 1 /\ q_height case_place < q_depth (mkPlace 0 1 10 12 4 16 true).
Proof. cbn. lra. Qed.
Example C71_case : reese_admissible (PNum 2000) (PList [500; 800]) 50 0.0002 1 /\ good_place (mkPlace 60 4 10 4 4 16 true) /\ q_depth case_place < q_X case_place /\ 1 + q_depth case_place < 3 * q_D case_place.
Proof. split; [unfold reese_admissible, pos; cbn; unfold pos; lra|]. split; [constructor; cbn; lra|]. cbn. lra. Qed.
Example C72_case : plain_field (PList [50; 90]) /\ 0 <= q_X case_place <= q_L case_place /\ 2 * q_D case_place <= q_L case_place <= 6 * q_D case_place.
Proof. cbn. split; [exact I|lra]. Qed.
Example C73_case : clay_strength (API_clay (PList [20; 60]) (PNum 0.02) Cyclic 0.5 true (MNum 1) (MNum 2)) = Some (PList [20; 60]) /\ 0 < q_sig case_place /\ all_values pos (PList [20; 60]).
Proof. split; [reflexivity|]. cbn. unfold pos. lra. Qed.

Print Assumptions C68_py_springs_partial.
Print Assumptions C68_base_springs_partial.
Print Assumptions C68_moment_springs_partial.
Print Assumptions C69_p_y_multipliers.
Print Assumptions C69_m_t_multipliers.
Print Assumptions C69_base_springs_not_multiplied.
Print Assumptions C69_independent.
Print Assumptions C70_below_the_layer.
Print Assumptions C70_above_the_layer_refuted.
Print Assumptions C71_rock_depth_partial.
Print Assumptions C71_rock_depth_refuted.
Print Assumptions C72_cowden.
Print Assumptions C72_dunkirk_partial.
Print Assumptions C73_clay_moment.
Print Assumptions C73_sand_moment.
Print Assumptions C74_api_sand.
Print Assumptions C74_dunkirk_refuted.
