(** Property C128: soil that is no weaker resists no less, except where the code's curves say otherwise. *)
From Coq Require Import List Bool Arith ZArith QArith Qabs Reals Qreals Lia Lqa Lra.
From Verif Require Import Base PileModel PileSpec MeshModel StressModel StressSpec StressProps CreateModel CreateProofs CreateProps
  ConicModel ConicSpec ConicProofs PisaModel ApiSandModel ApiSandSpec ApiSandProofs ApiSandProps ApiClayModel ApiClaySpec ApiClayProps
  AxialModel AxialSpec AxialProofs LateralModel LateralProofs LateralProps CapacityModel CapacitySpec CapacityProofs CapacityProps FirmSpec FirmProofs FirmLateralProofs FirmAxialProofs.
Import ListNotations.
Local Open Scope R_scope.

(** The axial capacity: two models on one mesh, soil in the same layers, water no higher, pile no slimmer.  The layers of the second
    are no lighter and no weaker; layers without soil springs may have been given some. *)
Theorem C128_shaft_resistance : forall l p b dt dq ta fp xs sd st x c m co l' p' b' dt' dq' ta' fp' xs' sd' st' x' c' co',
  in_soil l p b dt dq ta fp xs sd st x c m co -> in_soil l' p' b' dt' dq' ta' fp' xs' sd' st' x' c' m co' ->
  Forall2 firmer_layer xs xs' -> (water st' <= water st)%Q -> (forall i, (i < length (elems st))%nat -> (co i <= co' i)%Q) ->
  distributed_axial st = true -> distributed_axial st' = true ->
  exists r t r' t', shaft_resistance (nodes_of m) (create_springs st (map (with_springs dt dq ta fp) xs)) = Ok (Some (r, t)) /\
    shaft_resistance (nodes_of m) (create_springs st' (map (with_springs dt' dq' ta' fp') xs')) = Ok (Some (r', t')) /\ r <= r' /\ t <= t'.
Proof. intros. eapply shaft_firmer; eauto. Qed.
Print Assumptions C128_shaft_resistance.

Theorem C128_tip_resistance : forall l p b dt dq ta fp xs sd st x c m co l' p' b' dt' dq' ta' fp' xs' sd' st' x' c' co',
  in_soil l p b dt dq ta fp xs sd st x c m co -> in_soil l' p' b' dt' dq' ta' fp' xs' sd' st' x' c' m co' ->
  Forall2 firmer_layer xs xs' -> (water st' <= water st)%Q -> base_axial st = true -> base_axial st' = true -> (0 <= ta <= ta')%Q -> (0 <= fp <= fp')%Q ->
  exists r r', tip_resistance (create_springs st (map (with_springs dt dq ta fp) xs)) = Ok (Some r) /\ tip_resistance (create_springs st' (map (with_springs dt' dq' ta' fp') xs')) = Ok (Some r') /\ r <= r'.
Proof. intros. eapply tip_firmer; eauto. Qed.
Print Assumptions C128_tip_resistance.

(** The p-y springs of all the models but Reese's: any point of the curve in the better soil resists at least as much as every point of the other
    curve at no larger a deflection, and the peak is no lower.  Cyclic clays and the API subgrade modulus below 26 degrees are left out by [firmer];
    see the refutations below. *)
Theorem C128_py_springs_partial : forall m m' u u' q q', (forall i, 0 <= u i < 1) -> (forall i, 0 <= u' i < 1) -> good_place q -> good_place q' ->
  LateralProofs.admissible m q 15 -> LateralProofs.admissible m' q' 15 ->
  firmer m m' q -> no_shallower q q' -> no_weaker m m' q -> 0 <= at_X (p_multiplier m) (q_X q) -> 0 < at_X (y_multiplier m') (q_X q) ->
  exists y p y' p', py_spring_fct m u q 0 15 = Ok (y, map Some p) /\ py_spring_fct m' u' q' 0 15 = Ok (y', map Some p') /\ outdone y p y' p'.
Proof. apply py_spring_firmer. Qed.
Print Assumptions C128_py_springs_partial.

Lemma value_const : forall c q, 0 < q_height q -> value (PNum c) q = Ok c.
Proof. intros c q H. unfold value, in_layer. cbn [top_bottom bind fst snd]. rewrite at_depth_between by lra. f_equal. unfold LateralSpec.between. ring. Qed.

Lemma times_1 : forall l, map (fun v => v * 1) l = l.
Proof. intros l. rewrite <- (map_id l) at 2. apply map_ext. intros. ring. Qed.
Lemma if_zero : forall (A : Type) (a b : A), (if Req_EM_T 0 0 then a else b) = a.
Proof. intros A a b. destruct (Req_EM_T 0 0); [reflexivity|contradiction]. Qed.

(** Cyclic clay: a third more strength, and the residual resistance is less.  Three diameters down, J = 0.5, Su a quarter and then a third of the stress. *)
Theorem C128_cyclic_clay_refuted : forall sig D height depth L wet eps50 stiff u, 0 < sig -> 0 < D -> 0 < height -> 0 <= depth <= height -> 0 < eps50 -> (forall i, 0 <= u i < 1) ->
  let q := mkPlace sig (3 * D) height depth D L wet in
  let clay Su := API_clay (PNum Su) (PNum eps50) Cyclic 0.5 stiff (MNum 1) (MNum 1) in
  exists y p y' p', py_spring_fct (clay (sig / 4)) u q 0 15 = Ok (y, map Some p) /\ py_spring_fct (clay (sig / 3)) u q 0 15 = Ok (y', map Some p') /\
    last y 0 = last y' 0 /\ last p' 0 < last p 0 /\ ~ outdone y p y' p'.
Proof.
  intros sig D height depth L wet eps50 stiff u S0 D0 H0 H1 E0 U q clay.
  assert (V : forall Su, 0 < Su -> exists Xr y p, py_spring_fct (clay Su) u q 0 15 = Ok (y, map Some p) /\ Xr = Rmax (6 * D / (sig / (3 * D) * D / Su + 0.5)) (2.5 * D) /\ last y 0 = 16 * (2.5 * eps50 * D) /\
    last p 0 = 0.7185 * Rmin (9 * Su * D) ((3 * Su + sig) * D + 0.5 * Su * (3 * D)) * Rmin 1 (3 * D / Xr) /\ length y = 15%nat /\ length p = 15%nat).
  { intros Su HS. destruct (C46_api_clay_partial u sig (3 * D) Su eps50 D 0.5 Cyclic 0 15 U E0 D0 ltac:(lra) ltac:(lra) ltac:(lra) ltac:(lra) (Rle_refl 0)) as (Xr & y & p & E & _ & X2 & [L1 L2 _ _ _ _] & _ & LY & _ & _ & LP).
    rewrite if_zero in LY. rewrite if_zero in LP. assert (Y0 : 0 < 2.5 * eps50 * D) by (apply Rmult_lt_0_compat; lra).
    exists Xr, (map (fun v => v * 1) y), (map (fun v => v * 1) p). split.
    - unfold py_spring_fct. rewrite inside_ok by (cbn; lra). unfold clay, py_curve. rewrite !value_const by (cbn; lra). cbn [bind q q_sig q_X q_D]. rewrite E. cbn [numbers bind]. rewrite scaled_numbers. reflexivity.
    - rewrite !times_1. split; [apply X2; lra|]. split; [exact (proj1 (LY ltac:(lra)))|]. split; [exact (LP ltac:(lra))|]. auto. }
  destruct (V (sig / 4) ltac:(lra)) as (Xr & y & p & E & EX & LY & LP & N1 & N2). destruct (V (sig / 3) ltac:(lra)) as (Xr' & y' & p' & E' & EX' & LY' & LP' & N1' & N2').
  exists y, p, y', p'. split; [exact E|]. split; [exact E'|]. split; [congruence|].
  replace (sig / (3 * D) * D / (sig / 4)) with (4 / 3) in EX by (field; lra). replace (sig / (3 * D) * D / (sig / 3)) with 1 in EX' by (field; lra).
  replace (6 * D / (4 / 3 + 0.5)) with (36 / 11 * D) in EX by lra. replace (6 * D / (1 + 0.5)) with (4 * D) in EX' by lra.
  rewrite Rmax_left in EX by lra. rewrite Rmax_left in EX' by lra. assert (PD : 0 < sig * D) by (apply Rmult_lt_0_compat; auto).
  rewrite Rmin_right in LP by lra. rewrite Rmin_right in LP' by lra.
  replace (3 * D / Xr) with (11 / 12) in LP by (rewrite EX; field; lra). replace (3 * D / Xr') with (3 / 4) in LP' by (rewrite EX'; field; lra). rewrite Rmin_right in LP by lra. rewrite Rmin_right in LP' by lra.
  assert (LT : last p' 0 < last p 0) by (rewrite LP, LP'; nra). split; [exact LT|]. intros [O _].
  assert (IN : forall a b : list R, length a = 15%nat -> length b = 15%nat -> In (last a 0, last b 0) (combine a b)).
  { intros a b A B. pose proof (PisaProofs.last_nth0 a) as LA. pose proof (PisaProofs.last_nth0 b) as LB. rewrite LA, LB, A, B. change (15 - 1)%nat with 14%nat. rewrite <- (combine_nth a b 14 0 0) by congruence. apply nth_In. rewrite combine_length, A, B. cbn. lia. }
  specialize (O _ _ _ _ (IN y p N1 N2) (IN y' p' N1' N2') ltac:(lra)). lra.
Qed.
Print Assumptions C128_cyclic_clay_refuted.

(** Sand whose subgrade modulus the code derives from the friction angle: the modulus of a stronger sand may be less, and then the curve of the
    stronger sand starts less steeply. *)
Theorem C128_subgrade_refuted : forall phi phi' sig X height depth D L wet kind stiff u, 15 <= phi <= 45 -> 15 <= phi' <= 45 -> api_k phi' wet < api_k phi wet -> 0 < sig -> 0.1 <= X -> 0 < D -> 0 < height -> 0 <= depth <= height ->
  let q := mkPlace sig X height depth D L wet in
  let sand phi := API_sand (PNum phi) kind None None stiff (MNum 1) (MNum 1) in
  exists y p y' p', py_spring_fct (sand phi) u q 0 15 = Ok (y, map Some p) /\ py_spring_fct (sand phi') u q 0 15 = Ok (y', map Some p') /\
    nth 0 y 0 = 0 /\ nth 0 p 0 = 0 /\ nth 0 y' 0 = 0 /\ nth 0 p' 0 = 0 /\ 0 < nth 1 y 0 /\ 0 < nth 1 y' 0 /\ nth 1 p' 0 / nth 1 y' 0 < nth 1 p 0 / nth 1 y 0.
Proof.
  intros phi phi' sig X height depth D L wet kind stiff u P P' K S0 X0 D0 H0 H1 q sand.
  assert (V : forall f, 15 <= f <= 45 -> exists y p, py_spring_fct (sand f) u q 0 15 = Ok (y, map Some p) /\ nth 0 y 0 = 0 /\ nth 0 p 0 = 0 /\ 0 < nth 1 y 0 /\ nth 1 p 0 / nth 1 y 0 = api_k f wet * (X * (tanh (2 / 7) * (7 / 2)))).
  { intros f F. assert (PP : 0 < sand_ultimate sig X f D) by (apply C45_ultimate_positive; lra). pose proof (sand_A_ge X D kind) as A0. pose proof (api_k_pos f wet) as K0.
    eexists (map (fun v => v * 1) _), (map (fun v => v * 1) _). split.
    - unfold py_spring_fct. rewrite inside_ok by (cbn; lra). unfold sand, py_curve. rewrite value_const by (cbn; lra). cbn [bind subgrade q q_sig q_X q_D q_wet]. rewrite api_sand_eq by lra. cbn [numbers bind fst snd]. rewrite scaled_numbers. reflexivity.
    - cbn [fst snd]. rewrite !times_1. change (Nat.max 8 15) with 15%nat. set (ys := linspace 0 _ 15).
      assert (EY : sand_ymax sig X f D kind wet 0 0 = 4 * sand_A X D kind * sand_ultimate sig X f D / (api_k f wet * X)).
      { unfold sand_ymax. rewrite if_zero. unfold sand_k. rewrite if_zero. destruct (Req_EM_T (sand_ultimate sig X f D) 0); [lra|]. rewrite Rmax_left by lra. reflexivity. }
      assert (Y0 : nth 0 ys 0 = 0) by (apply linspace_ends; lia). assert (Y1 : nth 1 ys 0 = 2 / 7 * (sand_A X D kind * sand_ultimate sig X f D) / (api_k f wet * X)).
      { unfold ys. rewrite linspace_nth by lia. rewrite EY. cbn [Nat.sub INR]. field. split; lra. }
      assert (AP : 0 < sand_A X D kind * sand_ultimate sig X f D) by (apply Rmult_lt_0_compat; lra).
      assert (Q1 : forall i, (i < 15)%nat -> nth i (map (sand_p sig X f D kind wet 0) ys) 0 = sand_A X D kind * sand_ultimate sig X f D * tanh (api_k f wet * X * nth i ys 0 / (sand_A X D kind * sand_ultimate sig X f D))).
      { intros i Hi. rewrite nth_indep with (d' := sand_p sig X f D kind wet 0 0) by (rewrite map_length; unfold ys; rewrite ConicProofs.linspace_length; exact Hi). rewrite map_nth. unfold sand_p. cbv zeta. unfold sand_k. rewrite if_zero. destruct (Req_EM_T (sand_ultimate sig X f D) 0); [lra|reflexivity]. }
      rewrite !Q1, Y0, Y1 by lia. split; [reflexivity|]. split; [rewrite Rmult_0_r; unfold Rdiv; rewrite Rmult_0_l, tanh_0; ring|]. split.
      + apply Rdiv_lt_0_compat; [apply Rmult_lt_0_compat; lra|apply Rmult_lt_0_compat; lra].
      + replace (api_k f wet * X * (2 / 7 * (sand_A X D kind * sand_ultimate sig X f D) / (api_k f wet * X)) / (sand_A X D kind * sand_ultimate sig X f D)) with (2 / 7) by (field; repeat split; lra). field. repeat split; lra. }
  destruct (V phi P) as (y & p & E & A1 & A2 & A3 & A4). destruct (V phi' P') as (y' & p' & E' & A1' & A2' & A3' & A4').
  exists y, p, y', p'. do 8 (split; [assumption|]). rewrite A4, A4'. apply Rmult_lt_compat_r; [|exact K]. assert (T : 0 < tanh (2 / 7)).
  { rewrite tanh_exp. pose proof (exp_ineq1 (2 * (2 / 7)) ltac:(lra)). assert (/ (exp (2 * (2 / 7)) + 1) < / 2) by (apply Rinv_lt_contravar; lra). unfold Rdiv in *. lra. }
  apply Rmult_lt_0_compat; lra.
Qed.
Print Assumptions C128_subgrade_refuted.

(** Below water, 28 degrees against 15: a fifth of the modulus *)
Example C128_subgrade_case : api_k 28 true < api_k 15 true.
Proof. unfold api_k. rewrite Rmax_right by lra. rewrite Rmax_left by lra. lra. Qed.

(** ** Cases *)
Definition strong_w : clay_axial := mkClayAxial 50 80 PlugNone 1 (MNum 1) (MNum 1) 1 1 1 1.
Example C128_axial_case : let xs := layers_w (Clay clay_w) in let xs' := layers_w (Clay strong_w) in
  in_soil ex_l ex_p (-8) draw_w draw_w 1 2 xs (map (with_springs draw_w draw_w 1 2) (down_w (Clay clay_w))) set1 [(-1)%Q] 2 mesh1 (fun _ => 1%Q) /\
  in_soil ex_l ex_p (-8) draw_w draw_w 1 2 xs' (map (with_springs draw_w draw_w 1 2) (down_w (Clay strong_w))) set1 [(-1)%Q] 2 mesh1 (fun _ => 1%Q) /\
  Forall2 firmer_layer xs xs' /\ distributed_axial set1 = true /\ base_axial set1 = true.
Proof.
  cbv zeta. destruct draw_w_fair as [F1 F2]. split; [apply witness; auto; apply clay_w_admissible|]. split.
  - apply witness; auto. destruct clay_w_admissible as (A & B). cbn in A |- *. repeat split; try lra; try tauto.
  - split; [|split; reflexivity]. repeat constructor; cbn; try discriminate; try apply Qle_refl. intros s E. injection E as <-. exists (Clay strong_w). split; [reflexivity|]. cbn. repeat split; lra.
Qed.

Example C128_py_case : let q := mkPlace 60 6 10 4 4 16 true in let q' := mkPlace 80 6 10 4 4 16 true in
  let m := API_sand (PList [30; 35]) Static None (Some Kallehave) true (MNum 0.8) (MNum 1) in let m' := API_sand (PList [32; 35]) Static None (Some Kallehave) true (MNum 1) (MNum 1) in
  good_place q /\ good_place q' /\ LateralProofs.admissible m q 15 /\ LateralProofs.admissible m' q' 15 /\ firmer m m' q /\ no_shallower q q' /\ no_weaker m m' q.
Proof.
  cbv zeta. split; [constructor; cbn; lra|]. split; [constructor; cbn; lra|]. split; [cbn; unfold within; repeat split; lra|]. split; [cbn; unfold within; repeat split; lra|].
  assert (V : forall a b, custom_value (PList [a; b]) (mkPlace 60 6 10 4 4 16 true) = Ok ((1 - 4 / 10) * a + 4 / 10 * b)).
  { intros a b. unfold custom_value, at_current_depth, in_layer. cbn [top_bottom bind fst snd q_depth q_height]. rewrite at_depth_between by lra. reflexivity. }
  split; [|split; [split; [cbn; lra|repeat split]|unfold no_weaker; cbn [p_multiplier y_multiplier at_X q_X]; split; lra]]. cbn [firmer]. split; [reflexivity|]. split; [reflexivity|]. split.
  - intros v v' E E'. rewrite V in E, E'. injection E as <-. injection E' as <-. lra.
  - intros v E. rewrite V in E. injection E as <-. lra.
Qed.
