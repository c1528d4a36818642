(** Lateral springs of the soil models resist every displacement, below the ground surface. *)
From Coq Require Import Reals Lra Lia List Bool Arith Permutation.
From Verif Require Import Base ConicModel ConicSpec ConicProofs PisaModel PisaSpec PisaProofs PisaProps ApiSandModel ApiSandSpec ApiSandProofs ApiClayModel ApiClaySpec ApiClayProofs ApiClayProps
  ReeseModel ReeseSpec ReeseProofs ReeseProps AxialModel AxialSpec AxialProofs AxialProps LateralModel LateralSpec LateralProofs MomentProofs LateralProps StartProofs.
Import ListNotations.
Local Open Scope R_scope.

Definition resisting (p : list R) : Prop := forall i, (1 <= i < 15)%nat -> 0 < nth i p 0.

Lemma nd_from_1 : forall y i, nondecreasing y -> 0 < nth 1 y 0 -> (1 <= i)%nat -> (i < length y)%nat -> 0 < nth i y 0.
Proof. intros y i N P I J. pose proof (N 1%nat i I J). lra. Qed.

Lemma pisa_resists : forall n s e xu yu xs ys, pisa_curve 15 n s e xu yu xs ys -> 0 < xu -> 0 < yu -> moves xs -> 0 < nth 1 xs 0 /\ resisting ys.
Proof.
  intros n s e xu yu xs ys (LX & LY & X0 & Y0 & NX & NY & IX & _ & _ & P) PX PY MV.
  assert (M1 : 0 < nth 1 xs 0) by (destruct MV as [Z|M]; [rewrite (Z xu IX) in PX; lra|auto]). split; [exact M1|].
  intros i I. destruct (P i ltac:(lia)) as (X & Y & EX & EY & BX & LE & _). pose proof (nd_from_1 xs i NX M1 ltac:(lia) ltac:(lia)) as XI. rewrite EX in XI. rewrite EY.
  apply Rmult_lt_0_compat; [|exact PY]. assert (0 < X). { destruct (Rle_lt_dec X 0) as [H|H]; auto. assert (X = 0) by lra. subst X. lra. }
  assert (0 < Rmin X 1) by (apply Rmin_glb_lt; lra). lra.
Qed.

Lemma rise_pos : forall r, 0 < r -> 0 < rise r.
Proof. intros r H. unfold rise. destruct (Rlt_dec 0 r); [|lra]. pose proof (exp_pos (0.33 * ln r)) as H'. fold (Rpower r 0.33) in H'. lra. Qed.

Lemma tanh_pos : forall x, 0 < x -> 0 < tanh x.
Proof.
  intros x H. unfold tanh, sinh, cosh. pose proof (exp_pos x). pose proof (exp_pos (- x)). pose proof (exp_increasing (- x) x ltac:(lra)). apply Rdiv_lt_0_compat; lra.
Qed.

Lemma clay_resists : forall f b reach sig X Su eps50 D J kind ymax r y p, 0 < f -> b < 15 -> 0 < X -> 0 < Su -> 0 < eps50 -> 0 < D -> 0 <= sig -> 0 < J ->
  clay_claim f b reach 15 sig X Su eps50 D J kind ymax r -> r = Ok (y, p) -> 0 < nth 1 y 0 -> resisting p.
Proof.
  intros f b reach sig X Su eps50 D J kind ymax r y p PF B15 PX PS PE PD PSIG PJ (Xr & y' & p' & E & _ & XR & [LY LP _ _ NY VA] & _) ER Y1 i I.
  rewrite E in ER. assert (y' = y) by congruence. assert (p' = p) by congruence. subst y' p'. rewrite VA by lia.
  pose proof (nd_from_1 y i NY Y1 ltac:(lia) ltac:(lia)) as YI.
  assert (PM : 0 < Rmin (9 * Su * D) ((3 * Su + sig) * D + J * Su * X)).
  { assert (0 < Su * D) by (apply Rmult_lt_0_compat; auto). assert (0 <= sig * D) by (apply Rmult_le_pos; lra). assert (0 < J * Su * X) by (apply Rmult_lt_0_compat; [apply Rmult_lt_0_compat|]; auto). apply Rmin_glb_lt; lra. }
  apply Rmult_lt_0_compat; [exact PM|]. assert (Y50 : 0 < 2.5 * eps50 * D) by (apply Rmult_lt_0_compat; [lra|auto]).
  assert (RI : 0 < nth i y 0 / (2.5 * eps50 * D)) by (apply Rdiv_lt_0_compat; auto). set (t := nth i y 0 / (2.5 * eps50 * D)) in *.
  destruct kind.
  - unfold matlock_static. destruct (Rlt_dec 8 t); [lra|]. apply rise_pos; auto.
  - rewrite (XR ltac:(lra) ltac:(lra)). set (xr := Rmax _ _). assert (0 < xr). { unfold xr. pose proof (Rmax_r (6 * D / (sig / X * D / Su + J)) (2.5 * D)). lra. }
    assert (Z : 0 < X / xr) by (apply Rdiv_lt_0_compat; auto). set (z := X / xr) in *. unfold matlock_cyclic.
    destruct (Rle_dec t b) as [|TB]; [apply rise_pos; auto|]. destruct (Rlt_dec 1 z); [auto|]. destruct (Rlt_dec 15 t); [apply Rmult_lt_0_compat; auto|].
    apply Rmult_lt_0_compat; [auto|]. assert (0 < (t - b) / (15 - b) <= 1).
    { split; [apply Rdiv_lt_0_compat; lra|]. apply Rmult_le_reg_r with (15 - b); [lra|]. unfold Rdiv. rewrite Rmult_assoc, Rinv_l by lra. lra. }
    assert ((1 - z) * ((t - b) / (15 - b)) <= (1 - z) * 1) by (apply Rmult_le_compat_l; lra). lra.
Qed.

Lemma py_curve_resists : forall m u q y p, (forall i, 0 <= u i < 1) -> good_place q -> admissible m q 15 -> 0 < q_sig q -> 0 < q_X q -> py_curve m u q 0 15 = Ok (y, map Some p) ->
  0 < nth 1 y 0 /\ resisting p.
Proof.
  intros m u q y p U G A PS PX EC. pose proof G as [G1 G2 GD GS GX]. pose proof (py_curve_moves m u q y (map Some p) U G A EC) as MV.
  assert (SOME : forall (a b : list R), map Some a = map Some b -> a = b) by (intros a b H; apply (f_equal plain) in H; rewrite !plain_some in H; exact H).
  destruct m; cbn [admissible] in A; cbn [py_curve] in EC; unfold value, custom_value in *.
  - destruct A as (A1 & A2 & A3). destruct (value_in _ _ _ _ pos_convex A1 G1 G2) as (s & E1 & P1). destruct (value_in _ _ _ _ pos_convex A2 G1 G2) as (g & E2 & P2).
    rewrite E1, E2 in EC. cbn [bind] in EC. unfold pos in *. destruct (C43_py_bothkennar (q_X q) s g (q_D q) 15) as (xs & ys & E & C); try lra; try lia.
    rewrite E in EC. assert (xs = y) by congruence. assert (ys = p) by (apply SOME; congruence). subst xs ys. pose proof (Rmult_lt_0_compat _ _ P1 GD) as SD.
    apply (pisa_resists _ _ _ _ _ _ _ C); auto; [apply Rmult_lt_0_compat; [lra|apply Rdiv_lt_0_compat; auto]|]. apply Rmult_lt_0_compat; [|auto].
    destruct (exp_neg (-0.8456) (q_X q / q_D q) ltac:(lra)) as [X0 X1]; [apply Rmult_le_pos; [lra|left; apply Rinv_0_lt_compat; auto]|]. lra.
  - destruct A as (A1 & A2 & A3). destruct (value_in _ _ _ _ pos_convex A1 G1 G2) as (s & E1 & P1). destruct (value_in _ _ _ _ pos_convex A2 G1 G2) as (g & E2 & P2).
    rewrite E1, E2 in EC. cbn [bind] in EC. unfold pos in *. destruct (C43_py_cowden (q_X q) s g (q_D q) 15) as (xs & ys & E & C); try lra; try lia.
    rewrite E in EC. assert (xs = y) by congruence. assert (ys = p) by (apply SOME; congruence). subst xs ys. pose proof (Rmult_lt_0_compat _ _ P1 GD) as SD.
    apply (pisa_resists _ _ _ _ _ _ _ C); auto; [apply Rmult_lt_0_compat; [lra|apply Rdiv_lt_0_compat; auto]|]. apply Rmult_lt_0_compat; [|auto].
    destruct (exp_neg (-0.3085) (q_X q / q_D q) ltac:(lra)) as [X0 X1]; [apply Rmult_le_pos; [lra|left; apply Rinv_0_lt_compat; auto]|]. lra.
  - destruct A as (A1 & A2 & A3 & A4 & A5). destruct (value_in _ _ _ _ density_convex A1 G1 G2) as (s & E1 & P1). destruct (value_in _ _ _ _ pos_convex A2 G1 G2) as (g & E2 & P2).
    specialize (A5 s E1). rewrite E1, E2 in EC. cbn [bind] in EC. unfold pos, density in *. destruct (C43_py_dunkirk_partial (q_sig q) (q_X q) s g (q_D q) (q_L q) 15) as (xs & ys & E & C); try lra; auto.
    rewrite E in EC. assert (xs = y) by congruence. assert (ys = p) by (apply SOME; congruence). subst xs ys. pose proof (Rmult_lt_0_compat _ _ PS GD) as SD.
    apply (pisa_resists _ _ _ _ _ _ _ C); auto; [apply Rmult_lt_0_compat; [lra|apply Rdiv_lt_0_compat; auto]|]. apply Rmult_lt_0_compat; [|auto].
    destruct (frac01 (q_X q) (q_L q) 1) as [F0 F1]; try lra. assert (D0 : 0 <= s / 100 <= 1) by lra. assert (0 <= s / 100 * (1 - q_X q / q_L q)) by (apply Rmult_le_pos; lra). lra.
  - destruct A as (A1 & A2). destruct (value_in _ _ _ _ (within_convex 15 45) A1 G1 G2) as (s & E1 & P1). rewrite E1 in EC. cbn [bind] in EC.
    destruct (subgrade s k modif q) as [kk|] eqn:Ek; [|discriminate]. cbn [bind] in EC. unfold within in P1.
    assert (Pk : 0 <= kk).
    { unfold subgrade, value in Ek. assert (V : exists v, match k with Some p => in_layer p (q_depth q) (q_height q) | None => Ok 0 end = Ok v /\ 0 <= v).
      { destruct k as [p'|]; [destruct (value_in _ _ _ _ pos_convex A2 G1 G2) as (v & E' & P); exists v; unfold pos in P; split; [exact E'|lra]|exists 0; split; [reflexivity|lra]]. }
      destruct V as (v & E' & P). rewrite E' in Ek. cbn [bind] in Ek. injection Ek as <-. destruct modif as [[]|]; [apply kallehave_nonneg|apply sorensen_nonneg|exact P]. }
    rewrite api_sand_eq in EC by (auto; lra). cbn [numbers bind fst snd] in EC. 
    set (ext := sand_ymax (q_sig q) (q_X q) s (q_D q) kind (q_wet q) kk 0) in *.
    assert (EY : y = linspace 0 ext 15) by (change 15%nat with (Nat.max 8 15); congruence).
    assert (EP : p = map (sand_p (q_sig q) (q_X q) s (q_D q) kind (q_wet q) kk) (linspace 0 ext 15)) by (apply SOME; change 15%nat with (Nat.max 8 15); congruence).
    pose proof (sand_ymax_pos (q_sig q) (q_X q) s (q_D q) kind (q_wet q) kk 0 ltac:(lra) ltac:(lra) GD Pk GS GX ltac:(lra)) as Y. fold ext in Y.
    assert (LI : forall i, (1 <= i < 15)%nat -> 0 < nth i (linspace 0 ext 15) 0).
    { intros i I. rewrite linspace_nth by lia. rewrite Rplus_0_l, Rminus_0_r. apply Rmult_lt_0_compat; [exact Y|]. apply Rdiv_lt_0_compat; apply lt_0_INR; lia. }
    split; [rewrite EY; apply LI; lia|]. intros i I. rewrite EP. rewrite nth_indep with (d' := sand_p (q_sig q) (q_X q) s (q_D q) kind (q_wet q) kk 0) by (rewrite map_length, linspace_length; lia). rewrite map_nth.
    unfold sand_p. cbv zeta. pose proof (ultimate_pos s ltac:(lra) ltac:(lra) (q_sig q) (q_X q) (q_D q) PS GX GD) as UP. destruct (Req_EM_T _ 0); [lra|].
    pose proof (sand_A_ge (q_X q) (q_D q) kind) as AG. pose proof (sand_k_pos s (q_wet q) kk Pk) as KP. specialize (LI i I).
    apply Rmult_lt_0_compat; [apply Rmult_lt_0_compat; lra|]. apply tanh_pos. apply Rdiv_lt_0_compat; [apply Rmult_lt_0_compat; [apply Rmult_lt_0_compat|]; auto|apply Rmult_lt_0_compat; lra].
  - destruct A as (A1 & A2 & A3). destruct (value_in _ _ _ _ pos_convex A1 G1 G2) as (s & E1 & P1). destruct (value_in _ _ _ _ pos_convex A2 G1 G2) as (g & E2 & P2).
    rewrite E1, E2 in EC. cbn [bind] in EC. unfold pos in *. pose proof (C46_api_clay_partial u (q_sig q) (q_X q) s g (q_D q) J kind 0 15 U P2 GD GS GX ltac:(lra) ltac:(lra) ltac:(lra)) as C.
    change (Nat.max 8 15) with 15%nat in C. destruct (api_clay _ _ _ _ _ _ _ _ _ _) as [[y0 p0]|] eqn:EA; [|discriminate]. cbn [numbers bind fst snd] in EC.
    assert (y0 = y) by congruence. assert (p0 = p) by (apply SOME; congruence). subst y0 p0.
    assert (Y1 : 0 < nth 1 y 0). { destruct MV as [Z|M]; [|exact M]. exfalso. destruct C as (Xr & y' & p' & E & _ & _ & _ & IE & _). assert (y' = y) by congruence. subst y'. specialize (Z _ IE).
      destruct (Req_EM_T 0 0) as [_|NE]; [|lra]. assert (0 < 2.5 * g * q_D q) by (apply Rmult_lt_0_compat; lra). lra. }
    split; [exact Y1|]. eapply clay_resists; [| | | | | | | |exact C|reflexivity|exact Y1]; lra.
  - destruct A as (A1 & A2 & A3). destruct (value_in _ _ _ _ pos_convex A1 G1 G2) as (s & E1 & P1). destruct (value_in _ _ _ _ pos_convex A2 G1 G2) as (g & E2 & P2).
    rewrite E1, E2 in EC. cbn [bind] in EC. unfold pos in *. pose proof (C46_modified_matlock_partial u (q_sig q) (q_X q) s g (q_D q) J kind 0 15 U P2 GD GS GX ltac:(lra) ltac:(lra) ltac:(lra)) as C.
    change (Nat.max 8 15) with 15%nat in C. destruct (modified_Matlock _ _ _ _ _ _ _ _ _ _) as [[y0 p0]|] eqn:EA; [|discriminate]. cbn [numbers bind fst snd] in EC.
    assert (y0 = y) by congruence. assert (p0 = p) by (apply SOME; congruence). subst y0 p0.
    assert (Y1 : 0 < nth 1 y 0). { destruct MV as [Z|M]; [|exact M]. exfalso. destruct C as (Xr & y' & p' & E & _ & _ & _ & IE & _). assert (y' = y) by congruence. subst y'. specialize (Z _ IE).
      destruct (Req_EM_T 0 0) as [_|NE]; [|lra]. assert (0 < 2.5 * g * q_D q) by (apply Rmult_lt_0_compat; lra). lra. }
    split; [exact Y1|]. eapply clay_resists; [| | | | | | | |exact C|reflexivity|exact Y1]; lra.
  - destruct A as (A1 & A2 & A3 & A4 & A5). destruct (value_in _ _ _ _ pos_convex A1 G1 G2) as (s & E1 & P1). destruct (value_in _ _ _ _ pos_convex A2 G1 G2) as (g & E2 & P2).
    rewrite E1, E2 in EC. cbn [bind] in EC. unfold pos in *. pose proof (C47_reese_partial s g RQD (q_X q + ztop) (q_D q) k 15 P1 ltac:(lra) ltac:(lra) GD ltac:(lra)) as C. cbv zeta in C.
    destruct C as (y0 & p0 & E & L1 & L2 & F1 & F2 & SS & B & LP & _ & EL & Y1 & NS & _). rewrite E in EC. cbn [numbers bind fst snd] in EC.
    assert (y0 = y) by congruence. assert (p0 = p) by (apply SOME; congruence). subst y0 p0. change (Nat.max 8 15) with 15%nat in *.
    assert (PM : 0 < rock_ultimate g RQD (q_X q + ztop) (q_D q)).
    { rewrite <- ultimate_spec by (auto; lra). assert (AL : 0 < reese_alpha RQD). { unfold reese_alpha. rewrite Rmin_right by lra. rewrite Rmax_left by lra. lra. }
      assert (0 <= 1.4 * (q_X q + ztop) / q_D q) by (apply Rmult_le_pos; [lra|left; apply Rinv_0_lt_compat; auto]).
      assert (0 < reese_alpha RQD * g * q_D q) by (apply Rmult_lt_0_compat; [apply Rmult_lt_0_compat|]; lra). apply Rmin_glb_lt; [lra|]. apply Rmult_lt_0_compat; lra. }
    assert (EP : 0 < rock_stiffness s (q_X q + ztop) (q_D q)) by (apply stiffness_pos; lra).
    assert (QP : 0 < rock_ultimate g RQD (q_X q + ztop) (q_D q) / (2 * Rpower (k * q_D q) 0.25 * rock_stiffness s (q_X q + ztop) (q_D q))).
    { apply Rdiv_lt_0_compat; [auto|]. apply Rmult_lt_0_compat; [|auto]. apply Rmult_lt_0_compat; [lra|]. apply exp_pos. }
    specialize (Y1 QP). assert (PY1 : 0 < nth 1 y 0) by (rewrite Y1; apply exp_pos). split; [exact PY1|]. intros i I.
    pose proof (EL 1%nat ltac:(lia) ltac:(lra)) as P1'. assert (0 < nth 1 p 0). { rewrite P1'. apply Rmin_glb_lt; [auto|]. apply Rmult_lt_0_compat; auto. }
    pose proof (NS 1%nat i ltac:(lia) ltac:(lia)) as LE. eapply Rlt_le_trans; [|exact LE]. apply Rmult_lt_0_compat; [|auto]. apply Rmin_glb_lt; [lra|apply exp_pos].
  - destruct A as (A1 & A2 & A3). destruct (custom_value_in _ _ (q_depth q) (q_height q) (q_X q) pos_convex A1 G1 G2) as (g & E1 & P1). rewrite E1 in EC. cbn [bind] in EC.
    destruct (four_ok py q G A2 A3) as (x & c & k & yy & W & CV & PK & PY & RG & EQ). rewrite EQ in EC. unfold wide, curvature, pos in *.
    pose proof (Rmult_lt_0_compat _ _ PS GD) as SD. destruct (scaled_curve' x c k yy 15 (q_sig q * q_D q) g (q_sig q * q_D q)) as (xs & ys & E & C); try lra; try lia.
    pose proof (eq_trans (eq_sym E) EC) as EE. assert (xs = y) by congruence. assert (ys = p) by (apply SOME; congruence). subst xs ys.
    apply (pisa_resists _ _ _ _ _ _ _ C); auto; apply Rmult_lt_0_compat; auto; [lra|apply Rdiv_lt_0_compat; auto].
  - destruct A as (A0 & A1 & A2 & A3). destruct (custom_value_in _ _ (q_depth q) (q_height q) (q_X q) pos_convex A0 G1 G2) as (s & E0 & P0).
    destruct (custom_value_in _ _ (q_depth q) (q_height q) (q_X q) pos_convex A1 G1 G2) as (g & E1 & P1). rewrite E0, E1 in EC. cbn [bind] in EC.
    destruct (four_ok py q G A2 A3) as (x & c & k & yy & W & CV & PK & PY & RG & EQ). rewrite EQ in EC. unfold wide, curvature, pos in *.
    pose proof (Rmult_lt_0_compat _ _ P0 GD) as SD. destruct (scaled_curve' x c k yy 15 (s * q_D q) g (s * q_D q)) as (xs & ys & E & C); try lra; try lia.
    pose proof (eq_trans (eq_sym E) EC) as EE. assert (xs = y) by congruence. assert (ys = p) by (apply SOME; congruence). subst xs ys.
    apply (pisa_resists _ _ _ _ _ _ _ C); auto; apply Rmult_lt_0_compat; auto; [lra|apply Rdiv_lt_0_compat; auto].
Qed.

Lemma py_spring_resists : forall m u q y p, (forall i, 0 <= u i < 1) -> good_place q -> admissible m q 15 -> 0 < q_sig q -> 0 < q_X q ->
  0 < at_X (p_multiplier m) (q_X q) -> 0 < at_X (y_multiplier m) (q_X q) -> py_spring_fct m u q 0 15 = Ok (y, map Some p) -> 0 < nth 1 y 0 /\ resisting p.
Proof.
  intros m u q y p U G A PS PX HP HY E. unfold py_spring_fct in E. rewrite inside_ok in E by apply (g_depth q G).
  destruct (py_curve_ok m u q 0 15 U G A ltac:(lra) ltac:(lia)) as (y0 & p0 & EC & _). rewrite EC in E. cbn [bind] in E. rewrite scaled_numbers in E.
  assert (EY : y = map (fun v => v * at_X (y_multiplier m) (q_X q)) y0) by congruence.
  assert (EP : p = map (fun v => v * at_X (p_multiplier m) (q_X q)) p0). { assert (EP : map Some p = map Some (map (fun v => v * at_X (p_multiplier m) (q_X q)) p0)) by congruence. apply (f_equal plain) in EP. rewrite !plain_some in EP. exact EP. }
  destruct (py_curve_resists m u q y0 p0 U G A PS PX EC) as [Y1 R]. subst y p. rewrite nth_scale. split; [apply Rmult_lt_0_compat; auto|].
  intros i I. rewrite nth_scale. apply Rmult_lt_0_compat; auto.
Qed.
