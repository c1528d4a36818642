(** The first step of the spring curves of the lateral soil models: either the whole curve stays at zero, or its second
    point is at a positive displacement. *)
From Coq Require Import Reals Lra Lia List Bool Arith Permutation.
From Verif Require Import Base ConicModel ConicSpec ConicProofs PisaModel PisaSpec PisaProofs PisaProps ApiSandModel ApiSandProofs ApiClayModel ApiClayProofs
  ReeseModel ReeseProofs AxialModel AxialSpec AxialProofs AxialProps LateralModel LateralSpec LateralProofs MomentProofs LateralProps.
Import ListNotations.
Local Open Scope R_scope.

Definition moves (y : list R) : Prop := (forall v, In v y -> v = 0) \/ 0 < nth 1 y 0.

Lemma moves_scale : forall c y, 0 <= c -> moves y -> moves (map (fun v => v * c) y).
Proof.
  intros c y C H. destruct C as [C|C].
  - destruct H as [H|H]; [left|right].
    + intros v I. apply in_map_iff in I. destruct I as (w & <- & I). rewrite (H w I). ring.
    + rewrite nth_scale. apply Rmult_lt_0_compat; auto.
  - left. intros v I. apply in_map_iff in I. destruct I as (w & <- & _). subst c. ring.
Qed.

(** ** PISA *)
Lemma scaled_start : forall xu n k yu m num g sc xs ys, 0 < xu -> 0 <= num -> 0 < g -> scaled (conic xu n k yu m) num g sc = Ok (xs, ys) ->
  (num = 0 -> forall v, In v xs -> v = 0) /\ (0 < num -> nth 1 xs 0 = 2/100 * xu * (num / g)).
Proof.
  intros xu n k yu m num g sc xs ys X N G E. unfold scaled in E. destruct (conic xu n k yu m) as [[x y]|] eqn:C; [|discriminate]. cbn [bind] in E.
  unfold nonzero in E. destruct (Req_EM_T g 0); [lra|]. cbn [fst snd] in E. assert (EX : xs = map (fun v => v * (num / g)) x) by congruence.
  assert (CX : x = conic_x xu m).
  { unfold conic in C. destruct (Req_EM_T xu 0); [discriminate|]. destruct (Nat.ltb m 5); [discriminate|]. destruct (mapM _ _); [|discriminate]. cbn [bind] in C. congruence. }
  subst x xs. split.
  - intros -> v I. apply in_map_iff in I. destruct I as (w & <- & _). unfold Rdiv. ring.
  - intros _. rewrite nth_scale. unfold conic_x. cbn [map app nth]. reflexivity.
Qed.
Lemma scaled_moves : forall xu n k yu m num g sc xs ys, 0 < xu -> 0 <= num -> 0 < g -> scaled (conic xu n k yu m) num g sc = Ok (xs, ys) -> moves xs.
Proof.
  intros xu n k yu m num g sc xs ys X N G E. destruct (scaled_start _ _ _ _ _ _ _ _ _ _ X N G E) as [A B]. destruct N as [N|N]; [right|left; auto].
  rewrite (B N). apply Rmult_lt_0_compat; [lra|]. apply Rdiv_lt_0_compat; auto.
Qed.
Lemma nonzero_ok : forall A d (r : res A) v, nonzero d r = Ok v -> r = Ok v.
Proof. intros A d r v. unfold nonzero. destruct (Req_EM_T d 0); [discriminate|auto]. Qed.

(** ** API clay *)
Lemma rsort_start : forall l, l <> [] -> (forall v, In v l -> 0 < v) -> 0 < nth 1 (rsort (0 :: l)) 0.
Proof.
  intros l N P. cbn [rsort]. destruct (rsort l) as [|a t] eqn:E.
  - exfalso. apply N. apply length_zero_iff_nil. rewrite <- rsort_length, E. reflexivity.
  - assert (0 < a) by (apply P; apply rsort_in; rewrite E; left; auto). cbn [rinsert]. destruct (Rle_dec 0 a); [|lra]. exact H.
Qed.
Lemma clay_grid_start : forall ymax g added n, 0 < ymax -> (forall v, In v g -> 0 < v) -> (forall i, 0 < added i) -> (S (length g) < n)%nat ->
  0 < nth 1 (clay_grid ymax (0 :: g) added n) 0.
Proof.
  intros ymax g added n Y G A N. unfold clay_grid. cbn [filter]. destruct (Rle_dec 0 ymax); [|lra]. cbn [app].
  set (kept := filter (fun v => if Rle_dec v ymax then true else false) g).
  assert (LK : (length kept <= length g)%nat) by (unfold kept; clear; induction g as [|a t IH]; [cbn; lia|]; cbn; destruct (Rle_dec a ymax); cbn; lia).
  apply rsort_start.
  - cbn [length]. destruct (n - S (length kept))%nat eqn:E; [lia|]. intros Z. apply (f_equal (@length R)) in Z. rewrite app_length, map_length, seq_length in Z. cbn in Z. lia.
  - intros v I. apply in_app_iff in I. destruct I as [I|I].
    + apply filter_In in I. apply G. tauto.
    + apply in_map_iff in I. destruct I as (i & <- & _). apply A.
Qed.

Lemma py_curve_moves : forall m u q y p, (forall i, 0 <= u i < 1) -> good_place q -> admissible m q 15 -> py_curve m u q 0 15 = Ok (y, p) -> moves y.
Proof.
  intros m u q y p U G A E. pose proof G as [G1 G2 GD GS GX].
  destruct m; cbn [admissible] in A; cbn [py_curve] in E; unfold value, custom_value in *.
  - destruct A as (A1 & A2 & A3). destruct (value_in _ _ _ _ pos_convex A1 G1 G2) as (s & E1 & P1). destruct (value_in _ _ _ _ pos_convex A2 G1 G2) as (g & E2 & P2).
    rewrite E1, E2 in E. cbn [bind] in E. unfold pos in *. apply nonzero_ok in E. eapply scaled_moves; [| | |exact E]; try lra. apply Rmult_le_pos; lra.
  - destruct A as (A1 & A2 & A3). destruct (value_in _ _ _ _ pos_convex A1 G1 G2) as (s & E1 & P1). destruct (value_in _ _ _ _ pos_convex A2 G1 G2) as (g & E2 & P2).
    rewrite E1, E2 in E. cbn [bind] in E. unfold pos in *. apply nonzero_ok in E. eapply scaled_moves; [| | |exact E]; try lra. apply Rmult_le_pos; lra.
  - destruct A as (A1 & A2 & A3 & A4 & A5). destruct (value_in _ _ _ _ density_convex A1 G1 G2) as (s & E1 & P1). destruct (value_in _ _ _ _ pos_convex A2 G1 G2) as (g & E2 & P2).
    rewrite E1, E2 in E. cbn [bind] in E. unfold pos, density in *. apply nonzero_ok in E. apply nonzero_ok in E. eapply scaled_moves; [| | |exact E]; try lra. apply Rmult_le_pos; lra.
  - destruct A as (A1 & A2). destruct (value_in _ _ _ _ (within_convex 15 45) A1 G1 G2) as (s & E1 & P1). rewrite E1 in E. cbn [bind] in E.
    destruct (subgrade s k modif q) as [kk|] eqn:Ek; [|discriminate]. cbn [bind] in E. unfold within in P1.
    assert (Pk : 0 <= kk).
    { unfold subgrade, value in Ek. assert (V : exists v, match k with Some p => in_layer p (q_depth q) (q_height q) | None => Ok 0 end = Ok v /\ 0 <= v).
      { destruct k as [p'|]; [destruct (value_in _ _ _ _ pos_convex A2 G1 G2) as (v & E' & P); exists v; unfold pos in P; split; [exact E'|lra]|exists 0; split; [reflexivity|lra]]. }
      destruct V as (v & E' & P). rewrite E' in Ek. cbn [bind] in Ek. injection Ek as <-. destruct modif as [[]|]; [apply kallehave_nonneg|apply sorensen_nonneg|exact P]. }
    rewrite api_sand_eq in E by (auto; lra). cbn [numbers bind fst snd] in E. assert (EY : y = linspace 0 (sand_ymax (q_sig q) (q_X q) s (q_D q) kind (q_wet q) kk 0) (Nat.max 8 15)) by congruence. subst y.
    pose proof (sand_ymax_pos (q_sig q) (q_X q) s (q_D q) kind (q_wet q) kk 0 ltac:(lra) ltac:(lra) GD Pk GS GX ltac:(lra)) as Y. right.
    rewrite linspace_nth by (cbn; lia). cbn [Nat.max Nat.sub]. rewrite Rplus_0_l, Rminus_0_r. apply Rmult_lt_0_compat; [exact Y|]. apply Rdiv_lt_0_compat; apply lt_0_INR; lia.
  - destruct A as (A1 & A2 & A3). destruct (value_in _ _ _ _ pos_convex A1 G1 G2) as (s & E1 & P1). destruct (value_in _ _ _ _ pos_convex A2 G1 G2) as (g & E2 & P2).
    rewrite E1, E2 in E. cbn [bind] in E. unfold pos, api_clay in *. destruct (clay_Xr _ _ _ _ _) as [Xr|]; [|discriminate]. cbn [bind] in E.
    destruct (mapM _ _) as [ps|]; [|discriminate]. cbn [bind numbers fst snd] in E.
    assert (Y : 0 < clay_y50 g (q_D q)) by (unfold clay_y50; apply Rmult_lt_0_compat; [lra|auto]). set (y50 := clay_y50 g (q_D q)) in *.
    assert (YM : clay_ymax y50 0 = 16 * y50) by (unfold clay_ymax; destruct (Req_EM_T 0 0); [reflexivity|lra]). rewrite YM in E.
    match type of E with Ok (?g, _) = _ => assert (EY : y = g) by congruence end. rewrite EY. right. apply clay_grid_start; [lra| | |cbn; lia].
    + intros v I. cbn in I. repeat (destruct I as [<-|I]; [lra|]). contradiction.
    + intros i. specialize (U i). assert (0 <= u i * (16 * y50 - 15 * y50)) by (apply Rmult_le_pos; lra). lra.
  - destruct A as (A1 & A2 & A3). destruct (value_in _ _ _ _ pos_convex A1 G1 G2) as (s & E1 & P1). destruct (value_in _ _ _ _ pos_convex A2 G1 G2) as (g & E2 & P2).
    rewrite E1, E2 in E. cbn [bind] in E. unfold pos, modified_Matlock in *. destruct (clay_Xr _ _ _ _ _) as [Xr|]; [|discriminate]. cbn [bind] in E.
    destruct (mapM _ _) as [ps|]; [|discriminate]. cbn [bind numbers fst snd] in E.
    assert (Y : 0 < clay_y50 g (q_D q)) by (unfold clay_y50; apply Rmult_lt_0_compat; [lra|auto]). set (y50 := clay_y50 g (q_D q)) in *.
    assert (YM : clay_ymax y50 0 = 16 * y50) by (unfold clay_ymax; destruct (Req_EM_T 0 0); [reflexivity|lra]). rewrite YM in E.
    match type of E with Ok (?g, _) = _ => assert (EY : y = g) by congruence end. rewrite EY. right. apply clay_grid_start; [lra| | |cbn; lia].
    + intros v I. cbn in I. repeat (destruct I as [<-|I]; [lra|]). contradiction.
    + intros i. specialize (U i). assert (0 <= u i * (8 - 0.01) * y50) by (apply Rmult_le_pos; [apply Rmult_le_pos; lra|lra]). lra.
  - destruct A as (A1 & A2 & A3 & A4 & A5). destruct (value_in _ _ _ _ pos_convex A1 G1 G2) as (s & E1 & P1). destruct (value_in _ _ _ _ pos_convex A2 G1 G2) as (g & E2 & P2).
    rewrite E1, E2 in E. cbn [bind] in E. unfold pos, reese_weakrock in *. cbv zeta in E.
    destruct (nonzero _ _) as [[ys ps]|] eqn:N; [|discriminate]. cbn [numbers bind fst snd] in E. assert (EY : y = ys) by congruence. subst ys.
    apply nonzero_ok in N. unfold nonzero in N at 1. destruct (Req_EM_T _ 0) as [|NZ]; [discriminate|].
    set (xr := q_X q + ztop) in *. set (Epy := s * Rmin 500 (100 + 400 * xr / (3 * q_D q))) in *.
    set (Pmax := Rmin (5.2 * reese_alpha RQD * g * q_D q) (reese_alpha RQD * g * q_D q * (1 + 1.4 * xr / q_D q))) in *.
    destruct (mapM _ _) as [ps'|]; [|discriminate]. cbn [bind] in N.
    match type of N with Ok (?g, _) = _ => assert (EY : y = g) by congruence end. rewrite EY. right.
    assert (XD : forall a, 0 <= a -> 0 <= a * xr / q_D q). { intros a Ha. apply Rmult_le_pos; [apply Rmult_le_pos; unfold xr; lra|left; apply Rinv_0_lt_compat; auto]. }
    assert (AL : 0 < reese_alpha RQD). { unfold reese_alpha. rewrite Rmin_right by lra. rewrite Rmax_left by lra. lra. }
    assert (PM : 0 < Pmax). { unfold Pmax. pose proof (XD 1.4 ltac:(lra)). 
      assert (0 < reese_alpha RQD * g * q_D q) by (apply Rmult_lt_0_compat; [apply Rmult_lt_0_compat|]; lra).
      apply Rmin_glb_lt; [lra|]. apply Rmult_lt_0_compat; lra. }
    assert (EP : 0 < Epy). { unfold Epy. apply Rmult_lt_0_compat; [auto|]. apply Rmin_glb_lt; [lra|]. assert (0 <= 400 * xr / (3 * q_D q)); [|lra]. apply Rmult_le_pos; [unfold xr; lra|left; apply Rinv_0_lt_compat; lra]. }
    assert (YR : 0 < k * q_D q) by (apply Rmult_lt_0_compat; lra).
    unfold reese_y. change (Nat.div (Nat.max 8 15) 2) with 7%nat. cbn [app].
    match goal with |- context [0 :: ?l1 ++ ?l2] => change (nth 1 (0 :: l1 ++ l2) 0) with (nth 0 (l1 ++ l2) 0) end.
    rewrite app_nth1 by (rewrite linspace_length; lia). match goal with |- 0 < nth 0 (linspace ?a ?b 7) 0 => destruct (linspace_ends a b 7 ltac:(lia)) as [-> _] end.
    unfold rpow at 1. destruct (Rlt_dec _ _) as [_|NL]; [apply exp_pos|]. exfalso. apply NL. apply Rdiv_lt_0_compat; [auto|].
    apply Rmult_lt_0_compat; [|auto]. apply Rmult_lt_0_compat; [lra|]. unfold rpow. destruct (Rlt_dec 0 (k * q_D q)); [apply exp_pos|lra].
  - destruct A as (A1 & A2 & A3). destruct (custom_value_in _ _ (q_depth q) (q_height q) (q_X q) pos_convex A1 G1 G2) as (g & E1 & P1). rewrite E1 in E. cbn [bind] in E.
    destruct (four_ok py q G A2 A3) as (x & c & k & yy & W & CV & PK & PY & RG & EQ). rewrite EQ in E. unfold wide, curvature, pos in *.
    eapply scaled_moves; [| | |exact E]; try lra. apply Rmult_le_pos; lra.
  - destruct A as (A0 & A1 & A2 & A3). destruct (custom_value_in _ _ (q_depth q) (q_height q) (q_X q) pos_convex A0 G1 G2) as (s & E0 & P0).
    destruct (custom_value_in _ _ (q_depth q) (q_height q) (q_X q) pos_convex A1 G1 G2) as (g & E1 & P1). rewrite E0, E1 in E. cbn [bind] in E.
    destruct (four_ok py q G A2 A3) as (x & c & k & yy & W & CV & PK & PY & RG & EQ). rewrite EQ in E. unfold wide, curvature, pos in *.
    eapply scaled_moves; [| | |exact E]; try lra. apply Rmult_le_pos; lra.
Qed.

Lemma py_spring_moves : forall m u q y p, (forall i, 0 <= u i < 1) -> good_place q -> admissible m q 15 -> 0 <= at_X (y_multiplier m) (q_X q) ->
  py_spring_fct m u q 0 15 = Ok (y, p) -> moves y.
Proof.
  intros m u q y p U G A HM E. unfold py_spring_fct in E. rewrite inside_ok in E by apply (g_depth q G). destruct (py_curve m u q 0 15) as [[y0 p0]|] eqn:C; [|discriminate].
  cbn [bind] in E. unfold scaled_by in E. cbn [fst snd] in E. assert (EY : y = map (fun v => v * at_X (y_multiplier m) (q_X q)) y0) by congruence. subst y.
  apply moves_scale; [exact HM|]. exact (py_curve_moves m u q y0 p0 U G A C).
Qed.

(** ** Base springs *)
Lemma scaled_base : forall xu n k yu m num g sc xs ys, 0 < xu -> 0 <= num -> (num = 0 -> sc = 0) -> 0 < g -> scaled (conic xu n k yu m) num g sc = Ok (xs, map Some ys) ->
  (forall v, In v ys -> v = 0) \/ 0 < nth 1 xs 0.
Proof.
  intros xu n k yu m num g sc xs ys X N Z G E. destruct (scaled_start _ _ _ _ _ _ _ _ _ _ X N G E) as [_ B]. destruct N as [N|N].
  - right. rewrite (B N). apply Rmult_lt_0_compat; [lra|]. apply Rdiv_lt_0_compat; auto.
  - left. symmetry in N. rewrite (Z N) in E. unfold scaled in E. destruct (conic xu n k yu m) as [[x y]|]; [|discriminate]. cbn [bind] in E. apply nonzero_ok in E. cbn [fst snd] in E.
    assert (EY : map (option_map (fun v => v * 0)) y = map Some ys) by congruence. intros v I. apply (in_map Some) in I. rewrite <- EY in I. apply in_map_iff in I. destruct I as ([w|] & E' & _); [|discriminate].
    cbn in E'. injection E' as <-. ring.
Qed.
Lemma base_start : forall m q ymax, good_place q -> base_admissible m q ->
  (forall y p, Hb_spring_fct m q ymax 15 = Ok (y, map Some p) -> (forall v, In v p -> v = 0) \/ 0 < nth 1 y 0) /\
  (forall y p, Mb_spring_fct m q ymax 15 = Ok (y, map Some p) -> (forall v, In v p -> v = 0) \/ 0 < nth 1 y 0).
Proof.
  intros m q ymax G A. pose proof G as [G1 G2 GD GS GX].
  assert (ZD : q_sig q * q_D q = 0 -> q_sig q * q_D q ^ 2 = 0). { intros Z. apply Rmult_integral in Z. destruct Z as [-> |Z]; [ring|lra]. }
  assert (ZM : q_sig q = 0 -> q_sig q * q_D q ^ 3 = 0) by (intros ->; ring).
  assert (NN : forall a, 0 <= a -> 0 <= a * q_D q) by (intros; apply Rmult_le_pos; lra).
  assert (NZ : forall a b, 0 < a -> a * q_D q = 0 -> b = 0). { intros a b Ha Z. pose proof (Rmult_lt_0_compat _ _ Ha GD). lra. }
  destruct m; cbn [base_admissible] in A; try contradiction; cbn [Hb_spring_fct Mb_spring_fct]; unfold value, custom_value in *; rewrite !inside_ok by lra.
  - destruct A as (A1 & A2 & A3). destruct (value_in _ _ _ _ pos_convex A1 G1 G2) as (s & E1 & P1). destruct (value_in _ _ _ _ pos_convex A2 G1 G2) as (g & E2 & P2).
    rewrite E1, E2. cbn [bind]. unfold pos in *. split; intros y p E; apply nonzero_ok in E; (eapply scaled_base; [| | | |exact E]); eauto; try lra.
    all: first [apply NN; lra|unfold Rdiv; rewrite !Rmult_0_l; lra].
  - destruct A as (A1 & A2 & A3). destruct (value_in _ _ _ _ pos_convex A1 G1 G2) as (s & E1 & P1). destruct (value_in _ _ _ _ pos_convex A2 G1 G2) as (g & E2 & P2).
    rewrite E1, E2. cbn [bind]. unfold pos in *. split; intros y p E; apply nonzero_ok in E; (eapply scaled_base; [| | | |exact E]); eauto; try lra.
    all: first [apply NN; lra|unfold Rdiv; rewrite !Rmult_0_l; lra].
  - destruct A as (A1 & A2 & A3). destruct (value_in _ _ _ _ density_convex A1 G1 G2) as (s & E1 & P1). destruct (value_in _ _ _ _ pos_convex A2 G1 G2) as (g & E2 & P2).
    rewrite E1, E2. cbn [bind]. unfold pos, density in *. split; intros y p E; apply nonzero_ok in E; (eapply scaled_base; [| | | |exact E]); eauto; try lra.
    replace ((0.1695 - 0.7018 * (s / 100)) * q_L q / q_D q) with ((0.1695 - 0.7018 * (s / 100)) * (q_L q / q_D q)) by (unfold Rdiv; ring).
    set (t := q_L q / q_D q). assert (T : 2 <= t <= 6).
    { unfold t. split; apply Rmult_le_reg_r with (q_D q); auto; unfold Rdiv; rewrite Rmult_assoc, Rinv_l by lra; lra. }
    set (d := s / 100). assert (D : 0 < d <= 1) by (unfold d; lra). nra.
  - destruct A as (A1 & A2 & A3 & A4 & A5). destruct (custom_value_in _ _ (q_depth q) (q_height q) (q_X q) pos_convex A1 G1 G2) as (g & E1 & P1). rewrite E1. cbn [bind]. unfold pos in P1.
    destruct (four_ok Hb q G A2 A3) as (x & c & k & yy & W & CV & PK & PY & RG & EQ). destruct (four_ok Mb q G A4 A5) as (x' & c' & k' & yy' & W' & CV' & PK' & PY' & RG' & EQ').
    unfold wide, pos in *. split; intros y p E; [rewrite EQ in E|rewrite EQ' in E]; (eapply scaled_base; [| | | |exact E]); eauto; lra.
  - destruct A as (A0 & A1 & A2 & A3 & A4 & A5). destruct (custom_value_in _ _ (q_depth q) (q_height q) (q_X q) pos_convex A0 G1 G2) as (s & E0 & P0).
    destruct (custom_value_in _ _ (q_depth q) (q_height q) (q_X q) pos_convex A1 G1 G2) as (g & E1 & P1). rewrite E0, E1. cbn [bind]. unfold pos in P0, P1.
    destruct (four_ok Hb q G A2 A3) as (x & c & k & yy & W & CV & PK & PY & RG & EQ). destruct (four_ok Mb q G A4 A5) as (x' & c' & k' & yy' & W' & CV' & PK' & PY' & RG' & EQ').
    unfold wide, pos in *. split; intros y p E; [rewrite EQ in E|rewrite EQ' in E]; (eapply scaled_base; [| | | |exact E]); eauto; try lra. apply NN. lra.
Qed.

(** ** Moment springs: all rows stay at zero rotation, or every row has its second point at a positive one *)
Definition rows_move (T : list (list R)) : Prop := (forall r, In r T -> forall v, In v r -> v = 0) \/ (forall r, In r T -> 0 < nth 1 r 0).

Lemma rows_move_scale : forall c T, 0 <= c -> rows_move T -> rows_move (map (map (fun v => v * c)) T).
Proof.
  intros c T C H. destruct C as [C|C].
  - destruct H as [H|H]; [left; intros r I v J|right; intros r I].
    + apply in_map_iff in I. destruct I as (r' & <- & I). apply in_map_iff in J. destruct J as (w & <- & J). rewrite (H r' I w J). ring.
    + apply in_map_iff in I. destruct I as (r' & <- & I). rewrite nth_scale. apply Rmult_lt_0_compat; auto.
  - left. intros r I v J. apply in_map_iff in I. destruct I as (r' & <- & I). apply in_map_iff in J. destruct J as (w & <- & _). subst c. ring.
Qed.
Lemma mapM_in : forall A B (f : A -> res B) l r b, mapM f l = Ok r -> In b r -> exists a, In a l /\ f a = Ok b.
Proof.
  intros A B f. induction l as [|a t IH]; intros r b E I; [cbn in E; injection E as <-; contradiction|].
  cbn [mapM] in E. destruct (f a) as [v|] eqn:F; [|discriminate]. cbn [bind] in E. destruct (mapM f t) as [w|]; [|discriminate]. cbn [bind] in E. injection E as <-.
  destruct I as [<-|I]; [exists a; split; [left; auto|auto]|]. destruct (IH w b eq_refl I) as (a' & J & E'). exists a'. split; [right; auto|auto].
Qed.
Lemma mt_rows_all : forall (P : list R -> Prop) n p row T M, length p = n -> mt_rows n p row = Ok (T, M) -> (forall v xs ys, In v p -> row v = Ok (xs, ys) -> P xs) -> forall r, In r T -> P r.
Proof.
  intros P n p row T M L E H r I. unfold mt_rows in E. rewrite <- L, firstn_all in E. destruct (mapM row p) as [cs|] eqn:C; [|discriminate]. cbn [bind] in E.
  rewrite Nat.ltb_irrefl, Nat.sub_diag in E. cbn [repeat] in E. rewrite !app_nil_r in E. assert (ET : T = map fst cs) by congruence. subst T.
  apply in_map_iff in I. destruct I as ([xs ys] & <- & I). destruct (mapM_in _ _ _ _ _ _ C I) as (v & J & E'). exact (H v xs ys J E').
Qed.
Lemma scaled_rows_move : forall xu num g p row T M n, 0 < xu -> 0 <= num -> 0 < g -> length p = n -> mt_rows n p row = Ok (T, M) ->
  (forall v xs ys, In v p -> row v = Ok (xs, ys) -> exists c k y m sc ys', scaled (conic xu c k y m) num g sc = Ok (xs, ys')) -> rows_move T.
Proof.
  intros xu num g p row T M n X N G L E H. assert (N' := N). destruct N as [N|N]; [right|left].
  - apply (mt_rows_all (fun xs => 0 < nth 1 xs 0) n p row T M L E). intros v xs ys I R. destruct (H v xs ys I R) as (c & k & y & m & sc & ys' & S0).
    destruct (scaled_start _ _ _ _ _ _ _ _ _ _ X N' G S0) as [A B]. rewrite (B N). apply Rmult_lt_0_compat; [lra|]. apply Rdiv_lt_0_compat; auto.
  - apply (mt_rows_all (fun xs => forall v, In v xs -> v = 0) n p row T M L E). intros v xs ys I R. destruct (H v xs ys I R) as (c & k & y & m & sc & ys' & S0).
    destruct (scaled_start _ _ _ _ _ _ _ _ _ _ X N' G S0) as [A B]. exact (A (eq_sym N)).
Qed.

Lemma pisa_moment_moves : forall m u idx q T M, (forall i, 0 <= u i < 1) -> good_place q -> moment_admissible m q 15 -> mt_curve m u idx q 0 15 = Ok (T, M) -> rows_move T.
Proof.
  intros m u idx q T M U G [A A'] E. pose proof G as [G1 G2 GD GS GX].
  destruct (py_curve_ok m u q 0 15 U G A ltac:(lra) ltac:(lia)) as (y & p & EP & (LY & LP & _ & _ & _ & PP) & _).
  assert (LM : length (map Some p) = 15%nat) by (rewrite map_length; exact LP).
  assert (XD : forall a, a * q_X q / q_D q = a * (q_X q / q_D q)) by (intros; unfold Rdiv; ring).
  destruct m; cbn [admissible] in A; try contradiction; cbn [py_curve] in EP; cbn [mt_curve] in E; unfold value, custom_value in *.
  - destruct A as (A1 & A2 & A3). destruct (value_in _ _ _ _ pos_convex A1 G1 G2) as (s & E1 & P1). destruct (value_in _ _ _ _ pos_convex A2 G1 G2) as (g & E2 & P2).
    rewrite E1, E2 in *. cbn [bind] in *. rewrite EP in E. cbn [bind snd] in E. unfold pos in *.
    assert (T1 : 0 <= q_X q / q_D q <= 6). { split; [apply Rmult_le_pos; [auto|left; apply Rinv_0_lt_compat; auto]|]. apply Rmult_le_reg_r with (q_D q); auto. unfold Rdiv. rewrite Rmult_assoc, Rinv_l by lra. lra. }
    eapply scaled_rows_move; [| | |exact LM|exact E|].
    4:{ intros v xs ys _ R. unfold mt_bothkennar in R. apply nonzero_ok in R. cbv zeta in R. apply nonzero_ok in R. do 6 eexists. exact R. }
    + apply Rdiv_lt_0_compat; rewrite XD; lra.
    + lra.
    + lra.
  - destruct A as (A1 & A2 & A3). destruct (value_in _ _ _ _ pos_convex A1 G1 G2) as (s & E1 & P1). destruct (value_in _ _ _ _ pos_convex A2 G1 G2) as (g & E2 & P2).
    rewrite E1, E2 in *. cbn [bind] in *. rewrite EP in E. cbn [bind snd] in E. unfold pos in *.
    assert (T1 : 0 <= q_X q / q_D q <= 5.89). { split; [apply Rmult_le_pos; [auto|left; apply Rinv_0_lt_compat; auto]|]. apply Rmult_le_reg_r with (q_D q); auto. unfold Rdiv. rewrite Rmult_assoc, Rinv_l by lra. lra. }
    eapply scaled_rows_move; [| | |exact LM|exact E|].
    4:{ intros v xs ys _ R. unfold mt_cowden in R. apply nonzero_ok in R. cbv zeta in R. apply nonzero_ok in R. do 6 eexists. exact R. }
    + apply Rdiv_lt_0_compat; rewrite XD; lra.
    + lra.
    + lra.
  - destruct A as (A1 & A2 & A3 & A4 & A5). destruct (value_in _ _ _ _ density_convex A1 G1 G2) as (s & E1 & P1). destruct (value_in _ _ _ _ pos_convex A2 G1 G2) as (g & E2 & P2).
    specialize (A' s E1). rewrite E1, E2 in *. cbn [bind] in *. rewrite EP in E. cbn [bind snd] in E. unfold pos, density in *.
    eapply scaled_rows_move; [| | |exact LM|exact E|].
    4:{ intros v xs ys I R. apply in_map_iff in I. destruct I as (pv & <- & I). cbn [of_p] in R. unfold mt_dunkirk in R. cbv zeta in R. do 3 apply nonzero_ok in R. do 6 eexists. exact R. }
    + apply Rdiv_lt_0_compat; [|unfold Rdiv; rewrite !Rmult_0_l; lra].
      replace ((-0.1989 + 0.2019 * (s / 100)) * q_X q / q_L q) with ((-0.1989 + 0.2019 * (s / 100)) * (q_X q / q_L q)) by (unfold Rdiv; ring). lra.
    + lra.
    + lra.
  - destruct A as (A1 & A2 & A3). destruct A' as (B1 & B2). destruct (custom_value_in _ _ (q_depth q) (q_height q) (q_X q) pos_convex A1 G1 G2) as (g & E1 & P1). rewrite E1 in *. cbn [bind] in *. rewrite EP in E. cbn [bind snd] in E. unfold pos in P1.
    destruct (four_ok mt q G B1 B2) as (x & c & k & yy & WD & CV & PK & PY & RG & EQ). unfold wide in *.
    eapply scaled_rows_move; [| | |exact LM|exact E|].
    4:{ intros v xs ys I R. apply in_map_iff in I. destruct I as (pv & <- & I). cbn [of_p] in R. rewrite EQ in R. do 6 eexists. exact R. }
    + lra.
    + lra.
    + lra.
  - destruct A as (A0 & A1 & A2 & A3). destruct A' as (B1 & B2). destruct (custom_value_in _ _ (q_depth q) (q_height q) (q_X q) pos_convex A0 G1 G2) as (s & E0 & P0).
    destruct (custom_value_in _ _ (q_depth q) (q_height q) (q_X q) pos_convex A1 G1 G2) as (g & E1 & P1). rewrite E0, E1 in *. cbn [bind] in *. rewrite EP in E. cbn [bind snd] in E. unfold pos in P0, P1.
    destruct (four_ok mt q G B1 B2) as (x & c & k & yy & WD & CV & PK & PY & RG & EQ). unfold wide in *.
    eapply scaled_rows_move; [| | |exact LM|exact E|].
    4:{ intros v xs ys _ R. rewrite EQ in R. do 6 eexists. exact R. }
    + lra.
    + lra.
    + lra.
Qed.

(** The classical models with the extension, and the PISA models *)
Definition moment_usable (m : lateral_model) (q : place) (n : nat) : Prop :=
  match m with
  | API_sand _ _ _ _ _ _ _ | API_clay _ _ _ _ _ _ _ | Modified_Matlock_clay _ _ _ _ _ _ _ => admissible m q n
  | _ => moment_admissible m q n
  end.
Definition sorted_draw (m : lateral_model) (u : nat -> R) (idx : list nat) : Prop :=
  match m with
  | API_sand _ _ _ _ _ _ _ => argsort (sand_backbone_z u 15) idx
  | API_clay _ _ _ _ _ _ _ | Modified_Matlock_clay _ _ _ _ _ _ _ => argsort (clay_backbone_z u 15) idx
  | _ => True
  end.

Lemma in_rows : forall (T : list (list R)) r, In r T -> exists i, (i < length T)%nat /\ nth i T [] = r.
Proof. intros T r I. apply In_nth with (d := []) in I. exact I. Qed.

Lemma moment_springs : forall m u idx q, (forall i, 0 <= u i < 1) -> good_place q -> moment_usable m q 15 -> sorted_draw m u idx ->
  0 <= at_X (p_multiplier m) (q_X q) -> 0 <= at_X (m_multiplier m) (q_X q) -> 0 <= at_X (t_multiplier m) (q_X q) ->
  exists T M, mt_spring_fct m u idx q 0 15 = Ok (T, map (map Some) M) /\ length T = 15%nat /\ length M = 15%nat /\
    (forall i, (i < 15)%nat -> spring_curve 15 (nth i T []) (nth i M [])) /\ rows_move T.
Proof.
  intros m u idx q U G A SD HP HM HT.
  assert (PISA : moment_admissible m q 15 -> exists T M, mt_spring_fct m u idx q 0 15 = Ok (T, map (map Some) M) /\ length T = 15%nat /\ length M = 15%nat /\
    (forall i, (i < 15)%nat -> spring_curve 15 (nth i T []) (nth i M [])) /\ rows_move T).
  { intros MA. destruct (C68_moment_springs_partial m u idx q 0 15 U G MA ltac:(lra) ltac:(lia) HM HT) as (T & M & E & L1 & L2 & H).
    exists T, M. split; [exact E|]. split; [exact L1|]. split; [exact L2|]. split; [intros i Hi; apply (H i Hi)|].
    assert (NR : mt_spring_fct m u idx q 0 15 = inside_layer q (bind (mt_curve m u idx q 0 15) (fun c => Ok (scaled_rows (at_X (t_multiplier m) (q_X q)) (at_X (m_multiplier m) (q_X q)) c)))).
    { destruct m; try reflexivity. destruct MA as [_ []]. }
    rewrite NR, inside_ok in E by apply (g_depth q G). destruct (mt_curve m u idx q 0 15) as [[T0 M0]|] eqn:C; [|discriminate]. cbn [bind] in E. unfold scaled_rows in E. cbn [fst snd] in E.
    assert (ET : T = map (map (fun v => v * at_X (t_multiplier m) (q_X q))) T0) by congruence. subst T. apply rows_move_scale; [exact HT|]. exact (pisa_moment_moves m u idx q T0 M0 U G MA C). }
  assert (AT : forall x, 0 < x -> 0 < atan x) by (intros x X; rewrite <- atan_0; apply atan_increasing; exact X).
  destruct m; try (apply PISA; exact A); clear PISA; cbn [moment_usable sorted_draw] in A, SD.
  - pose proof (C73_sand_moment phi kind k modif extension pm ym u idx q 0 15 U G ltac:(lra) A HP SD ltac:(lia)) as C. cbv zeta in C.
    destruct C as (s & _ & y & p & T & M & E1 & E2 & LP & L1 & L2 & H). exists T, M. split; [exact E2|]. split; [exact L1|]. split; [exact L2|]. split.
    + intros i Hi. destruct (H i Hi) as (B1 & B2 & B3 & B4 & B5 & B6 & _). do 5 (split; [assumption|]). apply nd_nonneg; auto.
    + right. intros r I. destruct (in_rows T r I) as (i & Hi & <-). rewrite L1 in Hi. destruct (H i Hi) as (_ & _ & _ & _ & _ & _ & _ & B & _). rewrite B. apply AT. apply Rdiv_lt_0_compat; [lra|]. pose proof (g_D q G). lra.
  - destruct A as (A1 & A2 & A3). pose proof (C73_clay_moment (API_clay Su eps50 kind J extension pm ym) Su u idx q 0 15 eq_refl U G A1 SD ltac:(lia)) as C. cbv zeta in C.
    destruct C as (s & _ & T & M & E2 & L1 & L2 & H). exists T, M. split; [exact E2|]. split; [exact L1|]. split; [exact L2|]. split; [intros i Hi; apply (H i Hi)|].
    right. intros r I. destruct (in_rows T r I) as (i & Hi & <-). rewrite L1 in Hi. destruct (H i Hi) as (_ & _ & _ & B & _). rewrite B. apply AT. lra.
  - destruct A as (A1 & A2 & A3). pose proof (C73_clay_moment (Modified_Matlock_clay Su eps50 kind J extension pm ym) Su u idx q 0 15 eq_refl U G A1 SD ltac:(lia)) as C. cbv zeta in C.
    destruct C as (s & _ & T & M & E2 & L1 & L2 & H). exists T, M. split; [exact E2|]. split; [exact L1|]. split; [exact L2|]. split; [intros i Hi; apply (H i Hi)|].
    right. intros r I. destruct (in_rows T r I) as (i & Hi & <-). rewrite L1 in Hi. destruct (H i Hi) as (_ & _ & _ & B & _). rewrite B. apply AT. lra.
Qed.
