(** Property C128, continued: base springs and moment springs in soil that is no weaker. *)
From Coq Require Import Reals Lra Lia List Bool Arith Permutation.
From Verif Require Import Base ConicModel ConicSpec ConicProofs ConicProps PisaModel PisaSpec PisaProofs PisaProps ApiSandModel ApiSandSpec ApiSandProofs ApiClayModel ApiClaySpec
  ReeseProofs AxialModel LateralModel LateralSpec LateralProofs MomentProofs LateralProps FirmSpec FirmProofs FirmLateralProofs FirmBaseProofs.
Import ListNotations.
Local Open Scope R_scope.

(** Base shear and base moment of all five PISA models. *)
Theorem C128_base_springs : forall m m' q q' ymax, good_place q -> good_place q' -> base_admissible m q -> base_admissible m' q' -> firmer_base m m' q -> no_shallower q q' ->
  (exists y p y' p', Hb_spring_fct m q ymax 15 = Ok (y, map Some p) /\ Hb_spring_fct m' q' ymax 15 = Ok (y', map Some p') /\ outdone y p y' p') /\
  (exists t M t' M', Mb_spring_fct m q ymax 15 = Ok (t, map Some M) /\ Mb_spring_fct m' q' ymax 15 = Ok (t', map Some M') /\ outdone t M t' M').
Proof. exact base_firmer. Qed.
Print Assumptions C128_base_springs.

(** ** Moment springs in sand *)
Lemma narrow_value : forall yu r, 0 < yu -> 0 < r -> 1/100 <= yu / 17 * (1 - r) -> conic_point (yu / 17) 0 (Rmax (yu / (yu / 17)) 17) yu (r * (yu / 17)) = Ok (Some (r * yu)).
Proof.
  intros yu r Y R0 R1. assert (R2 : r < 1) by nra. unfold conic_point. replace (yu / (yu / 17)) with 17 by (field; lra). rewrite Rmax_left by lra.
  destruct (Rlt_dec _ _) as [H|_]; [exfalso; rewrite Rabs_left1 in H by nra; nra|]. destruct (Rlt_dec _ _) as [_|N]; [|exfalso; apply N; nra]. destruct (Req_EM_T yu 0); [lra|]. cbv zeta.
  replace (2 * 0 * (r * (yu / 17)) / (yu / 17) - (1 - 0) * (1 + r * (yu / 17) * 17 / yu)) with (- (1 + r)) by (field; lra).
  replace (r * (yu / 17) * (17 / yu) * (1 - 0) - 0 * ((r * (yu / 17)) ^ 2 / (yu / 17) ^ 2)) with r by (field; lra).
  replace ((- (1 + r)) ^ 2 - 4 * (1 - 2 * 0) * r) with ((1 - r) * (1 - r)) by ring. destruct (Rlt_dec _ _) as [H|_]; [exfalso; assert (0 <= (1 - r) * (1 - r)) by (apply Rmult_le_pos; lra); lra|].
  rewrite sqrt_square by lra. destruct (Req_EM_T _ 0); [lra|]. do 2 f_equal. field. lra.
Qed.
Lemma snapped_value : forall yu r, 0 < yu -> r <= 1 -> yu / 17 * (1 - r) < 1/100 -> conic_point (yu / 17) 0 (Rmax (yu / (yu / 17)) 17) yu (r * (yu / 17)) = Ok (Some yu).
Proof. intros yu r Y R1 R2. unfold conic_point. destruct (Rlt_dec _ _) as [_|N]; [reflexivity|]. exfalso. apply N. rewrite Rabs_left1 by nra. lra. Qed.

Lemma mapM_nth : forall (A B : Type) (f : A -> res B) l r d d' i, mapM f l = Ok r -> (i < length l)%nat -> f (nth i l d) = Ok (nth i r d').
Proof.
  intros A B f l. induction l as [|a t IH]; intros r d d' i E H; [cbn in H; lia|]. cbn [mapM] in E. destruct (f a) as [b|] eqn:F; [|discriminate]. cbn [bind] in E. destruct (mapM f t) as [r0|] eqn:M; [|discriminate]. cbn [bind] in E.
  injection E as <-. destruct i as [|i]; [exact F|]. cbn [nth]. apply IH; [reflexivity|cbn in H; lia].
Qed.
Lemma grid_5_6 : forall x_u, nth 5 (conic_x x_u 15) 0 = 13/45 * x_u /\ nth 6 (conic_x x_u 15) 0 = 17/45 * x_u.
Proof. intros. unfold conic_x, linspace. cbn [Nat.sub map app nth seq]. cbn [INR]. split; field. Qed.
Lemma grid_length : forall x_u, length (conic_x x_u 15) = 15%nat.
Proof. reflexivity. Qed.

(** the curve just below the point where the ordinates are set to the ultimate value, and the first point past it *)
Lemma dunkirk_points : forall sig X Dr G0 p D L, 0 < D -> 0 < L -> 0 <= sig -> 0 < G0 ->
  let yu := 0.2605 + (-0.1989 + 0.2019 * (Dr / 100)) * (X / L) in 0.24 <= yu <= 0.27 ->
  exists xs ys, mt_dunkirk sig X Dr G0 p D L 15 = Ok (xs, map Some ys) /\
    In (13/45 * (yu / 17) * (sig / G0), 13/45 * yu * (Rabs p * D)) (combine xs ys) /\ In (17/45 * (yu / 17) * (sig / G0), yu * (Rabs p * D)) (combine xs ys).
Proof.
  intros sig X Dr G0 p D L HD HL HS HG yu YU. destruct (C43_mt_dunkirk_partial sig X Dr G0 p D L 15 HD HL HS HG ltac:(lia)) as (xs & ys & E & C); [fold yu; lra|]. exists xs, ys. split; [exact E|].
  destruct C as (LX & LY & _). unfold mt_dunkirk in E. cbv zeta in E. rewrite !nonzero_ok in E by lra. rewrite !(mulr _ X L) in E. fold yu in E. replace (17 + 0 * X / D) with 17 in E by (field; lra). rewrite ?nonzero_ok in E by lra.
  unfold scaled, conic in E. destruct (Req_EM_T (yu / 17) 0); [lra|]. cbn [Nat.ltb Nat.leb] in E. destruct (mapM _ (conic_x (yu / 17) 15)) as [l|] eqn:EM; [|discriminate]. cbn [bind fst snd] in E. rewrite nonzero_ok in E by lra.
  assert (EX : xs = map (fun v => v * (sig / G0)) (conic_x (yu / 17) 15)) by congruence. assert (EY : map Some ys = map (option_map (fun v => v * (Rabs p * D))) l) by congruence. clear E.
  destruct (grid_5_6 (yu / 17)) as [G5 G6].
  assert (P : forall i r w, (i < 15)%nat -> nth i (conic_x (yu / 17) 15) 0 = r * (yu / 17) -> conic_point (yu / 17) 0 (Rmax (yu / (yu / 17)) 17) yu (r * (yu / 17)) = Ok (Some w) -> In (r * (yu / 17) * (sig / G0), w * (Rabs p * D)) (combine xs ys)).
  { intros i r w I N V. pose proof (mapM_nth _ _ _ _ _ 0 (Some 0) i EM ltac:(rewrite grid_length; exact I)) as Q. rewrite N, V in Q.
    assert (NY : nth i ys 0 = w * (Rabs p * D)). { assert (T : nth i (map Some ys) (Some 0) = Some (w * (Rabs p * D))). { rewrite EY. change (Some 0) with (Some 0). rewrite nth_indep with (d' := option_map (fun v => v * (Rabs p * D)) (Some 0)). - rewrite map_nth. assert (nth i l (Some 0) = Some w) as -> by congruence. reflexivity. - rewrite <- EY, map_length. lia. } rewrite map_nth in T. congruence. }
    rewrite <- NY, <- N. replace (nth i (conic_x (yu / 17) 15) 0 * (sig / G0)) with (nth i xs 0) by (rewrite EX, nth_scale; reflexivity). rewrite <- (combine_nth xs ys i 0 0) by congruence. apply nth_In. rewrite combine_length, LX, LY. exact I. }
  split.
  - apply (P 5%nat (13/45) (13/45 * yu)); [lia|exact G5|]. apply narrow_value; lra.
  - apply (P 6%nat (17/45) yu); [lia|exact G6|]. apply snapped_value; lra.
Qed.

Lemma in_combine_scale : forall (f g : R -> R) a b v w, In (v, w) (combine a b) -> In (f v, g w) (combine (map f a) (map g b)).
Proof. intros f g a. induction a as [|x t IH]; intros [|y b] v w H; try contradiction. cbn [map combine] in *. destruct H as [E|H]; [injection E as <- <-; left; reflexivity|right; apply IH; exact H]. Qed.

Lemma sand_row : forall Dr G0 mu u idx sig X height depth D L wet ymax, good_place (mkPlace sig X height depth D L wet) -> moment_admissible (Dunkirk_sand (PNum Dr) (PNum G0) mu) (mkPlace sig X height depth D L wet) 15 ->
  let yu := 0.2605 + (-0.1989 + 0.2019 * (Dr / 100)) * (X / L) in let yp := 0.3667 + 25.89 * (Dr / 100) + (0.3375 - 8.9 * (Dr / 100)) * (X / L) in
  0.24 <= yu <= 0.27 -> 0 < sig ->
  exists T M, mt_spring_fct (Dunkirk_sand (PNum Dr) (PNum G0) mu) u idx (mkPlace sig X height depth D L wet) ymax 15 = Ok (T, map (map Some) M) /\ 0 < yp /\ 0 < G0 /\
    In (13/45 * (yu / 17) * (sig / G0) * at_X (mu_t mu) X, 13/45 * yu * (yp * (sig * D) * D) * at_X (mu_m mu) X) (combine (nth 14 T []) (nth 14 M [])) /\
    In (17/45 * (yu / 17) * (sig / G0) * at_X (mu_t mu) X, yu * (yp * (sig * D) * D) * at_X (mu_m mu) X) (combine (nth 14 T []) (nth 14 M [])).
Proof.
  intros Dr G0 mu u idx sig X height depth D L wet ymax G [A _] yu yp YU S0. pose proof G as [G1 G2 GD GS GX]. cbn [q_sig q_X q_height q_depth q_D q_L q_wet] in G1, G2, GD, GS, GX.
  cbn [admissible q_sig q_X q_height q_depth q_D q_L q_wet] in A. destruct A as (A1 & A2 & A3 & A4 & A5). destruct (value_in _ _ _ _ density_convex A1 G1 G2) as (s & E1 & P1).
  assert (VC : forall c, value (PNum c) (mkPlace sig X height depth D L wet) = Ok c). { intros c. unfold value, in_layer. cbn [top_bottom bind fst snd q_depth q_height]. rewrite at_depth_between by lra. f_equal. unfold LateralSpec.between. ring. }
  assert (s = Dr) as ->. { pose proof (VC Dr) as V. unfold value in V. cbn [q_depth q_height] in V. congruence. }
  destruct (value_in _ _ _ _ pos_convex A2 G1 G2) as (g & E2 & P2). assert (g = G0) as ->. { pose proof (VC G0) as V. unfold value in V. cbn [q_depth q_height] in V. congruence. }
  specialize (A5 Dr (VC Dr)). unfold pos, density in *. cbn [q_sig q_X q_height q_depth q_D q_L q_wet] in A5.
  destruct (C43_py_dunkirk_partial sig X Dr G0 D L 15) as (xs & ys & E3 & C); try lra; auto.
  destruct C as (_ & LY & _ & _ & _ & _ & _ & _ & LL & _). change (Nat.max 8 15) with 15%nat in LY. rewrite last_nth0, LY in LL. change (15 - 1)%nat with 14%nat in LL. fold yp in LL.
  assert (YP : 0 < yp). { destruct (frac01 X L 1) as [F0 F1]; try lra. assert (D0 : 0 <= Dr / 100 <= 1) by lra. assert (0 <= Dr / 100 * (1 - X / L)) by (apply Rmult_le_pos; lra). unfold yp. lra. }
  destruct (mt_rows_exist (fun v xs ys => forall p, v = Some p -> In (13/45 * (yu / 17) * (sig / G0), 13/45 * yu * (Rabs p * D)) (combine xs ys) /\ In (17/45 * (yu / 17) * (sig / G0), yu * (Rabs p * D)) (combine xs ys))
    (of_p (fun p => mt_dunkirk sig X Dr G0 p D L 15)) (map Some ys) 15) as (T & M & L1 & L2 & ER & HI); [rewrite map_length; exact LY| |].
  { intros v I. apply in_map_iff in I. destruct I as (p & <- & _). destruct (dunkirk_points sig X Dr G0 p D L GD ltac:(lra) GS ltac:(lra) YU) as (xs' & ys' & Q1 & Q2 & Q3). exists xs', ys'. split; [exact Q1|]. intros p' Ep. injection Ep as <-. auto. }
  exists (map (map (fun v => v * at_X (mu_t mu) X)) T), (map (map (fun v => v * at_X (mu_m mu) X)) M). split.
  { unfold mt_spring_fct. rewrite inside_ok by (cbn; lra). cbn [mt_curve q_sig q_X q_height q_depth q_D q_L q_wet t_multiplier m_multiplier]. rewrite !VC. cbn [bind]. rewrite E3. cbn [bind snd]. rewrite ER. cbn [bind]. rewrite scaled_rows_numbers. reflexivity. }
  split; [exact YP|]. split; [lra|]. rewrite !nth_rows. specialize (HI 14%nat ltac:(lia) (nth 14 ys 0)). rewrite nth_indep with (d' := Some 0) in HI by (rewrite map_length; lia). rewrite map_nth in HI. destruct (HI eq_refl) as [H1 H2].
  rewrite LL in H1, H2. rewrite Rabs_pos_eq in H1, H2 by (apply Rmult_le_pos; [lra|apply Rmult_le_pos; lra]).
  split; apply (in_combine_scale (fun v => v * at_X (mu_t mu) X) (fun v => v * at_X (mu_m mu) X)); assumption.
Qed.

(** In sand the moment curve of 15 points reaches its ultimate value too early: every ordinate within 0.01 of the ultimate rotation is set to it.  More vertical
    stress moves these points to larger rotations, so that at one rotation the sand under more stress resists less: here 17/13 times the stress, and 17/45 of the moment. *)
Theorem C128_moment_sand_refuted : forall Dr G0 mu u idx q ymax, good_place q -> moment_admissible (Dunkirk_sand (PNum Dr) (PNum G0) mu) q 15 ->
  0.24 <= 0.2605 + (-0.1989 + 0.2019 * (Dr / 100)) * (q_X q / q_L q) <= 0.27 -> 0 < q_sig q -> 0 < at_X (mu_m mu) (q_X q) -> 0 < at_X (mu_t mu) (q_X q) ->
  let m := Dunkirk_sand (PNum Dr) (PNum G0) mu in let q' := mkPlace (17/13 * q_sig q) (q_X q) (q_height q) (q_depth q) (q_D q) (q_L q) (q_wet q) in
  no_shallower q q' /\ exists T M T' M', mt_spring_fct m u idx q ymax 15 = Ok (T, map (map Some) M) /\ mt_spring_fct m u idx q' ymax 15 = Ok (T', map (map Some) M') /\
    exists v w, 0 < v /\ 0 < w /\ In (v, w) (combine (nth 14 T []) (nth 14 M [])) /\ In (v, 17/45 * w) (combine (nth 14 T' []) (nth 14 M' [])).
Proof.
  intros Dr G0 mu u idx [sig X height depth D L wet] ymax G A YU S0 M0 T0. cbn [q_sig q_X q_height q_depth q_D q_L q_wet] in *. pose proof G as [G1 G2 GD GS GX]. cbn [q_sig q_X q_height q_depth q_D q_L q_wet] in *.
  split; [unfold no_shallower; cbn; repeat split; lra|].
  destruct (sand_row Dr G0 mu u idx sig X height depth D L wet ymax G A YU S0) as (T & M & E & YP & PG & _ & H2).
  assert (G' : good_place (mkPlace (17 / 13 * sig) X height depth D L wet)) by (constructor; cbn; lra).
  destruct (sand_row Dr G0 mu u idx (17/13 * sig) X height depth D L wet ymax G' A YU ltac:(lra)) as (T' & M' & E' & _ & _ & H1' & _).
  set (yu := 0.2605 + (-0.1989 + 0.2019 * (Dr / 100)) * (X / L)) in *. set (yp := 0.3667 + 25.89 * (Dr / 100) + (0.3375 - 8.9 * (Dr / 100)) * (X / L)) in *. clearbody yu yp.
  exists T, M, T', M'. split; [exact E|]. split; [exact E'|]. eexists _, _. split; [|split; [|split; [exact H2|]]].
  - apply Rmult_lt_0_compat; [|exact T0]. apply Rmult_lt_0_compat; [lra|]. apply Rdiv_lt_0_compat; lra.
  - apply Rmult_lt_0_compat; [|exact M0]. apply Rmult_lt_0_compat; [lra|]. apply Rmult_lt_0_compat; [|lra]. apply Rmult_lt_0_compat; [lra|]. apply Rmult_lt_0_compat; lra.
  - match type of H1' with In (?a, ?b) _ => match goal with |- In (?c, ?d) _ => replace c with a; [replace d with b; [exact H1'|]|] end end.
    + field.
    + field. lra.
Qed.
Print Assumptions C128_moment_sand_refuted.

(** ** Moment springs in clay *)
(** Cowden clay down to three diameters, where the rotations of the moment curve are not too narrow *)
Definition firmer_moment (m m' : lateral_model) (q : place) : Prop :=
  match m, m' with
  | Bothkennar_clay Su G0 _, Bothkennar_clay Su' G0' _ => at_most Su Su' q /\ at_most G0 G0' q
  | Cowden_clay Su G0 _, Cowden_clay Su' G0' _ => at_most Su Su' q /\ at_most G0 G0' q /\ q_X q <= 3 * q_D q
  | Custom_pisa_clay Su G0 _ mt _ _ _, Custom_pisa_clay Su' G0' _ mt' _ _ _ => mt' = mt /\ at_most Su Su' q /\ at_most G0 G0' q /\ from (1/8) (f_X mt) q
  | _, _ => False
  end.
Lemma same_rows : forall p c, length p = 15%nat -> mt_rows 15 p (fun _ => Ok c) = Ok (map (fun _ => fst c) p, map (fun _ => snd c) p).
Proof. intros p c L. apply (mt_rows_ok 15 p (fun _ => Ok c) (fun _ => c)); auto. Qed.
Lemma nth_same : forall (A B : Type) (x d : B) (p : list A) i, (i < length p)%nat -> nth i (map (fun _ => x) p) d = x.
Proof. intros A B x d p. induction p as [|a t IH]; intros [|i] H; cbn in H |- *; try lia; auto. apply IH. lia. Qed.
(** the rows of a clay are all this curve *)
Definition row_of (m : lateral_model) (q : place) : res curve :=
  match m with
  | Bothkennar_clay Su G0 _ => bind (value Su q) (fun Su => bind (value G0 q) (fun G0 => mt_bothkennar (q_X q) Su G0 (q_D q) 15))
  | Cowden_clay Su G0 _ => bind (value Su q) (fun Su => bind (value G0 q) (fun G0 => mt_cowden (q_X q) Su G0 (q_D q) 15))
  | Custom_pisa_clay Su G0 _ mt _ _ _ => bind (custom_value Su q) (fun Su => bind (custom_value G0 q) (fun G0 => with_four mt q (fun X nn k Y => mt_custom_clay Su G0 (q_D q) X nn k Y 15)))
  | _ => Err ValueError
  end.
Definition pisa_clay (m : lateral_model) : Prop := match m with Bothkennar_clay _ _ _ | Cowden_clay _ _ _ | Custom_pisa_clay _ _ _ _ _ _ _ => True | _ => False end.
Lemma rows_are : forall m u idx q ymax, (forall i, 0 <= u i < 1) -> good_place q -> moment_admissible m q 15 -> 0 <= ymax -> pisa_clay m ->
  exists t M, row_of m q = Ok (t, map Some M) /\ mt_curve m u idx q ymax 15 = Ok (repeat t 15, map (map Some) (repeat M 15)) /\ spring_curve 15 t M /\ nondecreasing M.
Proof.
  intros m u idx q ymax U G A HY PC. destruct (moment_ok m u idx q ymax 15 U G A HY ltac:(lia)) as (y & p & T & M & EP & LP & EM & LT & LM & H & _).
  assert (RO : exists r, mt_curve m u idx q ymax 15 = mt_rows 15 (map Some p) (fun _ => r) /\ row_of m q = r).
  { destruct m; try contradiction; cbn [mt_curve py_curve row_of] in *.
    - destruct (value Su q); [cbn [bind] in *|discriminate]. destruct (value G0 q); [cbn [bind] in *|discriminate]. rewrite EP. cbn [bind snd]. eexists. split; reflexivity.
    - destruct (value Su q); [cbn [bind] in *|discriminate]. destruct (value G0 q); [cbn [bind] in *|discriminate]. rewrite EP. cbn [bind snd]. eexists. split; reflexivity.
    - destruct (custom_value Su q); [cbn [bind] in *|discriminate]. destruct (custom_value G0 q); [cbn [bind] in *|discriminate]. rewrite EP. cbn [bind snd]. eexists. split; reflexivity. }
  destruct RO as (r & E1 & E2). destruct r as [c|e].
  - rewrite E1, same_rows in EM by (rewrite map_length; exact LP). assert (ET : T = map (fun _ => fst c) (map Some p)) by congruence. assert (EMM : map (map Some) M = map (fun _ => snd c) (map Some p)) by congruence.
    assert (LC : snd c = map Some (nth 0 M [])). { pose proof (nth_same _ _ (snd c) [] (map Some p) 0) as N. rewrite map_length in N. rewrite <- EMM in N. rewrite <- N by lia. change ([] : list (option R)) with (map Some ([] : list R)) at 1. apply map_nth. }
    destruct (H 0%nat ltac:(lia)) as [C D]. rewrite ET, nth_same in C by (rewrite map_length; lia). exists (fst c), (nth 0 M []). destruct c as [t s]. cbn [fst snd] in *. rewrite <- LC. split; [exact E2|]. split; [|split; assumption].
    rewrite E1, same_rows by (rewrite map_length; exact LP). cbn [fst snd]. f_equal. rewrite !map_map. destruct p as [|? [|? [|? [|? [|? [|? [|? [|? [|? [|? [|? [|? [|? [|? [|? [|? ?]]]]]]]]]]]]]]]]; try discriminate LP. cbn [map repeat]. rewrite LC. reflexivity.
  - exfalso. rewrite E1 in EM. destruct p as [|a p]; [discriminate LP|]. cbn [map] in EM. unfold mt_rows in EM. cbn [firstn mapM bind] in EM. discriminate.
Qed.

Lemma row_firmer : forall m m' q q' c c', good_place q -> good_place q' -> moment_admissible m q 15 -> moment_admissible m' q' 15 -> firmer_moment m m' q -> no_shallower q q' -> row_of m q = Ok c -> row_of m' q' = Ok c' ->
  exists t M t' M', row_of m q = Ok (t, map Some M) /\ row_of m' q' = Ok (t', map Some M') /\ outdone t M t' M'.
Proof.
  intros m m' q q' c c' G G' [A B] [A' B'] F NS E E'. pose proof G as [G1 G2 GD GS GX]. pose proof G' as [G1' G2' GD' GS' _]. destruct NS as (HS & NX & NH & ND & Nd & NL & _).
  assert (D2 : 0 <= q_D q ^ 2) by (apply pow_le; lra).
  destruct m; destruct m'; cbn [firmer_moment] in F; try contradiction; cbn [LateralProofs.admissible] in A, A'; cbn [row_of] in *; unfold at_most, from in F; unfold value, custom_value in *; rewrite ?NX, ?NH, ?ND, ?Nd, ?NL in *.
  - destruct A as (A1 & A2 & A3), A' as (A1' & A2' & _), F as [F1 F2].
    destruct (value_in _ _ _ _ pos_convex A1 G1 G2) as (s & e1 & P1). destruct (value_in _ _ _ _ pos_convex A2 G1 G2) as (g & e2 & P2).
    destruct (value_in _ _ _ _ pos_convex A1' G1 G2) as (s' & e1' & P1'). destruct (value_in _ _ _ _ pos_convex A2' G1 G2) as (g' & e2' & P2').
    assert (L1 : s <= s') by (apply F1; apply (value_custom _ q); assumption). assert (L2 : g <= g') by (apply F2; apply (value_custom _ q); assumption).
    rewrite e1, e2 in *. rewrite e1', e2'. cbn [bind] in *. unfold pos, mt_bothkennar in *. cbv zeta in *. clear E'. rewrite !(mulr _ (q_X q) (q_D q)) in *. destruct (frac01 (q_X q) (q_D q) 6 GD GX A3) as [R0 R6]. set (r := q_X q / q_D q) in *.
    rewrite !nonzero_ok in * by lra. apply (moment_pair _ _ _ _ _ _ _ _ _ c); auto; try lra. apply PisaProofs.frac_ge; lra.
  - destruct A as (A1 & A2 & A3), A' as (A1' & A2' & _), F as (F1 & F2 & F3).
    destruct (value_in _ _ _ _ pos_convex A1 G1 G2) as (s & e1 & P1). destruct (value_in _ _ _ _ pos_convex A2 G1 G2) as (g & e2 & P2).
    destruct (value_in _ _ _ _ pos_convex A1' G1 G2) as (s' & e1' & P1'). destruct (value_in _ _ _ _ pos_convex A2' G1 G2) as (g' & e2' & P2').
    assert (L1 : s <= s') by (apply F1; apply (value_custom _ q); assumption). assert (L2 : g <= g') by (apply F2; apply (value_custom _ q); assumption).
    rewrite e1, e2 in *. rewrite e1', e2'. cbn [bind] in *. unfold pos, mt_cowden in *. cbv zeta in *. clear E'. rewrite !(mulr _ (q_X q) (q_D q)) in *. destruct (frac01 (q_X q) (q_D q) 3 GD GX F3) as [R0 R6]. set (r := q_X q / q_D q) in *.
    rewrite !nonzero_ok in * by lra. apply (moment_pair _ _ _ _ _ _ _ _ _ c); auto; try lra. apply PisaProofs.frac_ge; lra.
  - destruct A as (A0 & A1 & A2 & A3), A' as (A0' & A1' & _), F as (-> & F0 & F1 & F2), B as [B1 B2]. rewrite ?NX in *.
    destruct (custom_value_in _ _ (q_depth q) (q_height q) (q_X q) pos_convex A0 G1 G2) as (s & e0 & P0). destruct (custom_value_in _ _ (q_depth q) (q_height q) (q_X q) pos_convex A0' G1 G2) as (s' & e0' & P0').
    destruct (custom_value_in _ _ (q_depth q) (q_height q) (q_X q) pos_convex A1 G1 G2) as (g & e1 & P1). destruct (custom_value_in _ _ (q_depth q) (q_height q) (q_X q) pos_convex A1' G1 G2) as (g' & e1' & P1').
    assert (L0 : s <= s') by (apply F0; assumption). assert (L1 : g <= g') by (apply F1; assumption). rewrite e0, e1 in *. rewrite e0', e1'. cbn [bind] in *. unfold pos in *. clear E'.
    assert (W4 : forall f h, with_four f q' h = with_four f q h). { intros f h. unfold with_four, custom_value. rewrite NX, NH, ND. reflexivity. } rewrite !W4.
    destruct (four_ok mt _ G B1 B2) as (x & n & k & yy & W & CV & PK & PY & RG & EQ). pose proof (F2 x (four_X _ _ _ _ _ _ EQ)) as X8. rewrite !EQ in *. unfold curvature, pos, mt_custom_clay in *.
    apply (moment_pair _ _ _ _ _ _ _ _ _ c); auto; lra.
Qed.

(** In the PISA clays (Cowden clay down to three diameters) no row of the moment spring resists less where the clay is no weaker. *)
Theorem C128_moment_springs_partial : forall m m' u u' idx idx' q q' ymax, (forall i, 0 <= u i < 1) -> (forall i, 0 <= u' i < 1) -> good_place q -> good_place q' -> 0 <= ymax ->
  moment_admissible m q 15 -> moment_admissible m' q' 15 -> firmer_moment m m' q -> no_shallower q q' ->
  0 <= at_X (m_multiplier m) (q_X q) <= at_X (m_multiplier m') (q_X q) -> 0 < at_X (t_multiplier m') (q_X q) <= at_X (t_multiplier m) (q_X q) ->
  exists T M T' M', mt_spring_fct m u idx q ymax 15 = Ok (T, map (map Some) M) /\ mt_spring_fct m' u' idx' q' ymax 15 = Ok (T', map (map Some) M') /\
    length T = 15%nat /\ length M = 15%nat /\ length T' = 15%nat /\ length M' = 15%nat /\
    forall i, (i < 15)%nat -> outdone (nth i T []) (nth i M []) (nth i T' []) (nth i M' []).
Proof.
  intros m m' u u' idx idx' q q' ymax U U' G G' HY A A' F NS HM HT.
  assert (PC : pisa_clay m /\ pisa_clay m') by (destruct m; destruct m'; cbn in F |- *; try contradiction; split; exact Logic.I). destruct PC as [PC PC'].
  destruct (rows_are m u idx q ymax U G A HY PC) as (t & M & RO & E & C & D). destruct (rows_are m' u' idx' q' ymax U' G' A' HY PC') as (t' & M' & RO' & E' & C' & D').
  destruct (row_firmer m m' q q' _ _ G G' A A' F NS RO RO') as (t1 & M1 & t1' & M1' & Q & Q' & O). rewrite RO in Q. rewrite RO' in Q'.
  assert (SM : forall l l' : list R, map Some l = map Some l' -> l = l'). { induction l as [|a l IH]; intros [|a' l'] H; try discriminate; [reflexivity|]. injection H as -> H. f_equal. apply IH. exact H. }
  injection Q as <- Q. injection Q' as <- Q'. apply SM in Q. apply SM in Q'. subst M1 M1'.
  assert (NR : forall m0 u0 i0 q0, pisa_clay m0 -> q_depth q0 <= q_height q0 -> mt_spring_fct m0 u0 i0 q0 ymax 15 = bind (mt_curve m0 u0 i0 q0 ymax 15) (fun c => Ok (scaled_rows (at_X (t_multiplier m0) (q_X q0)) (at_X (m_multiplier m0) (q_X q0)) c))).
  { intros m0 u0 i0 q0 P0 H0. unfold mt_spring_fct. destruct m0; try contradiction; rewrite inside_ok by exact H0; reflexivity. }
  rewrite (NR m u idx q PC (proj2 (g_depth q G))), (NR m' u' idx' q' PC' (proj2 (g_depth q' G'))), E, E'. cbn [bind]. rewrite !scaled_rows_numbers. do 4 eexists. split; [reflexivity|]. split; [reflexivity|].
  do 4 (split; [reflexivity|]). intros i Hi. rewrite !nth_rows. assert (NI : forall (x : list R) k, (k < 15)%nat -> nth k (repeat x 15) [] = x). { intros x k K. apply (repeat_spec 15 x). apply nth_In. rewrite repeat_length. exact K. }
  rewrite !NI by exact Hi. destruct NS as (_ & NX & _). rewrite NX. apply outdone_scale; auto; try tauto.
  - destruct C' as (_ & _ & Z & _ & N & _). apply nd_nonneg; auto.
  - destruct C as (_ & _ & _ & _ & _ & P). exact P.
Qed.
Print Assumptions C128_moment_springs_partial.

(** ** Cases *)
(** The tip of a pile of 4 m and 16 m in Cowden clay and in custom clays, one of them 20% stronger *)
Example C128_base_case : let q := mkPlace 100 16 20 16 4 16 true in let q' := mkPlace 110 16 20 16 4 16 true in let mu := mkMults (MNum 1) (MNum 1) (MNum 1) (MNum 1) in
  let m := Cowden_clay (PList [50; 100]) (PNum 20000) mu in let m' := Cowden_clay (PList [60; 120]) (PNum 30000) mu in
  good_place q /\ good_place q' /\ base_admissible m q /\ base_admissible m' q' /\ firmer_base m m' q /\ no_shallower q q'.
Proof.
  cbv zeta. split; [constructor; cbn; lra|]. split; [constructor; cbn; lra|]. split; [cbn; unfold pos; repeat split; lra|]. split; [cbn; unfold pos; repeat split; lra|]. split; [|unfold no_shallower; cbn; repeat split; lra].
  assert (V : forall a b, custom_value (PList [a; b]) (mkPlace 100 16 20 16 4 16 true) = Ok ((1 - 16 / 20) * a + 16 / 20 * b)).
  { intros a b. unfold custom_value, at_current_depth, in_layer. cbn [top_bottom bind fst snd q_depth q_height]. rewrite at_depth_between by lra. reflexivity. }
  assert (W : forall a, custom_value (PNum a) (mkPlace 100 16 20 16 4 16 true) = Ok ((1 - 16 / 20) * a + 16 / 20 * a)).
  { intros a. unfold custom_value, at_current_depth, in_layer. cbn [top_bottom bind fst snd q_depth q_height]. rewrite at_depth_between by lra. reflexivity. }
  cbn [firmer_base]. split; intros v v' E E'; rewrite ?V, ?W in *; injection E as <-; injection E' as <-; lra.
Qed.
Example C128_moment_case : let mu := mkMults (MNum 1) (MNum 1) (MNum 1) (MNum 1) in let m := Cowden_clay (PList [50; 100]) (PNum 20000) mu in let m' := Cowden_clay (PList [60; 120]) (PNum 30000) mu in
  moment_admissible m case_place 15 /\ moment_admissible m' case_place 15 /\ firmer_moment m m' case_place.
Proof.
  cbv zeta. assert (V : forall a b, custom_value (PList [a; b]) case_place = Ok ((1 - 4 / 10) * a + 4 / 10 * b)).
  { intros a b. unfold custom_value, at_current_depth, in_layer, case_place. cbn [top_bottom bind fst snd q_depth q_height]. rewrite at_depth_between by lra. reflexivity. }
  assert (W : forall a, custom_value (PNum a) case_place = Ok ((1 - 4 / 10) * a + 4 / 10 * a)).
  { intros a. unfold custom_value, at_current_depth, in_layer, case_place. cbn [top_bottom bind fst snd q_depth q_height]. rewrite at_depth_between by lra. reflexivity. }
  split; [unfold moment_admissible; cbn; unfold pos; repeat split; lra|]. split; [unfold moment_admissible; cbn; unfold pos; repeat split; lra|].
  cbn [firmer_moment]. split; [|split; [|cbn; lra]]; intros v v' E E'; rewrite ?V, ?W in *; injection E as <-; injection E' as <-; lra.
Qed.
(** dense sand at 6 m of 16 m of depth *)
Example C128_moment_sand_case : moment_admissible (Dunkirk_sand (PNum 75) (PNum 50000) (mkMults (MNum 0) (MNum 1) (MNum 1) (MNum 1))) case_place 15 /\
  0.24 <= 0.2605 + (-0.1989 + 0.2019 * (75 / 100)) * (q_X case_place / q_L case_place) <= 0.27 /\ 0 < q_sig case_place.
Proof. destruct C74_case as [A B]. split; [exact A|]. split; [cbn; lra|exact B]. Qed.
