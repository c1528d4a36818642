(** Lemmas: the base springs and the moment springs of the lateral soil models in stronger soil. *)
From Coq Require Import Reals Lra Lia List Bool Arith Permutation.
From Verif Require Import Base ConicModel ConicSpec ConicProofs ConicProps PisaModel PisaSpec PisaProofs PisaProps ApiSandModel
  ReeseProofs AxialModel LateralModel LateralSpec LateralProofs MomentProofs FirmSpec FirmProofs FirmLateralProofs.
Import ListNotations.
Local Open Scope R_scope.

(** which base springs are compared: of the same kind, with no lower stiffness and strength; custom shapes are the same and not too narrow *)
Definition firmer_base (m m' : lateral_model) (q : place) : Prop :=
  match m, m' with
  | Bothkennar_clay Su G0 _, Bothkennar_clay Su' G0' _ | Cowden_clay Su G0 _, Cowden_clay Su' G0' _ => at_most Su Su' q /\ at_most G0 G0' q
  | Dunkirk_sand Dr G0 _, Dunkirk_sand Dr' G0' _ => Dr' = Dr /\ at_most G0 G0' q
  | Custom_pisa_sand G0 _ _ Hb Mb _, Custom_pisa_sand G0' _ _ Hb' Mb' _ => Hb' = Hb /\ Mb' = Mb /\ at_most G0 G0' q /\ from (1/8) (f_X Hb) q /\ from (1/8) (f_X Mb) q
  | Custom_pisa_clay Su G0 _ _ Hb Mb _, Custom_pisa_clay Su' G0' _ _ Hb' Mb' _ =>
      Hb' = Hb /\ Mb' = Mb /\ at_most Su Su' q /\ at_most G0 G0' q /\ from (1/8) (f_X Hb) q /\ from (1/8) (f_X Mb) q
  | _, _ => False
  end.

Lemma conic_pair : forall x_u n k y_u A A' B B' G0 G0' c, 1/8 <= x_u -> 0 < y_u -> 0 <= n < 1 -> 0 <= A -> 0 <= A' -> 0 <= B <= B' -> A' * B <= A * B' -> (A = 0 -> B = 0) -> 0 < G0 <= G0' ->
  scaled (conic x_u n k y_u 15) A G0 B = Ok c ->
  exists y p y' p', scaled (conic x_u n k y_u 15) A G0 B = Ok (y, map Some p) /\ scaled (conic x_u n k y_u 15) A' G0' B' = Ok (y', map Some p') /\ outdone y p y' p'.
Proof.
  intros x_u n k y_u A A' B B' G0 G0' c XU YU HN HA HA' HB HAB HZ HG E. assert (GAP : INR 15 / 80 <= x_u + 6/80) by (rewrite inr15; lra).
  assert (SR : samples_regular x_u n k y_u 15). { unfold scaled in E. destruct (conic x_u n k y_u 15) as [c0|e] eqn:Ec; cbn [bind] in E; [|discriminate]. apply (regular_of_ok _ _ _ _ _ c0); auto; [lra|lia]. }
  rewrite (conic_ok x_u n k y_u 15 ltac:(lra) YU (proj1 HN) (proj2 HN) ltac:(lia) SR) in *. unfold scaled. cbn [bind fst snd]. rewrite !nonzero_ok by lra.
  exists (map (fun v => v * (A / G0)) (conic_x x_u 15)), (map (fun v => v * B) (conic_y x_u n k y_u 15)), (map (fun v => v * (A' / G0')) (conic_x x_u 15)), (map (fun v => v * B') (conic_y x_u n k y_u 15)).
  split; [rewrite !map_map; reflexivity|]. split; [rewrite !map_map; reflexivity|]. assert (IG : 0 < / G0) by (apply Rinv_0_lt_compat; lra). assert (IG' : 0 < / G0') by (apply Rinv_0_lt_compat; lra).
  assert (IL : / G0' <= / G0) by (apply Rinv_le_contravar; lra). unfold conic_y. apply scaled_outdone; auto; try lia; try lra.
  - apply Rmult_le_pos; lra.
  - apply Rmult_le_pos; lra.
  - unfold Rdiv. replace (A' * / G0' * B) with (A' * B * / G0') by ring. replace (A * / G0 * B') with (A * B' * / G0) by ring.
    apply Rmult_le_compat; [apply Rmult_le_pos; lra|lra|exact HAB|exact IL].
  - intros Z. apply Rmult_integral in Z. destruct Z as [Z|Z]; [apply HZ; exact Z|lra].
Qed.
(** both axes in proportion to the same strength *)
Lemma strength_pair : forall x_u n k y_u s s' a b G0 G0' c, 1/8 <= x_u -> 0 < y_u -> 0 <= n < 1 -> 0 <= s <= s' -> 0 < a -> 0 <= b -> 0 < G0 <= G0' ->
  scaled (conic x_u n k y_u 15) (s * a) G0 (s * b) = Ok c ->
  exists y p y' p', scaled (conic x_u n k y_u 15) (s * a) G0 (s * b) = Ok (y, map Some p) /\ scaled (conic x_u n k y_u 15) (s' * a) G0' (s' * b) = Ok (y', map Some p') /\ outdone y p y' p'.
Proof.
  intros x_u n k y_u s s' a b G0 G0' c XU YU HN HS HA HB HG E. apply (conic_pair _ _ _ _ _ _ _ _ _ _ c); auto.
  - apply Rmult_le_pos; lra.
  - apply Rmult_le_pos; lra.
  - split; [apply Rmult_le_pos; lra|apply Rmult_le_compat_r; lra].
  - right. ring.
  - intros Z. apply Rmult_integral in Z. destruct Z as [Z|Z]; [rewrite Z; ring|lra].
Qed.
Lemma moment_pair : forall x_u n k y_u s s' b G0 G0' c, 1/8 <= x_u -> 0 < y_u -> 0 <= n < 1 -> 0 <= s <= s' -> 0 <= b -> 0 < G0 <= G0' ->
  scaled (conic x_u n k y_u 15) s G0 (s * b) = Ok c ->
  exists y p y' p', scaled (conic x_u n k y_u 15) s G0 (s * b) = Ok (y, map Some p) /\ scaled (conic x_u n k y_u 15) s' G0' (s' * b) = Ok (y', map Some p') /\ outdone y p y' p'.
Proof.
  intros x_u n k y_u s s' b G0 G0' c XU YU HN HS HB HG E. apply (conic_pair _ _ _ _ _ _ _ _ _ _ c); auto; try lra.
  - split; [apply Rmult_le_pos; lra|apply Rmult_le_compat_r; lra].
  - intros Z. rewrite Z. ring.
Qed.
Lemma four_X : forall f q x c k y, (forall h, with_four f q h = h x c k y) -> custom_value (f_X f) q = Ok x.
Proof.
  intros f q x c k y EQ. specialize (EQ (fun x _ _ _ => Ok ([x], []))). unfold with_four, custom_value in *. destruct (at_current_depth (f_X f) (q_depth q) (q_height q) (q_X q)); [|discriminate]. cbn [bind] in EQ.
  destruct (at_current_depth (f_n f) (q_depth q) (q_height q) (q_X q)); [|discriminate]. destruct (at_current_depth (f_k f) (q_depth q) (q_height q) (q_X q)); [|discriminate]. destruct (at_current_depth (f_Y f) (q_depth q) (q_height q) (q_X q)); [|discriminate]. cbn [bind] in EQ. injection EQ as ->. reflexivity.
Qed.

Lemma base_firmer : forall m m' q q' ymax, good_place q -> good_place q' -> base_admissible m q -> base_admissible m' q' -> firmer_base m m' q -> no_shallower q q' ->
  (exists y p y' p', Hb_spring_fct m q ymax 15 = Ok (y, map Some p) /\ Hb_spring_fct m' q' ymax 15 = Ok (y', map Some p') /\ outdone y p y' p') /\
  (exists t M t' M', Mb_spring_fct m q ymax 15 = Ok (t, map Some M) /\ Mb_spring_fct m' q' ymax 15 = Ok (t', map Some M') /\ outdone t M t' M').
Proof.
  intros m m' q q' ymax G G' A A' F NS.
  destruct (base_ok m q ymax 15 G A ltac:(lia)) as [(y0 & p0 & E0 & _) (t0 & M0 & E1 & _)].
  pose proof G as [G1 G2 GD GS GX]. pose proof G' as [G1' G2' GD' GS' _]. destruct NS as (HS & NX & NH & ND & Nd & NL & _).
  assert (D2 : 0 <= q_D q ^ 2) by (apply pow_le; lra). assert (D3 : 0 <= q_D q ^ 3) by (apply pow_le; lra).
  destruct m; destruct m'; cbn [firmer_base] in F; try contradiction; cbn [base_admissible] in A, A'; cbn [Hb_spring_fct Mb_spring_fct] in *; unfold at_most, from in F; rewrite inside_ok in E0, E1 by lra; rewrite !inside_ok by lra;
    unfold value, custom_value in *; rewrite ?NX, ?NH, ?ND, ?Nd, ?NL in *.
  - (* Bothkennar clay *)
    destruct A as (A1 & A2 & A3), A' as (A1' & A2' & _), F as [F1 F2].
    destruct (value_in _ _ _ _ pos_convex A1 G1 G2) as (s & e1 & P1). destruct (value_in _ _ _ _ pos_convex A2 G1 G2) as (g & e2 & P2).
    destruct (value_in _ _ _ _ pos_convex A1' G1 G2) as (s' & e1' & P1'). destruct (value_in _ _ _ _ pos_convex A2' G1 G2) as (g' & e2' & P2').
    assert (L1 : s <= s') by (apply F1; apply (value_custom _ q); assumption). assert (L2 : g <= g') by (apply F2; apply (value_custom _ q); assumption).
    rewrite e1, e2 in *. rewrite e1', e2'. cbn [bind] in *. unfold pos, Hb_bothkennar, Mb_bothkennar in *. rewrite !nonzero_ok in * by lra. revert E0 E1. rewrite !(mulr _ (q_L q) (q_D q)). intros E0 E1.
    destruct (frac01 (q_L q) (q_D q) 6 GD ltac:(lra) (proj2 A3)) as [_ R6]. pose proof (frac_ge (q_L q) (q_D q) 2 GD (proj1 A3)) as R2. set (r := q_L q / q_D q) in *.
    split; [apply (strength_pair _ _ _ _ _ _ _ _ _ _ (y0, map Some p0))|apply (moment_pair _ _ _ _ _ _ _ _ _ (t0, map Some M0))]; auto; lra.
  - (* Cowden clay *)
    destruct A as (A1 & A2 & A3), A' as (A1' & A2' & _), F as [F1 F2].
    destruct (value_in _ _ _ _ pos_convex A1 G1 G2) as (s & e1 & P1). destruct (value_in _ _ _ _ pos_convex A2 G1 G2) as (g & e2 & P2).
    destruct (value_in _ _ _ _ pos_convex A1' G1 G2) as (s' & e1' & P1'). destruct (value_in _ _ _ _ pos_convex A2' G1 G2) as (g' & e2' & P2').
    assert (L1 : s <= s') by (apply F1; apply (value_custom _ q); assumption). assert (L2 : g <= g') by (apply F2; apply (value_custom _ q); assumption).
    rewrite e1, e2 in *. rewrite e1', e2'. cbn [bind] in *. unfold pos, Hb_cowden, Mb_cowden in *. rewrite !nonzero_ok in * by lra. revert E0 E1. rewrite !(mulr _ (q_L q) (q_D q)). intros E0 E1.
    destruct (frac01 (q_L q) (q_D q) 6 GD ltac:(lra) (proj2 A3)) as [_ R6]. pose proof (frac_ge (q_L q) (q_D q) 2 GD (proj1 A3)) as R2. set (r := q_L q / q_D q) in *.
    split; [apply (strength_pair _ _ _ _ _ _ _ _ _ _ (y0, map Some p0))|apply (moment_pair _ _ _ _ _ _ _ _ _ (t0, map Some M0))]; auto; lra.
  - (* Dunkirk sand *)
    destruct A as (A1 & A2 & A3), A' as (A1' & A2' & _), F as [-> F2].
    destruct (value_in _ _ _ _ density_convex A1 G1 G2) as (s & e1 & P1). destruct (value_in _ _ _ _ pos_convex A2 G1 G2) as (g & e2 & P2). destruct (value_in _ _ _ _ pos_convex A2' G1 G2) as (g' & e2' & P2').
    assert (L2 : g <= g') by (apply F2; apply (value_custom _ q); assumption).
    rewrite e1, e2 in *. rewrite e2'. cbn [bind] in *. unfold pos, density, Hb_dunkirk, Mb_dunkirk in *. cbv zeta in *. rewrite !nonzero_ok in * by lra. revert E0 E1. rewrite !(mulr _ (q_L q) (q_D q)). intros E0 E1.
    destruct (frac01 (q_L q) (q_D q) 6 GD ltac:(lra) (proj2 A3)) as [_ R6]. pose proof (frac_ge (q_L q) (q_D q) 2 GD (proj1 A3)) as R2. set (r := q_L q / q_D q) in *.
    assert (d0 : 0 <= s / 100) by lra. assert (d1 : s / 100 <= 1) by lra. set (d := s / 100) in *.
    assert (B1 : 0 <= d * (6 - r)) by (apply Rmult_le_pos; lra). assert (B2 : 0 <= d * (r - 2)) by (apply Rmult_le_pos; lra).
    assert (B3 : 0 <= (1 - d) * (6 - r)) by (apply Rmult_le_pos; lra). assert (B4 : 0 <= (1 - d) * (r - 2)) by (apply Rmult_le_pos; lra).
    split; [apply (strength_pair _ _ _ _ _ _ _ _ _ _ (y0, map Some p0))|apply (moment_pair _ _ _ _ _ _ _ _ _ (t0, map Some M0))]; auto; lra.
  - (* custom PISA sand *)
    destruct A as (A1 & A2 & A3 & A4 & A5), A' as (A1' & _), F as (-> & -> & F1 & F2 & F3). cbv beta in F1. rewrite ?NX in *.
    destruct (custom_value_in _ _ (q_depth q) (q_height q) (q_X q) pos_convex A1 G1 G2) as (g & e1 & P1). destruct (custom_value_in _ _ (q_depth q) (q_height q) (q_X q) pos_convex A1' G1 G2) as (g' & e1' & P1').
    assert (L1 : g <= g') by (apply F1; assumption). rewrite e1 in *. rewrite e1'. cbn [bind] in *. unfold pos in *.
    assert (W4 : forall f h, with_four f q' h = with_four f q h). { intros f h. unfold with_four, custom_value. rewrite NX, NH, ND. reflexivity. } rewrite !W4.
    destruct (four_ok Hb _ G A2 A3) as (x & c & k & yy & W & CV & PK & PY & RG & EQ). destruct (four_ok Mb _ G A4 A5) as (x1 & c1 & k1 & yy1 & W1 & CV1 & PK1 & PY1 & RG1 & EQ1).
    pose proof (F2 x (four_X _ _ _ _ _ _ EQ)) as X8. pose proof (F3 x1 (four_X _ _ _ _ _ _ EQ1)) as X8'. rewrite !EQ, !EQ1 in *. unfold curvature, pos, Hb_custom_sand, Mb_custom_sand in *.
    split; [apply (strength_pair _ _ _ _ _ _ _ _ _ _ (y0, map Some p0))|apply (moment_pair _ _ _ _ _ _ _ _ _ (t0, map Some M0))]; auto; lra.
  - (* custom PISA clay *)
    destruct A as (A0 & A1 & A2 & A3 & A4 & A5), A' as (A0' & A1' & _), F as (-> & -> & F0 & F1 & F2 & F3). rewrite ?NX in *.
    destruct (custom_value_in _ _ (q_depth q) (q_height q) (q_X q) pos_convex A0 G1 G2) as (s & e0 & P0). destruct (custom_value_in _ _ (q_depth q) (q_height q) (q_X q) pos_convex A0' G1 G2) as (s' & e0' & P0').
    destruct (custom_value_in _ _ (q_depth q) (q_height q) (q_X q) pos_convex A1 G1 G2) as (g & e1 & P1). destruct (custom_value_in _ _ (q_depth q) (q_height q) (q_X q) pos_convex A1' G1 G2) as (g' & e1' & P1').
    assert (L0 : s <= s') by (apply F0; assumption). assert (L1 : g <= g') by (apply F1; assumption). rewrite e0, e1 in *. rewrite e0', e1'. cbn [bind] in *. unfold pos in *.
    assert (W4 : forall f h, with_four f q' h = with_four f q h). { intros f h. unfold with_four, custom_value. rewrite NX, NH, ND. reflexivity. } rewrite !W4.
    destruct (four_ok Hb _ G A2 A3) as (x & c & k & yy & W & CV & PK & PY & RG & EQ). destruct (four_ok Mb _ G A4 A5) as (x1 & c1 & k1 & yy1 & W1 & CV1 & PK1 & PY1 & RG1 & EQ1).
    pose proof (F2 x (four_X _ _ _ _ _ _ EQ)) as X8. pose proof (F3 x1 (four_X _ _ _ _ _ _ EQ1)) as X8'. rewrite !EQ, !EQ1 in *. unfold curvature, pos, Hb_custom_clay, Mb_custom_clay in *.
    split; [apply (strength_pair _ _ _ _ _ _ _ _ _ _ (y0, map Some p0))|apply (moment_pair _ _ _ _ _ _ _ _ _ (t0, map Some M0))]; auto; lra.
Qed.
