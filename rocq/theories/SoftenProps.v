(** C135: no reaction curve is stiffer than at first. *)
From Coq Require Import List Bool Arith Reals Lra Lia Psatz.
From Verif Require Import Base ConicModel ConicSpec ConicProofs PisaModel PisaSpec PisaProofs PisaProps ApiSandModel ApiSandSpec ApiSandProofs ApiClayModel ApiClaySpec ApiClayProofs ApiClayProps
  ReeseModel ReeseSpec ReeseProofs ReeseProps AxialModel AxialSpec AxialProofs AxialProps LateralModel LateralSpec LateralProofs MomentProofs LateralProps SoftenSpec SoftenProofs.
Import ListNotations.
Local Open Scope R_scope.

(** What the extent, the number of points and the parameters must be for the samples to follow the formula: the program
    replaces the resistance by the ultimate one within 0.01 of the ultimate normalised displacement. *)
Definition conic_fine (f : four) (q : place) (n : nat) : Prop := forall x, custom_value (f_X f) q = Ok x -> INR (n - 6) <= 80 * x.
Definition fine (m : lateral_model) (q : place) (ymax : R) (n : nat) : Prop :=
  match m with
  | Bothkennar_clay _ _ _ | Cowden_clay _ _ _ | Dunkirk_sand _ _ _ => (n <= 4000)%nat
  | API_sand _ _ _ _ _ _ _ => True
  | API_clay _ eps50 _ _ _ _ _ | Modified_Matlock_clay _ eps50 _ _ _ _ _ => forall e, value eps50 q = Ok e -> ymax = 0 \/ 0.25 * e * q_D q <= ymax
  | Reese_weakrock Ei qu RQD k ztop _ _ => forall E qu', value Ei q = Ok E -> value qu q = Ok qu' ->
      rock_ultimate qu' RQD (q_X q + ztop) (q_D q) <= 2 * Rpower (k * q_D q) 0.25 * rock_stiffness E (q_X q + ztop) (q_D q)
  | Custom_pisa_sand _ py _ _ _ _ | Custom_pisa_clay _ _ py _ _ _ _ => conic_fine py q n
  end.

Lemma numbers_inv : forall r y p, numbers r = Ok (y, map Some p) -> r = Ok (y, p).
Proof. intros [[y0 p0]|] y p H; cbn in H; [|discriminate]. injection H as -> H. apply map_Some_inj in H. congruence. Qed.

Lemma py_curve_softens : forall m u q ymax n y p, (forall i, 0 <= u i < 1) -> good_place q -> admissible m q n -> 0 <= ymax -> (8 <= n)%nat -> fine m q ymax n ->
  py_curve m u q ymax n = Ok (y, map Some p) -> softens y p.
Proof.
  intros m u q ymax n y p U G A HY N FN E. pose proof G as [G1 G2 GD GS GX].
  destruct m; cbn [admissible] in A; cbn [py_curve] in E; cbn [fine] in FN; unfold value, conic_fine, custom_value in *.
  - destruct A as (A1 & A2 & A3). destruct (value_in _ _ _ _ pos_convex A1 G1 G2) as (s & E1 & P1). destruct (value_in _ _ _ _ pos_convex A2 G1 G2) as (g & E2 & P2).
    rewrite E1, E2 in E. cbn [bind] in E. unfold pos in *. apply py_bothkennar_softens in E; auto; lra || lia.
  - destruct A as (A1 & A2 & A3). destruct (value_in _ _ _ _ pos_convex A1 G1 G2) as (s & E1 & P1). destruct (value_in _ _ _ _ pos_convex A2 G1 G2) as (g & E2 & P2).
    rewrite E1, E2 in E. cbn [bind] in E. unfold pos in *. apply py_cowden_softens in E; auto; lra || lia.
  - destruct A as (A1 & A2 & A3 & A4 & A5). destruct (value_in _ _ _ _ density_convex A1 G1 G2) as (s & E1 & P1). destruct (value_in _ _ _ _ pos_convex A2 G1 G2) as (g & E2 & P2).
    rewrite E1, E2 in E. cbn [bind] in E. unfold pos, density in *. apply py_dunkirk_softens in E; auto; lra || lia.
  - destruct A as (A1 & A2). destruct (value_in _ _ _ _ (within_convex 15 45) A1 G1 G2) as (s & E1 & P1). rewrite E1 in E. cbn [bind] in E.
    assert (K : exists kk, subgrade s k modif q = Ok kk /\ 0 <= kk).
    { unfold subgrade, value. assert (V : exists v, match k with Some p => in_layer p (q_depth q) (q_height q) | None => Ok 0 end = Ok v /\ 0 <= v).
      { destruct k as [pk|]; [destruct (value_in _ _ _ _ pos_convex A2 G1 G2) as (v & Ev & P); exists v; unfold pos in P; split; [exact Ev|lra]|exists 0; split; [reflexivity|lra]]. }
      destruct V as (v & Ev & P). rewrite Ev. cbn [bind]. eexists. split; [reflexivity|]. destruct modif as [[]|]; [apply kallehave_nonneg|apply sorensen_nonneg|exact P]. }
    destruct K as (kk & Ek & Pk). rewrite Ek in E. cbn [bind] in E. unfold within in P1. apply numbers_inv in E.
    apply (api_sand_softens (q_sig q) (q_X q) s (q_D q) kind (q_wet q) kk ymax n); auto; lra.
  - destruct A as (A1 & A2 & A3). destruct (value_in _ _ _ _ pos_convex A1 G1 G2) as (s & E1 & P1). destruct (value_in _ _ _ _ pos_convex A2 G1 G2) as (g & E2 & P2).
    rewrite E1, E2 in E. cbn [bind] in E. unfold pos in *. apply numbers_inv in E. specialize (FN g E2). apply (api_clay_softens u (q_sig q) (q_X q) s g (q_D q) J kind ymax n); auto; lra.
  - destruct A as (A1 & A2 & A3). destruct (value_in _ _ _ _ pos_convex A1 G1 G2) as (s & E1 & P1). destruct (value_in _ _ _ _ pos_convex A2 G1 G2) as (g & E2 & P2).
    rewrite E1, E2 in E. cbn [bind] in E. unfold pos in *. apply numbers_inv in E. specialize (FN g E2). apply (modified_softens u (q_sig q) (q_X q) s g (q_D q) J kind ymax n); auto; lra.
  - destruct A as (A1 & A2 & A3 & A4 & A5). destruct (value_in _ _ _ _ pos_convex A1 G1 G2) as (s & E1 & P1). destruct (value_in _ _ _ _ pos_convex A2 G1 G2) as (g & E2 & P2).
    rewrite E1, E2 in E. cbn [bind] in E. unfold pos in *. apply numbers_inv in E. apply (reese_softens s g RQD (q_X q + ztop) (q_D q) k n); auto; lra.
  - destruct A as (A1 & A2 & A3). destruct (custom_value_in _ _ (q_depth q) (q_height q) (q_X q) pos_convex A1 G1 G2) as (g & E1 & P1). rewrite E1 in E. cbn [bind] in E.
    unfold with_four, custom_value in E. destruct A2 as (B1 & B2 & B3 & B4).
    destruct (custom_value_in _ _ (q_depth q) (q_height q) (q_X q) wide_convex B1 G1 G2) as (x & Ex & Px). destruct (custom_value_in _ _ (q_depth q) (q_height q) (q_X q) curvature_convex B2 G1 G2) as (c & Ec & Pc).
    destruct (custom_value_in _ _ (q_depth q) (q_height q) (q_X q) pos_convex B3 G1 G2) as (k & Ek & Pk). destruct (custom_value_in _ _ (q_depth q) (q_height q) (q_X q) pos_convex B4 G1 G2) as (yy & Ey & Py).
    rewrite Ex, Ec, Ek, Ey in E. cbn [bind] in E. unfold wide, curvature, pos in *. pose proof (Rmult_le_pos _ _ GS (Rlt_le _ _ GD)).
    apply (scaled_softens x c k yy n (q_sig q * q_D q) g (q_sig q * q_D q)); auto; lra || lia.
  - destruct A as (A0 & A1 & A2 & A3). destruct (custom_value_in _ _ (q_depth q) (q_height q) (q_X q) pos_convex A0 G1 G2) as (s & E0 & P0).
    destruct (custom_value_in _ _ (q_depth q) (q_height q) (q_X q) pos_convex A1 G1 G2) as (g & E1 & P1). rewrite E0, E1 in E. cbn [bind] in E.
    unfold with_four, custom_value in E. destruct A2 as (B1 & B2 & B3 & B4).
    destruct (custom_value_in _ _ (q_depth q) (q_height q) (q_X q) wide_convex B1 G1 G2) as (x & Ex & Px). destruct (custom_value_in _ _ (q_depth q) (q_height q) (q_X q) curvature_convex B2 G1 G2) as (c & Ec & Pc).
    destruct (custom_value_in _ _ (q_depth q) (q_height q) (q_X q) pos_convex B3 G1 G2) as (k & Ek & Pk). destruct (custom_value_in _ _ (q_depth q) (q_height q) (q_X q) pos_convex B4 G1 G2) as (yy & Ey & Py).
    rewrite Ex, Ec, Ek, Ey in E. cbn [bind] in E. unfold wide, curvature, pos in *. pose proof (Rmult_le_pos _ _ (Rlt_le _ _ P0) (Rlt_le _ _ GD)).
    apply (scaled_softens x c k yy n (s * q_D q) g (s * q_D q)); auto; lra || lia.
Qed.

(** Lateral springs of every soil model, with their multipliers *)
Theorem C135_lateral_partial : forall m u q ymax n, (forall i, 0 <= u i < 1) -> good_place q -> admissible m q n -> 0 <= ymax -> (8 <= n)%nat ->
  0 <= at_X (y_multiplier m) (q_X q) -> 0 <= at_X (p_multiplier m) (q_X q) -> fine m q ymax n ->
  exists y p, py_spring_fct m u q ymax n = Ok (y, map Some p) /\ length y = n /\ length p = n /\ softens y p.
Proof.
  intros m u q ymax n U G A HY N MY MP FN. destruct (py_curve_ok m u q ymax n U G A HY N) as (y & p & E & (LY & LP & _) & _).
  pose proof (py_curve_softens m u q ymax n y p U G A HY N FN E) as SO. unfold py_spring_fct. rewrite inside_ok by (apply G). rewrite E. cbn [bind]. rewrite scaled_numbers.
  eexists _, _. split; [reflexivity|]. rewrite !map_length. split; [exact LY|]. split; [exact LP|]. apply softens_scale; auto.
Qed.

(** Springs at the pile tip *)
Theorem C135_base_partial : forall m q ymax n, good_place q -> base_admissible m q -> (7 <= n <= 22)%nat ->
  match m with Custom_pisa_sand _ _ _ Hb Mb _ | Custom_pisa_clay _ _ _ _ Hb Mb _ => conic_fine Hb q n /\ conic_fine Mb q n | _ => True end ->
  (exists y p, Hb_spring_fct m q ymax n = Ok (y, map Some p) /\ softens y p) /\ (exists t M, Mb_spring_fct m q ymax n = Ok (t, map Some M) /\ softens t M).
Proof.
  intros m q ymax n G A N FN. pose proof G as [G1 G2 GD GS GX]. destruct (base_ok m q ymax n G A ltac:(lia)) as ((y & p & EH & _) & (t & M & EM & _)).
  split; [exists y, p|exists t, M]; (split; [assumption|]).
  - clear EM. assert (SC : 0 <= q_sig q * q_D q /\ 0 <= q_sig q * q_D q ^ 2 /\ 0 <= q_sig q * q_D q ^ 3) by (apply scales; auto).
    destruct m; cbn [base_admissible] in A; try contradiction; cbn [Hb_spring_fct] in EH; unfold value, conic_fine, custom_value in *; rewrite inside_ok in EH by lra.
    + destruct A as (A1 & A2 & A3). destruct (value_in _ _ _ _ pos_convex A1 G1 G2) as (s & E1 & P1). destruct (value_in _ _ _ _ pos_convex A2 G1 G2) as (g & E2 & P2).
      rewrite E1, E2 in EH. cbn [bind] in EH. unfold pos in *. apply Hb_bothkennar_softens in EH; auto; lra.
    + destruct A as (A1 & A2 & A3). destruct (value_in _ _ _ _ pos_convex A1 G1 G2) as (s & E1 & P1). destruct (value_in _ _ _ _ pos_convex A2 G1 G2) as (g & E2 & P2).
      rewrite E1, E2 in EH. cbn [bind] in EH. unfold pos in *. apply Hb_cowden_softens in EH; auto; lra.
    + destruct A as (A1 & A2 & A3). destruct (value_in _ _ _ _ density_convex A1 G1 G2) as (s & E1 & P1). destruct (value_in _ _ _ _ pos_convex A2 G1 G2) as (g & E2 & P2).
      rewrite E1, E2 in EH. cbn [bind] in EH. unfold pos, density in *. apply Hb_dunkirk_softens in EH; auto; lra.
    + destruct A as (A1 & (B1 & B2 & B3 & B4) & _). destruct FN as [FN _]. destruct (custom_value_in _ _ (q_depth q) (q_height q) (q_X q) pos_convex A1 G1 G2) as (g & E1 & P1). rewrite E1 in EH. cbn [bind] in EH.
      unfold with_four, custom_value in EH. destruct (custom_value_in _ _ (q_depth q) (q_height q) (q_X q) wide_convex B1 G1 G2) as (x & Ex & Px). destruct (custom_value_in _ _ (q_depth q) (q_height q) (q_X q) curvature_convex B2 G1 G2) as (c & Ec & Pc).
      destruct (custom_value_in _ _ (q_depth q) (q_height q) (q_X q) pos_convex B3 G1 G2) as (k & Ek & Pk). destruct (custom_value_in _ _ (q_depth q) (q_height q) (q_X q) pos_convex B4 G1 G2) as (yy & Ey & Py).
      rewrite Ex, Ec, Ek, Ey in EH. cbn [bind] in EH. unfold wide, curvature, pos in *. specialize (FN x Ex). destruct SC as (C1 & C2 & C3).
      apply (scaled_softens x c k yy n (q_sig q * q_D q) g (q_sig q * q_D q ^ 2)); auto; lra || lia.
    + destruct A as (A0 & A1 & (B1 & B2 & B3 & B4) & _). destruct FN as [FN _]. destruct (custom_value_in _ _ (q_depth q) (q_height q) (q_X q) pos_convex A0 G1 G2) as (s & E0 & P0).
      destruct (custom_value_in _ _ (q_depth q) (q_height q) (q_X q) pos_convex A1 G1 G2) as (g & E1 & P1). rewrite E0, E1 in EH. cbn [bind] in EH.
      unfold with_four, custom_value in EH. destruct (custom_value_in _ _ (q_depth q) (q_height q) (q_X q) wide_convex B1 G1 G2) as (x & Ex & Px). destruct (custom_value_in _ _ (q_depth q) (q_height q) (q_X q) curvature_convex B2 G1 G2) as (c & Ec & Pc).
      destruct (custom_value_in _ _ (q_depth q) (q_height q) (q_X q) pos_convex B3 G1 G2) as (k & Ek & Pk). destruct (custom_value_in _ _ (q_depth q) (q_height q) (q_X q) pos_convex B4 G1 G2) as (yy & Ey & Py).
      rewrite Ex, Ec, Ek, Ey in EH. cbn [bind] in EH. unfold wide, curvature, pos in *. specialize (FN x Ex). destruct (scales s (q_D q)) as (C1 & C2 & C3); [lra|auto|].
      apply (scaled_softens x c k yy n (s * q_D q) g (s * q_D q ^ 2)); auto; lra || lia.
  - clear EH. assert (SC : 0 <= q_sig q * q_D q /\ 0 <= q_sig q * q_D q ^ 2 /\ 0 <= q_sig q * q_D q ^ 3) by (apply scales; auto).
    destruct m; cbn [base_admissible] in A; try contradiction; cbn [Mb_spring_fct] in EM; unfold value, conic_fine, custom_value in *; rewrite inside_ok in EM by lra.
    + destruct A as (A1 & A2 & A3). destruct (value_in _ _ _ _ pos_convex A1 G1 G2) as (s & E1 & P1). destruct (value_in _ _ _ _ pos_convex A2 G1 G2) as (g & E2 & P2).
      rewrite E1, E2 in EM. cbn [bind] in EM. unfold pos in *. apply Mb_bothkennar_softens in EM; auto; lra.
    + destruct A as (A1 & A2 & A3). destruct (value_in _ _ _ _ pos_convex A1 G1 G2) as (s & E1 & P1). destruct (value_in _ _ _ _ pos_convex A2 G1 G2) as (g & E2 & P2).
      rewrite E1, E2 in EM. cbn [bind] in EM. unfold pos in *. apply Mb_cowden_softens in EM; auto; lra.
    + destruct A as (A1 & A2 & A3). destruct (value_in _ _ _ _ density_convex A1 G1 G2) as (s & E1 & P1). destruct (value_in _ _ _ _ pos_convex A2 G1 G2) as (g & E2 & P2).
      rewrite E1, E2 in EM. cbn [bind] in EM. unfold pos, density in *. apply Mb_dunkirk_softens in EM; auto; lra.
    + destruct A as (A1 & _ & _ & (B1 & B2 & B3 & B4) & _). destruct FN as [_ FN]. destruct (custom_value_in _ _ (q_depth q) (q_height q) (q_X q) pos_convex A1 G1 G2) as (g & E1 & P1). rewrite E1 in EM. cbn [bind] in EM.
      unfold with_four, custom_value in EM. destruct (custom_value_in _ _ (q_depth q) (q_height q) (q_X q) wide_convex B1 G1 G2) as (x & Ex & Px). destruct (custom_value_in _ _ (q_depth q) (q_height q) (q_X q) curvature_convex B2 G1 G2) as (c & Ec & Pc).
      destruct (custom_value_in _ _ (q_depth q) (q_height q) (q_X q) pos_convex B3 G1 G2) as (k & Ek & Pk). destruct (custom_value_in _ _ (q_depth q) (q_height q) (q_X q) pos_convex B4 G1 G2) as (yy & Ey & Py).
      rewrite Ex, Ec, Ek, Ey in EM. cbn [bind] in EM. unfold wide, curvature, pos in *. specialize (FN x Ex). destruct SC as (C1 & C2 & C3).
      apply (scaled_softens x c k yy n (q_sig q) g (q_sig q * q_D q ^ 3)); auto; lra || lia.
    + destruct A as (A0 & A1 & _ & _ & (B1 & B2 & B3 & B4) & _). destruct FN as [_ FN]. destruct (custom_value_in _ _ (q_depth q) (q_height q) (q_X q) pos_convex A0 G1 G2) as (s & E0 & P0).
      destruct (custom_value_in _ _ (q_depth q) (q_height q) (q_X q) pos_convex A1 G1 G2) as (g & E1 & P1). rewrite E0, E1 in EM. cbn [bind] in EM.
      unfold with_four, custom_value in EM. destruct (custom_value_in _ _ (q_depth q) (q_height q) (q_X q) wide_convex B1 G1 G2) as (x & Ex & Px). destruct (custom_value_in _ _ (q_depth q) (q_height q) (q_X q) curvature_convex B2 G1 G2) as (c & Ec & Pc).
      destruct (custom_value_in _ _ (q_depth q) (q_height q) (q_X q) pos_convex B3 G1 G2) as (k & Ek & Pk). destruct (custom_value_in _ _ (q_depth q) (q_height q) (q_X q) pos_convex B4 G1 G2) as (yy & Ey & Py).
      rewrite Ex, Ec, Ek, Ey in EM. cbn [bind] in EM. unfold wide, curvature, pos in *. specialize (FN x Ex). destruct (scales s (q_D q)) as (C1 & C2 & C3); [lra|auto|].
      apply (scaled_softens x c k yy n s g (s * q_D q ^ 3)); auto; lra || lia.
Qed.

(** Distributed moments of the clays and of the API models *)
Theorem C135_moments_partial :
  (forall X Su G0 D m, 0 < D -> 0 <= X -> X <= 6 * D -> 0 <= Su -> 0 < G0 -> (7 <= m <= 21)%nat -> exists xs ys, mt_bothkennar X Su G0 D m = Ok (xs, map Some ys) /\ softens xs ys) /\
  (forall X Su G0 D m, 0 < D -> 0 <= X -> X <= 3.5 * D -> 0 <= Su -> 0 < G0 -> (7 <= m <= 15)%nat -> exists xs ys, mt_cowden X Su G0 D m = Ok (xs, map Some ys) /\ softens xs ys) /\
  (forall phi kind k modif e pm ym u idx q ymax n, (forall i, 0 <= u i < 1) -> good_place q -> 0 <= ymax ->
    let m := API_sand phi kind k modif e pm ym in admissible m q n -> 0 <= at_X pm (q_X q) -> argsort (sand_backbone_z u n) idx -> (15 <= n)%nat ->
    exists T M, mt_spring_fct m u idx q ymax n = Ok (T, map (map Some) M) /\ forall i, (i < n)%nat -> softens (nth i T []) (nth i M [])).
Proof.
  split; [|split].
  - intros X Su G0 D m HD X0 X6 HS HG M. destruct (C43_mt_bothkennar X Su G0 D m HD X0 X6 HS HG ltac:(lia)) as (xs & ys & E & _). exists xs, ys. split; [exact E|]. apply mt_bothkennar_softens in E; auto.
  - intros X Su G0 D m HD X0 X6 HS HG M. destruct (C43_mt_cowden_partial X Su G0 D m HD X0 ltac:(lra) HS HG ltac:(lia)) as (xs & ys & E & _). exists xs, ys. split; [exact E|]. apply mt_cowden_softens in E; auto.
  - intros phi kind k modif e pm ym u idx q ymax n U G HY m A HP IX N. destruct (C73_sand_moment phi kind k modif e pm ym u idx q ymax n U G HY A HP IX N) as (phi' & _ & y & p & T & M & _ & E & LP & _ & _ & H).
    exists T, M. split; [exact E|]. intros i Hi. destruct (H i Hi) as (L1 & L2 & T0 & M0 & NT & NM & _ & _ & V). split; [exact T0|]. split; [exact M0|]. intros j.
    assert (EX : exists pmax, is_max pmax p).
    { clear - LP N. destruct p as [|a l]; [cbn in LP; lia|]. clear N LP. revert a. induction l as [|b l IH]; intros a.
      - exists a. split; [left; reflexivity|]. intros v [<-|[]]. lra.
      - destruct (IH b) as (w & W1 & W2). destruct (Rle_lt_dec a w); [exists w|exists a]; (split; [|intros v [<-|I]; [lra|pose proof (W2 v I); lra]]); [right; exact W1|left; reflexivity]. }
    destruct EX as (pmax & PM). destruct (Nat.lt_ge_cases j n) as [Hj|Hj]; [|rewrite (nth_overflow (nth i M [])), (nth_overflow (nth i T []) 0 (n := j)) by lia; lra].
    destruct j as [|j]; [rewrite T0, M0; lra|]. rewrite (V pmax PM (S j) ltac:(lia)), (V pmax PM 1%nat ltac:(lia)). apply Rmult_le_compat_l; [|apply NT; lia].
    rewrite <- (V pmax PM 1%nat ltac:(lia)). rewrite <- M0 at 1. apply NM; lia.
Qed.

Lemma atan_upper : forall x, 0 < x -> atan x < x.
Proof.
  intros x H. destruct (MVT_cor2 atan (fun y => / (1 + y ^ 2)) 0 x) as (c & E & R); [lra|intros c _; apply derivable_pt_lim_atan|]. rewrite atan_0 in E.
  assert (P : 0 < c ^ 2) by (apply pow_lt; lra). assert (L : / (1 + c ^ 2) < / 1) by (apply Rinv_lt_contravar; lra). rewrite Rinv_1 in L. nra.
Qed.
Lemma atan_lower : forall x, 0 < x -> x < 1 / 10 -> 99 / 100 * x < atan x.
Proof.
  intros x H H1. destruct (MVT_cor2 atan (fun y => / (1 + y ^ 2)) 0 x) as (c & E & R); [lra|intros c _; apply derivable_pt_lim_atan|]. rewrite atan_0 in E.
  assert (P : c ^ 2 < 1 / 100) by (simpl; nra). assert (P0 : 0 <= c ^ 2) by apply pow2_ge_0. assert (L : / (1 + 1 / 100) < / (1 + c ^ 2)) by (apply Rinv_lt_contravar; [apply Rmult_lt_0_compat; lra|lra]). nra.
Qed.

Lemma spread : forall k peak a b A B, 0 < peak -> a <= A -> B <= b -> 0 <= k -> k * A <= 0.3 * B -> k * peak * a <= 0.3 * peak * b.
Proof.
  intros k peak a b A B HP HA HB HK H. replace (k * peak * a) with (peak * (k * a)) by ring. replace (0.3 * peak * b) with (peak * (0.3 * b)) by ring. apply Rmult_le_compat_l; [lra|].
  apply Rle_trans with (k * A); [apply Rmult_le_compat_l; auto|lra].
Qed.

(** Distributed moments of the API clay models *)
Theorem C135_clay_moments : forall m Su u idx q ymax n, clay_strength m = Some Su -> (forall i, 0 <= u i < 1) -> good_place q -> all_values pos Su ->
  argsort (clay_backbone_z u n) idx -> (15 <= n)%nat ->
  exists T M, mt_spring_fct m u idx q ymax n = Ok (T, map (map Some) M) /\ length T = n /\ length M = n /\ forall i, (i < n)%nat -> softens (nth i T []) (nth i M []).
Proof.
  intros m Su u idx q ymax n CS U G AS IX N. pose proof G as [G1 G2 GD GS GX].
  destruct (value_in _ _ _ _ pos_convex AS G1 G2) as (s & E1 & P1). unfold pos in P1.
  set (z := api_rotation (q_D q) n (scale (q_D q) (clay_backbone_z u n))). set (f := fmax_api_clay (q_sig q) s 1). set (r := api_moment (q_D q) n (scale f (clay_backbone_t 1 1 n idx)) 1).
  assert (E : mt_spring_fct m u idx q ymax n = Ok (repeat z n, map (map Some) (repeat r n))).
  { assert (W : mt_spring_fct m u idx q ymax n = inside_layer q (bind (bind (value Su q) (fun Su => let '(z, tz) := tz_api_clay u idx (q_sig q) Su (q_D q) 1 1 1 n in
      Ok (repeat (api_rotation (q_D q) n z) n, repeat (map Some (api_moment (q_D q) n tz 1)) n))) (fun c => Ok (scaled_rows 1 1 c)))) by (destruct m; cbn in CS; try discriminate; injection CS as ->; reflexivity).
    rewrite W, inside_ok by lra. unfold value. rewrite E1. cbn [bind tz_api_clay]. fold f z r.
    assert (RP : forall k, repeat (map Some r) k = map (map Some) (repeat r k)) by (intros k; induction k as [|k IH]; [reflexivity|]; cbn [repeat map]; rewrite IH; reflexivity). rewrite RP, one_rows. reflexivity. }
  set (sg := if Req_EM_T (q_sig q) 0 then 0.001 else q_sig q) in *. assert (HS : 0 < sg) by (unfold sg; destruct (Req_EM_T (q_sig q) 0); lra).
  assert (FS : f = fmax_api_clay sg s 1).
  { unfold f, sg, fmax_api_clay. destruct (Req_EM_T (q_sig q) 0) as [_|NZ]; [destruct (Req_EM_T 0.001 0); [lra|reflexivity]|]. destruct (Req_EM_T (q_sig q) 0); [lra|reflexivity]. }
  destruct (C50_clay_friction_partial sg s 1 HS ltac:(lra) ltac:(lra)) as (F0 & _). rewrite <- FS in F0.
  destruct (clay_rotation u n (q_D q) U GD N) as (R1 & R2 & R3 & R4). fold z in R1, R2, R3, R4.
  pose proof (clay_backbone_rises u n idx U IX N) as RB. pose proof (moment_row f (clay_backbone_t 1 1 n idx) (q_D q) n 1 ltac:(lra) GD ltac:(lra) ltac:(lia) RB) as MR. cbv zeta in MR. fold r in MR. destruct MR as (M1 & M2 & M3 & M4 & M5).
  exists (repeat z n), (repeat r n). split; [exact E|]. rewrite !repeat_length. do 2 (split; [reflexivity|]). intros i Hi. rewrite !nth_repeat_lt by auto.
  split; [exact R2|]. split; [exact M2|]. intros j. destruct (Nat.lt_ge_cases j n) as [Hj|Hj]; [|rewrite (nth_overflow r), (nth_overflow z 0 (n := j)) by lia; lra].
  destruct (Rle_lt_or_eq_dec 0 f ltac:(lra)) as [FP|FZ].
  2:{ unfold r. rewrite <- FZ, !zero_at; [lra|lia|apply RB|lia|apply RB]. }
  assert (PPZ : positive_part (scale (q_D q) (clay_backbone_z u n)) = scale (q_D q) [0; 0.0016; 0.0031; 0.0057; 0.0080; 0.0100] ++ scale (q_D q) (positive_part (skipn (length clay_low) (clay_backbone_z u n)))).
  { rewrite pp_scale by auto. unfold scale. rewrite <- map_app. f_equal. rewrite <- pp_clay_low, <- pp_app. f_equal. rewrite (clay_z_eq u n U). rewrite skipn_app, skipn_all, Nat.sub_diag. reflexivity. }
  assert (PPT : positive_part (scale f (clay_backbone_t 1 1 n idx)) = scale f [0; 0.3; 0.5; 0.75; 0.90; 1.00] ++ scale f (positive_part (skipn (length (clay_tlow 1 1)) (clay_backbone_t 1 1 n idx)))).
  { rewrite pp_scale by auto. unfold scale. rewrite <- map_app. f_equal. rewrite <- pp_clay_tlow, <- pp_app. f_equal. rewrite (clay_t_eq u 1 1 n idx U IX). rewrite skipn_app, skipn_all, Nat.sub_diag. reflexivity. }
  assert (LZ : forall k, (k < 6)%nat -> (k < length (scale (q_D q) [0; 0.0016; 0.0031; 0.0057; 0.0080; 0.0100]%R))%nat) by (intros k Hk; cbn [scale map length]; lia).
  assert (LT : forall k, (k < 6)%nat -> (k < length (scale f [0; 0.3; 0.5; 0.75; 0.90; 1.00]%R))%nat) by (intros k Hk; cbn [scale map length]; lia).
  assert (ZT : forall k, (k < 6)%nat -> nth k z 0 = atan (2 * nth k [0; 0.0016; 0.0031; 0.0057; 0.0080; 0.0100] 0)).
  { intros k Hk. unfold z. rewrite (rotation_at (q_D q) n (scale (q_D q) (clay_backbone_z u n)) k _ _ (LZ k Hk) PPZ). f_equal. unfold scale. rewrite nth_scale. set (v := nth k _ 0). clearbody v. replace (0.5 * q_D q) with (q_D q / 2) by lra. field. lra. }
  assert (MT : forall k, (k < 6)%nat -> nth k r 0 = nth k [0; 0.3; 0.5; 0.75; 0.90; 1.00] 0 * (PI / 4 * q_D q ^ 2 * f)).
  { intros k Hk. unfold r. rewrite (moment_at (q_D q) n (scale f (clay_backbone_t 1 1 n idx)) 1 k _ _ (LT k Hk) PPT). unfold scale. rewrite nth_scale. set (v := nth k _ 0). clearbody v. field. }
  set (peak := PI / 4 * q_D q ^ 2 * f) in *. assert (PK : 0 < peak) by (unfold peak; pose proof PI_RGT_0; apply Rmult_lt_0_compat; [apply Rmult_lt_0_compat; [lra|apply pow_lt; auto]|exact FP]).
  assert (A1 : nth 1 z 0 <= 0.0032) by (rewrite ZT by lia; cbn [nth]; pose proof (atan_upper (2 * 0.0016) ltac:(lra)); lra).
  assert (B1 : nth 1 r 0 = 0.3 * peak) by (rewrite MT by lia; reflexivity). rewrite B1.
  assert (Z5 : 0.0198 <= nth 5 z 0) by (rewrite ZT by lia; cbn [nth]; pose proof (atan_lower (2 * 0.0100) ltac:(lra) ltac:(lra)); lra).
  assert (C : (j < 5 \/ 5 <= j)%nat) by lia. destruct C as [C|C].
  - destruct j as [|[|[|[|[|j]]]]]; [rewrite M2, R2; lra|rewrite B1; lra|rewrite (MT 2%nat ltac:(lia)); cbn [nth]|rewrite (MT 3%nat ltac:(lia)); cbn [nth]|rewrite (MT 4%nat ltac:(lia)); cbn [nth]|lia].
    + assert (ZB : 0.0061 <= nth 2 z 0) by (rewrite ZT by lia; cbn [nth]; pose proof (atan_lower (2 * 0.0031) ltac:(lra) ltac:(lra)); lra). apply (spread _ _ _ _ 0.0032 0.0061 PK A1 ZB); lra.
    + assert (ZB : 0.0112 <= nth 3 z 0) by (rewrite ZT by lia; cbn [nth]; pose proof (atan_lower (2 * 0.0057) ltac:(lra) ltac:(lra)); lra). apply (spread _ _ _ _ 0.0032 0.0112 PK A1 ZB); lra.
    + assert (ZB : 0.0158 <= nth 4 z 0) by (rewrite ZT by lia; cbn [nth]; pose proof (atan_lower (2 * 0.0080) ltac:(lra) ltac:(lra)); lra). apply (spread _ _ _ _ 0.0032 0.0158 PK A1 ZB); lra.
  - assert (MJ : nth j r 0 <= peak) by (assert (PE : peak = PI / 4 * q_D q ^ 2 * f * 1) by (unfold peak; ring); rewrite PE; apply M4, nth_In; lia).
    assert (ZJ : 0.0198 <= nth j z 0) by (apply Rle_trans with (1 := Z5); apply R3; lia). assert (Z1 : 0 <= nth 1 z 0) by (rewrite <- R2 at 1; apply R3; lia).
    assert (nth j r 0 * nth 1 z 0 <= peak * 0.0032) by (apply Rmult_le_compat; auto; apply M4, nth_In; lia). nra.
Qed.

(** Dunkirk sand: at 38 % of the ultimate rotation the moment is already the ultimate one. *)
Theorem C135_moments_dunkirk_refuted : forall sig X Dr G0 p D L, 0 < D -> 0 < L -> 0 < sig -> 0 < G0 -> p <> 0 ->
  let yu := 0.2605 + (-0.1989 + 0.2019 * (Dr / 100)) * (X / L) in 0.2 <= yu <= 0.2605 ->
  exists xs ys, mt_dunkirk sig X Dr G0 p D L 15 = Ok (xs, map Some ys) /\ ~ softens xs ys /\
    0 < nth 1 ys 0 /\ 2.6 * (nth 1 ys 0 * nth 6 xs 0) < nth 6 ys 0 * nth 1 xs 0.
Proof.
  intros sig X Dr G0 p D L HD HL HS HG NP yu Y.
  set (xu := yu / 17). assert (XU : 0 < xu) by (unfold xu; lra). assert (YU : 0 < yu) by lra.
  assert (KK : Rmax (yu / xu) 17 = 17) by (apply Rmax_left || (unfold Rmax; destruct (Rle_dec (yu / xu) 17) as [|NL]; [reflexivity|]; exfalso; apply NL; replace (yu / xu) with 17 by (unfold xu; field; lra); lra)).
  assert (KE : yu / xu = 17) by (unfold xu; field; lra).
  assert (SR : samples_regular xu 0 17 yu 15).
  { intros x I. right. right. rewrite KK. replace (0 * yu * x) with 0 by ring. apply Rgt_not_eq. apply Rmult_lt_0_compat; [lra|apply pow_lt; auto]. }
  pose proof (conic_ok xu 0 17 yu 15 XU YU ltac:(lra) ltac:(lra) ltac:(lia) SR) as CO. set (V := conic_val xu 0 17 yu).
  assert (CY : conic_y xu 0 17 yu 15 = map V (conic_x xu 15)) by (unfold conic_y; rewrite KK; reflexivity).
  assert (AP : 0 < Rabs p * D) by (apply Rmult_lt_0_compat; [apply Rabs_pos_lt; auto|auto]). assert (SP : 0 < sig / G0) by (apply Rdiv_lt_0_compat; auto).
  exists (map (fun v => v * (sig / G0)) (conic_x xu 15)), (map (fun v => v * (Rabs p * D)) (map V (conic_x xu 15))).
  assert (E : mt_dunkirk sig X Dr G0 p D L 15 = Ok (map (fun v => v * (sig / G0)) (conic_x xu 15), map Some (map (fun v => v * (Rabs p * D)) (map V (conic_x xu 15))))).
  { unfold mt_dunkirk. cbv zeta. rewrite !nonzero_ok by lra. rewrite !(mulr _ X L). replace (17 + 0 * X / D) with 17 by (field; lra). rewrite ?nonzero_ok by lra. fold yu. fold xu.
    unfold scaled. rewrite CO. cbn [bind fst snd]. rewrite nonzero_ok by lra. rewrite CY, !map_map. reflexivity. }
  split; [exact E|].
  assert (ZV : V 0 = 0) by (apply val_zero; auto; unfold xu; lra).
  assert (NX : forall i, nth i (map (fun v => v * (sig / G0)) (conic_x xu 15)) 0 = nth i (conic_x xu 15) 0 * (sig / G0)) by (intros i; apply nth_scale).
  assert (NY : forall i, nth i (map (fun v => v * (Rabs p * D)) (map V (conic_x xu 15))) 0 = V (nth i (conic_x xu 15) 0) * (Rabs p * D)).
  { intros i. rewrite (nth_scale (Rabs p * D)). f_equal. rewrite <- ZV at 1. apply map_nth. }
  assert (X1 : nth 1 (conic_x xu 15) 0 = 2/100 * xu) by reflexivity.
  assert (X6 : nth 6 (conic_x xu 15) 0 = 2/10 * xu + (xu - 2/10 * xu) * (2 / 9)).
  { change (nth 6 (conic_x xu 15) 0) with (nth 2 (linspace (2/10 * xu) xu 10 ++ [11/10 * xu]) 0). rewrite app_nth1 by (rewrite linspace_length; lia). rewrite linspace_nth by lia. simpl INR. do 2 f_equal. lra. }
  assert (LX : length (conic_x xu 15) = 15%nat) by (apply (conic_x_spec xu 15 XU); lia).
  assert (REG : forall i, (i < 15)%nat -> regular xu 0 17 yu (nth i (conic_x xu 15) 0)) by (intros i Hi; rewrite <- KK; apply SR, nth_In; lia).
  assert (V1 : V (nth 1 (conic_x xu 15) 0) = 2/100 * yu).
  { destruct (val_bounds xu 0 17 yu XU YU ltac:(lra) ltac:(lra) ltac:(lra) (nth 1 (conic_x xu 15) 0) ltac:(rewrite X1; lra) (REG 1%nat ltac:(lia))) as (_ & _ & B1 & B2 & _).
    specialize (B1 ltac:(rewrite X1; lra)). specialize (B2 ltac:(rewrite X1; unfold xu; lra)). rewrite KE in B1. unfold V. apply Rle_antisym; rewrite X1 in *; unfold xu in *; lra. }
  assert (V6 : V (nth 6 (conic_x xu 15) 0) = yu).
  { destruct (val_bounds xu 0 17 yu XU YU ltac:(lra) ltac:(lra) ltac:(lra) (nth 6 (conic_x xu 15) 0) ltac:(rewrite X6; lra) (REG 6%nat ltac:(lia))) as (_ & _ & _ & _ & _ & B). apply B. rewrite X6. unfold xu. lra. }
  assert (Q : 2.6 * (nth 1 (map (fun v => v * (Rabs p * D)) (map V (conic_x xu 15))) 0 * nth 6 (map (fun v => v * (sig / G0)) (conic_x xu 15)) 0) < nth 6 (map (fun v => v * (Rabs p * D)) (map V (conic_x xu 15))) 0 * nth 1 (map (fun v => v * (sig / G0)) (conic_x xu 15)) 0).
  { rewrite !NX, !NY, V1, V6, X1, X6. set (c := yu * xu * (Rabs p * D) * (sig / G0)). assert (0 < c) by (unfold c; exact (Rmult_lt_0_compat _ _ (Rmult_lt_0_compat _ _ (Rmult_lt_0_compat _ _ YU XU) AP) SP)).
    replace (2.6 * (2 / 100 * yu * (Rabs p * D) * ((2 / 10 * xu + (xu - 2 / 10 * xu) * (2 / 9)) * (sig / G0)))) with (2.6 * (2 / 100) * (2/10 + 8/10 * (2/9)) * c) by (unfold c; lra).
    replace (yu * (Rabs p * D) * (2 / 100 * xu * (sig / G0))) with (2 / 100 * c) by (unfold c; lra). lra. }
  assert (P1 : 0 < nth 1 (map (fun v => v * (Rabs p * D)) (map V (conic_x xu 15))) 0) by (rewrite NY, V1; apply Rmult_lt_0_compat; lra).
  split; [|split; [exact P1|exact Q]]. intros (_ & _ & H). specialize (H 6%nat).
  assert (0 < nth 1 (map (fun v => v * (Rabs p * D)) (map V (conic_x xu 15))) 0 * nth 6 (map (fun v => v * (sig / G0)) (conic_x xu 15)) 0) by (apply Rmult_lt_0_compat; [exact P1|rewrite NX, X6; apply Rmult_lt_0_compat; lra]). lra.
Qed.

(** Axial springs.  The program measures the first stiffness on the downward branch. *)
Definition weaker_up (p : plug) (tension cin cout : R) : Prop :=
  match p with PlugNone => tension <= 1 | PlugTension => tension <= 1 | PlugBoth => tension * cin <= cout | PlugCompression => tension * (cin + cout) <= cout end.
Lemma weaker : forall p tension cin cout, 0 < cout -> 0 <= cin -> 0 <= tension -> weaker_up p tension cin cout -> exists total tens, plug_factors p tension cin cout = Ok (total, tens) /\ 0 < total /\ 0 <= tens <= 1.
Proof.
  intros p tension cin cout Hc Hi HT W. destruct (plug_total p tension cin cout Hc Hi HT) as (total & tens & E & ET & TP & T0 & EQ). exists total, tens. split; [exact E|]. split; [exact TP|]. split; [exact T0|].
  apply Rmult_le_reg_r with total; [exact TP|]. rewrite EQ. destruct p; cbn [weaker_up] in W; cbn [in_compression in_tension sliding_perimeter] in *; rewrite ET; nra.
Qed.
Theorem C135_axial_partial :
  (forall m u idx cin cout sig height depth D n tm zm Su, (forall i, 0 <= u i < 1) -> argsort (clay_backbone_z u n) idx -> 0 < cout -> 0 <= cin -> 0 <= ca_tension m -> 0 <= ca_residual m <= 1 ->
    weaker_up (ca_plug m) (ca_tension m) cin cout -> at_depth (ca_Su_top m) (ca_Su_bottom m) depth height = Ok Su -> 0 < sig -> 0 <= Su -> 0 <= D -> ca_tm m = MNum tm -> ca_zm m = MNum zm -> 0 <= tm -> 0 <= zm ->
    exists z t, clay_tz m u idx cin cout sig height depth D n = Ok (z, t) /\ softens_both 7 z t) /\
  (forall m u idx cin cout sig height depth n tm zm delta, (forall i, 0 <= u i < 1) -> argsort (sand_backbone_z u n) idx -> 0 < cout -> 0 <= cin -> 0 <= sa_tension m ->
    weaker_up (sa_plug m) (sa_tension m) cin cout -> at_depth (sa_delta_top m) (sa_delta_bottom m) depth height = Ok delta -> 0 <= sig -> 0 <= delta < 90 -> 0 <= sa_K m -> sa_tm m = MNum tm -> sa_zm m = MNum zm -> 0 <= tm -> 0 <= zm ->
    exists z t, sand_tz m u idx cin cout sig height depth n = Ok (z, t) /\ softens_both 7 z t) /\
  (forall m u idx tip_area footprint height depth D n Su, (forall i, 0 <= u i < 1) -> argsort (tip_backbone_z u n) idx -> at_depth (ca_Su_top m) (ca_Su_bottom m) depth height = Ok Su ->
    0 <= Su -> 0 <= D -> 0 <= tip_area -> 0 <= footprint -> 0 <= ca_wm m -> 0 <= ca_Qm m -> exists w Q, clay_Qz m u idx tip_area footprint height depth D n = Ok (w, Q) /\ softens_both 7 w Q) /\
  (forall m u idx tip_area footprint sig height depth D n delta, (forall i, 0 <= u i < 1) -> argsort (tip_backbone_z u n) idx -> at_depth (sa_delta_top m) (sa_delta_bottom m) depth height = Ok delta ->
    0 <= sig -> 0 <= D -> 0 <= tip_area -> 0 <= footprint -> 0 <= sa_wm m -> 0 <= sa_Qm m -> exists w Q, sand_Qz m u idx tip_area footprint sig height depth D n = Ok (w, Q) /\ softens_both 7 w Q).
Proof.
  split; [|split; [|split]].
  - intros m u idx cin cout sig height depth D n tm zm Su U A Hc Hi HT HR W ES HS HSu HD TM ZM T0 Z0. destruct (weaker _ _ _ _ Hc Hi HT W) as (total & tens & E & TP & TR).
    unfold clay_tz. rewrite ES. cbn [bind]. rewrite E. cbn [bind tz_api_clay]. rewrite TM, ZM. cbn [times bind]. eexists _, _. split; [reflexivity|].
    destruct (C50_clay_friction_partial sig Su 1 HS HSu ltac:(lra)) as (F0 & _). rewrite !scale_scale. apply both_scale; [apply Rmult_le_pos; auto| |apply clay_backbone_softens; auto].
    apply Rmult_le_pos; [lra|apply Rmult_le_pos; lra].
  - intros m u idx cin cout sig height depth n tm zm delta U A Hc Hi HT W ES HS HDe HK TM ZM T0 Z0. destruct (weaker _ _ _ _ Hc Hi HT W) as (total & tens & E & TP & TR).
    unfold sand_tz. rewrite ES. cbn [bind]. rewrite E. cbn [bind tz_api_sand]. rewrite TM, ZM. cbn [times bind]. eexists _, _. split; [reflexivity|].
    destruct (C50_sand_friction sig delta (sa_K m) HS HDe HK) as (F0 & _). rewrite !scale_scale. apply both_scale; [auto| |apply sand_backbone_softens; auto].
    apply Rmult_le_pos; [lra|apply Rmult_le_pos; lra].
  - intros m u idx ta fp height depth D n Su U A ES HSu HD HA HF HW HQ. unfold clay_Qz. rewrite ES. cbn [bind qz_api_clay]. eexists _, _. split; [reflexivity|]. rewrite !scale_scale.
    apply both_scale; [apply Rmult_le_pos; auto| |apply tip_backbone_softens; auto]. unfold Qmax_api_clay, tip_surface. repeat apply Rmult_le_pos; try lra. destruct (ca_plug m); auto.
  - intros m u idx ta fp sig height depth D n delta U A ES HS HD HA HF HW HQ. unfold sand_Qz. rewrite ES. cbn [bind qz_api_sand]. eexists _, _. split; [reflexivity|]. rewrite !scale_scale.
    apply both_scale; [apply Rmult_le_pos; auto| |apply tip_backbone_softens; auto]. destruct (C50_end_bearing sig delta HS) as (F0 & _). unfold tip_surface. repeat apply Rmult_le_pos; try lra. destruct (sa_plug m); auto.
Qed.

(** A pile plugged in compression only: the uplift branch is stiffer than the stiffness used at first. *)
Theorem C135_plugged_refuted : forall m u idx cin cout sig height depth n tm zm delta, (forall i, 0 <= u i < 1) -> argsort (sand_backbone_z u n) idx -> 0 < cout -> 0 < cin -> sa_tension m = 1 ->
  sa_plug m = PlugCompression -> at_depth (sa_delta_top m) (sa_delta_bottom m) depth height = Ok delta -> 0 < fmax_api_sand sig delta (sa_K m) -> sa_tm m = MNum tm -> sa_zm m = MNum zm -> 0 < tm -> 0 < zm ->
  exists z t, sand_tz m u idx cin cout sig height depth n = Ok (z, t) /\ nth 6 z 0 = - nth 8 z 0 /\ 0 < nth 8 t 0 /\ Rabs (nth 6 t 0) * cout = nth 8 t 0 * (cin + cout) /\ ~ softens_both 7 z t.
Proof.
  intros m u idx cin cout sig height depth n tm zm delta U A Hc Hi HT PC ES HF TM ZM T0 Z0.
  unfold sand_tz. rewrite ES, PC, HT. cbn [bind plug_factors]. rewrite nonzero_ok by lra. cbn [bind tz_api_sand]. rewrite TM, ZM. cbn [times bind]. eexists _, _. split; [reflexivity|].
  rewrite !scale_scale. set (tf := 1 * (cin + cout) / cout). set (c := fmax_api_sand sig delta (sa_K m) * (tm * cout)).
  assert (CP : 0 < c) by (unfold c; exact (Rmult_lt_0_compat _ _ HF (Rmult_lt_0_compat _ _ T0 Hc))).
  assert (NZ : forall i, (i < 13)%nat -> nth i (scale zm (sand_backbone_z u n)) 0 = nth i sand_low 0 * zm) by (intros i Hi'; unfold scale; rewrite nth_scale, (sand_z_eq u n U), app_nth1 by exact Hi'; reflexivity).
  assert (NT : forall i, (i < 13)%nat -> nth i (scale c (sand_backbone_t tf n idx)) 0 = nth i (sand_tlow tf) 0 * c) by (intros i Hi'; unfold scale; rewrite nth_scale, (sand_t_eq u tf n idx U A), app_nth1 by exact Hi'; reflexivity).
  assert (TF : 1 < tf) by (unfold tf; apply Rmult_lt_reg_r with cout; auto; replace (1 * (cin + cout) / cout * cout) with (cin + cout) by (field; lra); lra).
  assert (L6 : nth 6 sand_low 0 = - 0.0254) by (cbn; lra). assert (L8 : nth 8 sand_low 0 = 0.0254) by (cbn; lra).
  assert (W6 : nth 6 (sand_tlow tf) 0 = - tf) by (cbn; lra). assert (W8 : nth 8 (sand_tlow tf) 0 = 1) by (cbn; lra).
  assert (Z6 : nth 6 (scale zm (sand_backbone_z u n)) 0 = - 0.0254 * zm) by (rewrite NZ, L6 by lia; reflexivity). assert (Z8 : nth 8 (scale zm (sand_backbone_z u n)) 0 = 0.0254 * zm) by (rewrite NZ, L8 by lia; reflexivity).
  assert (T6 : nth 6 (scale c (sand_backbone_t tf n idx)) 0 = - tf * c) by (rewrite NT, W6 by lia; reflexivity). assert (T8 : nth 8 (scale c (sand_backbone_t tf n idx)) 0 = c) by (rewrite NT, W8 by lia; ring).
  assert (TA : Rabs (nth 6 (scale c (sand_backbone_t tf n idx)) 0) = tf * c) by (rewrite T6, Rabs_left1 by nra; ring).
  split; [rewrite Z6, Z8; lra|]. split; [rewrite T8; exact CP|]. split; [rewrite TA, T8; unfold tf; field; lra|].
  intros (_ & _ & _ & _ & H). specialize (H 6%nat). rewrite TA, T8, Z6, Z8, Rabs_left in H by nra. assert (0 < c * (0.0254 * zm)) by (apply Rmult_lt_0_compat; lra). nra.
Qed.

(** A stiff clay at 2 m depth *)
Example C135_example : exists y p, py_spring_fct (API_clay (PNum 100) (PNum 0.01) Static 0.5 false (MNum 1) (MNum 1)) (fun _ => 0) (mkPlace 20 2 10 2 2 20 true) 0 15 = Ok (y, map Some p) /\ length y = 15%nat /\ length p = 15%nat /\ softens y p.
Proof.
  apply C135_lateral_partial; try (cbn; lra); try lia; [intros i; lra|constructor; cbn; lra|cbn; unfold pos; lra|]. cbn. intros e _. left. reflexivity.
Qed.

(** The tip of a pile in Cowden till *)
Example C135_base_example : (exists y p, Hb_spring_fct (Cowden_clay (PNum 100) (PNum 50000) case_mults) case_place 0 15 = Ok (y, map Some p) /\ softens y p) /\
  (exists t M, Mb_spring_fct (Cowden_clay (PNum 100) (PNum 50000) case_mults) case_place 0 15 = Ok (t, map Some M) /\ softens t M).
Proof. apply C135_base_partial; [apply case_good| |lia|exact Logic.I]. cbn. unfold pos. lra. Qed.
(** Dense Dunkirk sand 1 m below the ground *)
Example C135_dunkirk_example : exists xs ys, mt_dunkirk 10 1 75 50000 100 4 16 15 = Ok (xs, map Some ys) /\ ~ softens xs ys /\ 0 < nth 1 ys 0 /\ 2.6 * (nth 1 ys 0 * nth 6 xs 0) < nth 6 ys 0 * nth 1 xs 0.
Proof. apply C135_moments_dunkirk_refuted; lra. Qed.
(** A plug that is half the shaft: the uplift branch starts one and a half times stiffer. *)
Example C135_axial_example : weaker_up PlugBoth 0.7 3 4 /\ weaker_up PlugNone 0.7 3 4 /\ ~ weaker_up PlugCompression 1 2 4 /\
  argsort (sand_backbone_z (fun _ => 0.5) 20) (seq 0 20) /\ at_depth 25 25 2 5 = Ok 25 /\ 0 < fmax_api_sand 100 25 0.8.
Proof.
  split; [cbn; lra|]. split; [cbn; lra|]. split; [cbn; lra|]. split; [change 20%nat with (Nat.max 15 20) at 2; rewrite <- (sand_z_length (fun _ => 0.5) 20); apply argsort_id, sand_z_sorted|].
  split; [rewrite at_depth_between by lra; f_equal; unfold between; field|]. unfold fmax_api_sand. cbv zeta.
  assert (T : 0 < tan (25 * PI / 180)) by (pose proof PI_RGT_0; apply tan_gt_0; lra). assert (F : 0 < rinterp fs_table 25) by (unfold fs_table; table). apply Rmin_glb_lt; [exact F|apply Rmult_lt_0_compat; lra].
Qed.

Print Assumptions C135_lateral_partial.
Print Assumptions C135_base_partial.
Print Assumptions C135_moments_partial.
Print Assumptions C135_clay_moments.
Print Assumptions C135_moments_dunkirk_refuted.
Print Assumptions C135_axial_partial.
Print Assumptions C135_plugged_refuted.
