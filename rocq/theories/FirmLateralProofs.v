(** Lemmas: the p-y curves of the lateral soil models in stronger soil. *)
From Coq Require Import Reals Lra Lia List Bool Arith Permutation.
From Verif Require Import Base ConicModel ConicSpec ConicProofs ConicProps PisaModel PisaSpec PisaProofs PisaProps ApiSandModel ApiSandSpec ApiSandProofs ApiClayModel ApiClaySpec ApiClayProofs ApiClayProps
  ReeseProofs AxialModel AxialProofs LateralModel LateralSpec LateralProofs FirmSpec FirmProofs.
Import ListNotations.
Local Open Scope R_scope.

Lemma inr15 : INR 15 = 15. Proof. cbn. lra. Qed.
Lemma regular_of_ok : forall x_u n k y_u m c, 1/50 <= x_u -> 0 < y_u -> 0 <= n < 1 -> (7 <= m)%nat -> INR m / 80 <= x_u + 6/80 -> conic x_u n k y_u m = Ok c -> samples_regular x_u n k y_u m.
Proof.
  intros x_u n k y_u m c XU YU HN M G E x I. destruct (conic_x_spec x_u m ltac:(lra) ltac:(lia)) as (_ & _ & RG & _). destruct (RG x I) as [P _].
  destruct (Req_dec x 0) as [Z|NZ]; [left; exact Z|]. destruct (grid_gap x_u m x G M ltac:(lra) XU I) as [H|H]; [right; left; exact H|]. right. right. intros S0.
  destruct (Req_dec n 0) as [Z|NN].
  - subst n. pose proof (Rmax_l (y_u / x_u) k) as K. assert (0 < y_u / x_u) by (apply Rdiv_lt_0_compat; lra). assert (0 < Rmax (y_u / x_u) k * x_u ^ 2) by (apply Rmult_lt_0_compat; [lra|apply pow_lt; lra]). lra.
  - rewrite (C42_division_by_zero_refuted x_u n k y_u m x) in E; [discriminate|lra|lra|lra|lra|lia|exact I|lra|exact H|exact S0].
Qed.
Lemma pisa_pair : forall x_u n k y_u num num' G0 G0' c, 1/8 <= x_u -> 0 < y_u -> 0 <= n < 1 -> 0 <= num <= num' -> 0 < G0 <= G0' -> scaled (conic x_u n k y_u 15) num G0 num = Ok c ->
  exists y p y' p', scaled (conic x_u n k y_u 15) num G0 num = Ok (y, map Some p) /\ scaled (conic x_u n k y_u 15) num' G0' num' = Ok (y', map Some p') /\ outdone y p y' p'.
Proof.
  intros x_u n k y_u num num' G0 G0' c XU YU HN HU HG E. assert (GAP : INR 15 / 80 <= x_u + 6/80) by (rewrite inr15; lra).
  assert (SR : samples_regular x_u n k y_u 15). { unfold scaled in E. destruct (conic x_u n k y_u 15) as [c0|e] eqn:Ec; cbn [bind] in E; [|discriminate]. apply (regular_of_ok _ _ _ _ _ c0); auto; [lra|lia]. }
  rewrite (conic_ok x_u n k y_u 15 ltac:(lra) YU (proj1 HN) (proj2 HN) ltac:(lia) SR) in *. unfold scaled. cbn [bind fst snd]. rewrite !nonzero_ok by lra.
  exists (map (fun v => v * (num / G0)) (conic_x x_u 15)), (map (fun v => v * num) (conic_y x_u n k y_u 15)), (map (fun v => v * (num' / G0')) (conic_x x_u 15)), (map (fun v => v * num') (conic_y x_u n k y_u 15)).
  split; [rewrite !map_map; reflexivity|]. split; [rewrite !map_map; reflexivity|]. assert (IG : 0 < / G0) by (apply Rinv_0_lt_compat; lra). assert (IG' : 0 < / G0') by (apply Rinv_0_lt_compat; lra).
  assert (IL : / G0' <= / G0) by (apply Rinv_le_contravar; lra). unfold conic_y. apply scaled_outdone; auto; try lia; try lra.
  - apply Rmult_le_pos; lra.
  - apply Rmult_le_pos; lra.
  - unfold Rdiv. replace (num' * / G0' * num) with (num * num' * / G0') by ring. replace (num * / G0 * num') with (num * num' * / G0) by ring. apply Rmult_le_compat_l; [apply Rmult_le_pos; lra|exact IL].
  - intros Z. apply Rmult_integral in Z. destruct Z; lra.
Qed.

Lemma value_custom : forall p q v, value p q = Ok v -> custom_value p q = Ok v.
Proof. intros [x|l|f] q v E; [exact E|exact E|discriminate]. Qed.
Lemma api_k_le : forall phi phi' b, 26 <= phi <= phi' -> api_k phi b <= api_k phi' b.
Proof.
  intros phi phi' b H. assert (T : 0 <= (phi' - phi) * (phi' + phi - 52)) by (apply Rmult_le_pos; lra). destruct b; unfold api_k; apply Rmax_lub; try apply Rmax_r; (eapply Rle_trans; [|apply Rmax_l]); cbn [pow]; lra.
Qed.
Lemma kallehave_le : forall phi phi' b X D, 26 <= phi <= phi' -> sand_k phi b (kallehave_k phi b X D) <= sand_k phi' b (kallehave_k phi' b X D).
Proof.
  intros phi phi' b X D H. pose proof (api_k_le phi phi' b H) as A. pose proof (api_k_pos phi b). pose proof (api_k_pos phi' b). unfold sand_k, kallehave_k. set (r := rpow (X / 2.5) 0.6). set (t := rpow (D / 0.61) 0.5).
  assert (R0 : 0 <= r) by apply rpow_nonneg. assert (T0 : 0 <= t) by apply rpow_nonneg. rewrite !Rmult_assoc. assert (RT : 0 <= r * t) by (apply Rmult_le_pos; auto). set (w := r * t) in *. clearbody w.
  destruct (Req_EM_T (api_k phi b * w) 0) as [Z|Z]; destruct (Req_EM_T (api_k phi' b * w) 0) as [Z'|Z'].
  - exact A.
  - exfalso. apply Rmult_integral in Z. destruct Z as [Z|Z]; [lra|]. rewrite Z, Rmult_0_r in Z'. lra.
  - exfalso. apply Rmult_integral in Z'. destruct Z' as [Z'|Z']; [lra|]. rewrite Z', Rmult_0_r in Z. lra.
  - apply Rmult_le_compat_r; lra.
Qed.
Lemma sorensen_le : forall phi phi' b X D, 0 < phi <= phi' -> 0 < D -> sand_k phi b (sorensen_k phi X D) <= sand_k phi' b (sorensen_k phi' X D).
Proof.
  intros phi phi' b X D H HD. unfold sorensen_k. cbv zeta. set (x := Rmax X 0.01). assert (XP : 0.01 <= x) by apply Rmax_r. pose proof PI_RGT_0 as PI0.
  assert (A1 : 0 < rpow (x / 1) 0.6) by (rewrite rpow_pos by lra; apply Rpower_gt0). assert (A2 : 0 < rpow (D / 1) 0.5) by (rewrite rpow_pos by lra; apply Rpower_gt0).
  assert (P0 : 0 < phi * (PI / 180)) by (apply Rmult_lt_0_compat; lra). assert (PL : phi * (PI / 180) <= phi' * (PI / 180)) by (apply Rmult_le_compat_r; lra).
  assert (A3 : 0 < rpow (phi * (PI / 180)) 3.6) by (rewrite rpow_pos by lra; apply Rpower_gt0). pose proof (rpow_mono _ _ 3.6 ltac:(lra) PL) as A4.
  set (c := 1 / x * 50000 * rpow (x / 1) 0.6 * rpow (D / 1) 0.5). assert (C0 : 0 < c). { unfold c. apply Rmult_lt_0_compat; [|exact A2]. apply Rmult_lt_0_compat; [|exact A1]. apply Rmult_lt_0_compat; [|lra]. apply Rdiv_lt_0_compat; lra. }
  assert (0 < c * rpow (phi * (PI / 180)) 3.6) by (apply Rmult_lt_0_compat; lra). assert (c * rpow (phi * (PI / 180)) 3.6 <= c * rpow (phi' * (PI / 180)) 3.6) by (apply Rmult_le_compat_l; lra).
  unfold sand_k. destruct (Req_EM_T (c * rpow (phi * (PI / 180)) 3.6) 0); [lra|]. destruct (Req_EM_T (c * rpow (phi' * (PI / 180)) 3.6) 0); lra.
Qed.

Lemma py_curve_firmer : forall m m' u u' q q', (forall i, 0 <= u i < 1) -> (forall i, 0 <= u' i < 1) -> good_place q -> good_place q' -> admissible m q 15 -> admissible m' q' 15 ->
  firmer m m' q -> no_shallower q q' ->
  exists y p y' p', py_curve m u q 0 15 = Ok (y, map Some p) /\ py_curve m' u' q' 0 15 = Ok (y', map Some p') /\ outdone y p y' p' /\ (forall v, In v y' -> 0 <= v) /\ (forall w, In w p -> 0 <= w).
Proof.
  intros m m' u u' q q' U U' G G' A A' F NS.
  destruct (py_curve_ok m u q 0 15 U G A ltac:(lra) ltac:(lia)) as (y0 & p0 & E0 & SC & _). destruct (py_curve_ok m' u' q' 0 15 U' G' A' ltac:(lra) ltac:(lia)) as (y0' & p0' & E0' & SC' & _).
  exists y0, p0, y0', p0'. split; [exact E0|]. split; [exact E0'|]. cut (outdone y0 p0 y0' p0').
  { intros O. split; [exact O|]. destruct SC as (_ & _ & _ & _ & _ & PN). destruct SC' as (_ & _ & Z & _ & ND & _). split; [apply nd_nonneg; auto|exact PN]. }
  assert (SM : forall l l' : list R, map Some l = map Some l' -> l = l'). { induction l as [|a t IH]; intros [|a' t'] E; try discriminate; [reflexivity|]. injection E as -> E. f_equal. apply IH. exact E. }
  cut (exists y p y' p', py_curve m u q 0 15 = Ok (y, map Some p) /\ py_curve m' u' q' 0 15 = Ok (y', map Some p') /\ outdone y p y' p').
  { intros (y & p & y' & p' & E & E' & O). rewrite E in E0. rewrite E' in E0'. injection E0 as <- Ep. injection E0' as <- Ep'. apply SM in Ep. apply SM in Ep'. subst. exact O. }
  clear SC SC' E0' p0' y0'.
  destruct q as [sig X height depth D L wet], q' as [sig' X' height' depth' D' L' wet']. unfold no_shallower in NS. cbn [q_sig q_X q_height q_depth q_D q_L q_wet] in NS.
  destruct NS as (HS & -> & -> & -> & -> & -> & ->). destruct G as [G1 G2 GD GS GX], G' as [_ _ _ GS' _]. cbn [q_sig q_X q_height q_depth q_D q_L q_wet] in *.
  destruct m; destruct m'; cbn [firmer] in F; try contradiction; cbn [admissible] in A, A'; cbn [py_curve] in *; unfold at_most, from, value, custom_value in *; cbn [q_sig q_X q_height q_depth q_D q_L q_wet] in *.
  - (* Bothkennar clay *)
    destruct A as (A1 & A2 & A3), A' as (A1' & A2' & _), F as [F1 F2].
    destruct (value_in _ _ _ _ pos_convex A1 G1 G2) as (s & E1 & P1). destruct (value_in _ _ _ _ pos_convex A2 G1 G2) as (g & E2 & P2).
    destruct (value_in _ _ _ _ pos_convex A1' G1 G2) as (s' & E1' & P1'). destruct (value_in _ _ _ _ pos_convex A2' G1 G2) as (g' & E2' & P2').
    assert (L1 : s <= s') by (apply F1; apply (value_custom _ (mkPlace sig X height depth D L wet)); assumption). assert (L2 : g <= g') by (apply F2; apply (value_custom _ (mkPlace sig X height depth D L wet)); assumption).
    rewrite E1, E2 in *. rewrite E1', E2'. cbn [bind] in *. unfold pos, py_bothkennar in *. rewrite !nonzero_ok by lra. rewrite !nonzero_ok in E0 by lra. revert E0. rewrite !(mulr _ X D). intros E0.
    destruct (frac01 X D 6 GD GX A3) as [R0 R6]. set (r := X / D) in *. destruct (exp_neg (-0.8456) r ltac:(lra) R0) as [X0 X1]. set (e := exp (-0.8456 * r)) in *.
    apply (pisa_pair _ _ _ _ _ _ _ _ (y0, map Some p0)); try lra; try exact E0. split; [apply Rmult_le_pos; lra|apply Rmult_le_compat_r; lra].
  - (* Cowden clay *)
    destruct A as (A1 & A2 & A3), A' as (A1' & A2' & _), F as [F1 F2].
    destruct (value_in _ _ _ _ pos_convex A1 G1 G2) as (s & E1 & P1). destruct (value_in _ _ _ _ pos_convex A2 G1 G2) as (g & E2 & P2).
    destruct (value_in _ _ _ _ pos_convex A1' G1 G2) as (s' & E1' & P1'). destruct (value_in _ _ _ _ pos_convex A2' G1 G2) as (g' & E2' & P2').
    assert (L1 : s <= s') by (apply F1; apply (value_custom _ (mkPlace sig X height depth D L wet)); assumption). assert (L2 : g <= g') by (apply F2; apply (value_custom _ (mkPlace sig X height depth D L wet)); assumption).
    rewrite E1, E2 in *. rewrite E1', E2'. cbn [bind] in *. unfold pos, py_cowden in *. rewrite !nonzero_ok by lra. rewrite !nonzero_ok in E0 by lra. revert E0. rewrite !(mulr _ X D). intros E0.
    destruct (frac01 X D 6 GD GX A3) as [R0 R6]. set (r := X / D) in *. destruct (exp_neg (-0.3085) r ltac:(lra) R0) as [X0 X1]. set (e := exp (-0.3085 * r)) in *.
    apply (pisa_pair _ _ _ _ _ _ _ _ (y0, map Some p0)); try lra; try exact E0. split; [apply Rmult_le_pos; lra|apply Rmult_le_compat_r; lra].
  - (* Dunkirk sand *)
    destruct A as (A1 & A2 & A3 & A4 & A5), A' as (A1' & A2' & _), F as [-> F2].
    destruct (value_in _ _ _ _ density_convex A1 G1 G2) as (s & E1 & P1). destruct (value_in _ _ _ _ pos_convex A2 G1 G2) as (g & E2 & P2).
    destruct (value_in _ _ _ _ pos_convex A2' G1 G2) as (g' & E2' & P2').
    assert (L2 : g <= g') by (apply F2; apply (value_custom _ (mkPlace sig X height depth D L wet)); assumption).
    rewrite E1, E2 in *. rewrite E2'. cbn [bind] in *. unfold pos, density, py_dunkirk in *. cbv zeta in *. rewrite !nonzero_ok by lra. rewrite !nonzero_ok in E0 by lra. revert E0. rewrite !(mulr _ X L), !(mulr _ X D). intros E0.
    destruct (frac01 X L 1 ltac:(lra) GX ltac:(lra)) as [R0 R1]. assert (d0 : 0 <= s / 100 <= 1) by lra. set (d := s / 100) in *. set (r := X / L) in *. change (Nat.max 8 15) with 15%nat in *.
    assert (D1 : 0 <= d * (1 - r)) by (apply Rmult_le_pos; lra). assert (D2 : 0 <= d * r) by (apply Rmult_le_pos; lra).
    apply (pisa_pair _ _ _ _ _ _ _ _ (y0, map Some p0)); try lra; try exact E0. split; [apply Rmult_le_pos; lra|apply Rmult_le_compat_r; lra].
  - (* API sand *)
    destruct A as (A1 & A2), A' as (A1' & A2'), F as (-> & -> & F1 & F2).
    destruct (value_in _ _ _ _ (within_convex 15 45) A1 G1 G2) as (s & E1 & P1). destruct (value_in _ _ _ _ (within_convex 15 45) A1' G1 G2) as (s' & E1' & P1').
    assert (L1 : s <= s') by (apply F1; apply (value_custom _ (mkPlace sig X height depth D L wet)); assumption). rewrite E1, E1' in *. cbn [bind] in *. unfold within in *.
    assert (LO : (forall v, at_current_depth phi depth height X = Ok v -> 26 <= v) -> 26 <= s) by (intros H; apply H; apply (value_custom _ (mkPlace sig X height depth D L wet)); exact E1).
    cut (exists kk kk', subgrade s k modif (mkPlace sig X height depth D L wet) = Ok kk /\ subgrade s' k0 modif (mkPlace sig' X height depth D L wet) = Ok kk' /\ 0 <= kk /\ 0 <= kk' /\ sand_k s wet kk <= sand_k s' wet kk').
    { intros (kk & kk' & K1 & K2 & K3 & K4 & K5). rewrite K1, K2. cbn [bind]. destruct (api_sand_outdone sig sig' X s s' D kind wet kk kk' 15) as (y & p & y' & p' & Q1 & Q2 & O); auto; try lra.
      rewrite Q1, Q2. exists y, p, y', p'. split; [reflexivity|]. split; [reflexivity|exact O]. }
    assert (V : forall (k : option rparam), match k with Some p => all_values pos p | None => True end -> exists v, match k with Some p => in_layer p depth height | None => Ok 0 end = Ok v /\ 0 <= v /\ (k <> None -> 0 < v)).
    { intros [p|] Hp; [destruct (value_in _ _ _ _ pos_convex Hp G1 G2) as (v & E & P); exists v; unfold pos in P; split; [exact E|split; lra]|exists 0; split; [reflexivity|split; [lra|congruence]]]. }
    destruct (V k A2) as (kv & EK & KN & KP). destruct (V k0 A2') as (kv' & EK' & KN' & KP'). unfold subgrade, value. cbn [q_sig q_X q_height q_depth q_D q_L q_wet]. rewrite EK, EK'. cbn [bind]. do 2 eexists. split; [reflexivity|]. split; [reflexivity|].
    destruct modif as [[]|].
    + split; [apply kallehave_nonneg|]. split; [apply kallehave_nonneg|]. apply kallehave_le. split; [apply LO; exact F2|exact L1].
    + split; [apply sorensen_nonneg|]. split; [apply sorensen_nonneg|]. apply sorensen_le; lra.
    + split; [exact KN|]. split; [exact KN'|]. destruct k as [k|]; destruct k0 as [k0|]; try contradiction.
      * specialize (KP ltac:(discriminate)). specialize (KP' ltac:(discriminate)). unfold sand_k. destruct (Req_EM_T kv 0); [lra|]. destruct (Req_EM_T kv' 0); [lra|].
        apply F2; apply (value_custom _ (mkPlace sig X height depth D L wet)); assumption.
      * injection EK as <-. injection EK' as <-. unfold sand_k. destruct (Req_EM_T 0 0); [|lra]. apply api_k_le. split; [apply LO; exact F2|exact L1].
  - (* API clay *)
    destruct A as (A1 & A2 & A3), A' as (A1' & A2' & A3'), F as (-> & -> & F1 & F2 & FJ).
    destruct (value_in _ _ _ _ pos_convex A1 G1 G2) as (s & E1 & P1). destruct (value_in _ _ _ _ pos_convex A2 G1 G2) as (g & E2 & P2).
    destruct (value_in _ _ _ _ pos_convex A1' G1 G2) as (s' & E1' & P1'). destruct (value_in _ _ _ _ pos_convex A2' G1 G2) as (g' & E2' & P2').
    assert (L1 : s <= s') by (apply F1; apply (value_custom _ (mkPlace sig X height depth D L wet)); assumption). assert (L2 : g' <= g) by (apply F2; apply (value_custom _ (mkPlace sig X height depth D L wet)); assumption).
    rewrite E1, E2, E1', E2'. cbn [bind]. unfold pos in *.
    pose proof (C46_api_clay_partial u sig X s g D J Static 0 15 U P2 GD GS GX ltac:(lra) ltac:(lra) ltac:(lra)) as C. pose proof (C46_api_clay_partial u' sig' X s' g' D J0 Static 0 15 U' P2' GD GS' GX ltac:(lra) ltac:(lra) ltac:(lra)) as C'.
    destruct (clay_outdone _ _ _ _ _ _ (Nat.max 8 15) _ _ _ _ _ _ _ _ _ _ _ _ (conj GS HS) GX (conj P1 L1) GD (conj (Rlt_le_trans 0 0.25 J ltac:(lra) (proj1 A3)) FJ) (conj P2' L2) (Nat.lt_0_succ 14) C C') as (y & p & y' & p' & Q1 & Q2 & O).
    rewrite Q1, Q2. exists y, p, y', p'. split; [reflexivity|]. split; [reflexivity|exact O].
  - (* modified Matlock clay *)
    destruct A as (A1 & A2 & A3), A' as (A1' & A2' & A3'), F as (-> & -> & F1 & F2 & FJ).
    destruct (value_in _ _ _ _ pos_convex A1 G1 G2) as (s & E1 & P1). destruct (value_in _ _ _ _ pos_convex A2 G1 G2) as (g & E2 & P2).
    destruct (value_in _ _ _ _ pos_convex A1' G1 G2) as (s' & E1' & P1'). destruct (value_in _ _ _ _ pos_convex A2' G1 G2) as (g' & E2' & P2').
    assert (L1 : s <= s') by (apply F1; apply (value_custom _ (mkPlace sig X height depth D L wet)); assumption). assert (L2 : g' <= g) by (apply F2; apply (value_custom _ (mkPlace sig X height depth D L wet)); assumption).
    rewrite E1, E2, E1', E2'. cbn [bind]. unfold pos in *.
    pose proof (C46_modified_matlock_partial u sig X s g D J Static 0 15 U P2 GD GS GX ltac:(lra) ltac:(lra) ltac:(lra)) as C. pose proof (C46_modified_matlock_partial u' sig' X s' g' D J0 Static 0 15 U' P2' GD GS' GX ltac:(lra) ltac:(lra) ltac:(lra)) as C'.
    destruct (clay_outdone _ _ _ _ _ _ (Nat.max 8 15) _ _ _ _ _ _ _ _ _ _ _ _ (conj GS HS) GX (conj P1 L1) GD (conj (Rlt_le_trans 0 0.25 J ltac:(lra) (proj1 A3)) FJ) (conj P2' L2) (Nat.lt_0_succ 14) C C') as (y & p & y' & p' & Q1 & Q2 & O).
    rewrite Q1, Q2. exists y, p, y', p'. split; [reflexivity|]. split; [reflexivity|exact O].
  - (* custom PISA sand *)
    destruct A as (A1 & A2 & A3), A' as (A1' & _ & _), F as (-> & F1 & F2).
    destruct (custom_value_in _ _ depth height X pos_convex A1 G1 G2) as (g & E1 & P1). destruct (custom_value_in _ _ depth height X pos_convex A1' G1 G2) as (g' & E1' & P1').
    assert (L1 : g <= g') by (apply F1; assumption). rewrite E1, E1' in *. cbn [bind] in *.
    assert (GP : good_place (mkPlace sig X height depth D L wet)) by (constructor; assumption). assert (GP' : good_place (mkPlace sig' X height depth D L wet)) by (constructor; assumption).
    destruct (four_ok py _ GP A2 A3) as (x & c & k & yy & W & CV & PK & PY & RG & EQ). assert (EX : at_current_depth (f_X py) depth height X = Ok x).
    { specialize (EQ (fun x _ _ _ => Ok ([x], []))). unfold with_four, custom_value in EQ. cbn [q_X q_depth q_height] in EQ. destruct (at_current_depth (f_X py) depth height X); [|discriminate]. cbn [bind] in EQ.
      destruct (at_current_depth (f_n py) depth height X); [|discriminate]. destruct (at_current_depth (f_k py) depth height X); [|discriminate]. destruct (at_current_depth (f_Y py) depth height X); [|discriminate]. cbn [bind] in EQ. injection EQ as ->. reflexivity. }
    specialize (F2 x EX). change (with_four py (mkPlace sig' X height depth D L wet)) with (with_four py (mkPlace sig X height depth D L wet)). rewrite EQ in *. rewrite EQ. unfold curvature, pos, py_custom_sand in *.
    apply (pisa_pair _ _ _ _ _ _ _ _ (y0, map Some p0)); try lra; try exact E0. split; [apply Rmult_le_pos; lra|apply Rmult_le_compat_r; lra].
  - (* custom PISA clay *)
    destruct A as (A0 & A1 & A2 & A3), A' as (A0' & A1' & _ & _), F as (-> & F0 & F1 & F2).
    destruct (custom_value_in _ _ depth height X pos_convex A0 G1 G2) as (s & E1' & P0). destruct (custom_value_in _ _ depth height X pos_convex A0' G1 G2) as (s' & E2' & P0').
    destruct (custom_value_in _ _ depth height X pos_convex A1 G1 G2) as (g & E3 & P1). destruct (custom_value_in _ _ depth height X pos_convex A1' G1 G2) as (g' & E4 & P1').
    assert (L0 : s <= s') by (apply F0; assumption). assert (L1 : g <= g') by (apply F1; assumption). rewrite E1', E2', E3, E4 in *. cbn [bind] in *.
    assert (GP : good_place (mkPlace sig X height depth D L wet)) by (constructor; assumption).
    destruct (four_ok py _ GP A2 A3) as (x & c & k & yy & W & CV & PK & PY & RG & EQ). assert (EX : at_current_depth (f_X py) depth height X = Ok x).
    { specialize (EQ (fun x _ _ _ => Ok ([x], []))). unfold with_four, custom_value in EQ. cbn [q_X q_depth q_height] in EQ. destruct (at_current_depth (f_X py) depth height X); [|discriminate]. cbn [bind] in EQ.
      destruct (at_current_depth (f_n py) depth height X); [|discriminate]. destruct (at_current_depth (f_k py) depth height X); [|discriminate]. destruct (at_current_depth (f_Y py) depth height X); [|discriminate]. cbn [bind] in EQ. injection EQ as ->. reflexivity. }
    specialize (F2 x EX). change (with_four py (mkPlace sig' X height depth D L wet)) with (with_four py (mkPlace sig X height depth D L wet)). rewrite EQ in *. rewrite EQ. unfold curvature, pos, py_custom_clay in *.
    apply (pisa_pair _ _ _ _ _ _ _ _ (y0, map Some p0)); try lra; try exact E0. split; [apply Rmult_le_pos; lra|apply Rmult_le_compat_r; lra].
Qed.

Lemma py_spring_firmer : forall m m' u u' q q', (forall i, 0 <= u i < 1) -> (forall i, 0 <= u' i < 1) -> good_place q -> good_place q' -> admissible m q 15 -> admissible m' q' 15 ->
  firmer m m' q -> no_shallower q q' -> no_weaker m m' q -> 0 <= at_X (p_multiplier m) (q_X q) -> 0 < at_X (y_multiplier m') (q_X q) ->
  exists y p y' p', py_spring_fct m u q 0 15 = Ok (y, map Some p) /\ py_spring_fct m' u' q' 0 15 = Ok (y', map Some p') /\ outdone y p y' p'.
Proof.
  intros m m' u u' q q' U U' G G' A A' F NS [NP NY] PM YM. destruct (py_curve_firmer m m' u u' q q' U U' G G' A A' F NS) as (y & p & y' & p' & E & E' & O & YN & PN).
  unfold py_spring_fct. rewrite !inside_ok by (apply g_depth; assumption). rewrite E, E'. cbn [bind]. rewrite !scaled_numbers. do 4 eexists. split; [reflexivity|]. split; [reflexivity|].
  destruct NS as (_ & -> & _). apply outdone_scale; auto; lra.
Qed.
