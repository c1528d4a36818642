(** Property C121 for the moment springs of API sand: their friction is limited by a table in kPa. *)
From Coq Require Import List Reals Lra Lia Arith.
From Verif Require Import Base ConicModel PisaModel ApiSandModel ApiSandSpec ApiSandProofs ApiClayModel AxialModel AxialSpec AxialProofs
  ApiSandProps LateralModel LateralSpec LateralProofs MomentProofs LateralProps DimSpec DimProofs ScaleProofs DimProps.
Import ListNotations.
Local Open Scope R_scope.

Lemma measured_eq : forall cx cy r r', measured cx cy r r' -> r' = smap (cv cx cy) r.
Proof. intros cx cy [[a b]|e] [[a' b']|e'] H; cbn in *; try contradiction; [destruct H as [-> ->]; reflexivity|subst; reflexivity]. Qed.

Lemma array_max_units : forall f p, 0 < f -> p <> [] -> array_max (map (Rmult f) p) = f * array_max p.
Proof.
  intros f p Hf N. destruct (array_max_is p N) as [I1 B1]. destruct (array_max_is (map (Rmult f) p)) as [I2 B2]; [destruct p; [contradiction|discriminate]|].
  apply Rle_antisym.
  - apply in_map_iff in I2. destruct I2 as (x & E & Ix). rewrite <- E. apply Rmult_le_compat_l; [lra|apply B1, Ix].
  - apply B2, in_map, I1.
Qed.
Lemma normalised_units : forall f p, 0 < f -> (forall v, In v p -> 0 <= v) -> normalised (map (Rmult f) p) = normalised p.
Proof.
  intros f p Hf P. destruct p as [|a t] eqn:E; [reflexivity|]. rewrite <- E in *. assert (N : p <> []) by (subst; discriminate).
  unfold normalised. rewrite (array_max_units f p Hf N). destruct (array_max_is p N) as [_ B].
  destruct (Rlt_dec 0 (array_max p)) as [Z|Z].
  - destruct (Rlt_dec 0 (f * array_max p)) as [W|W]; [|exfalso; apply W, Rmult_lt_0_compat; assumption]. rewrite map_map. apply map_ext. intros v. field. split; lra.
  - destruct (Rlt_dec 0 (f * array_max p)) as [W|W]; [exfalso; apply Z; apply (Rmult_lt_reg_l f); lra|].
    rewrite <- (map_id p) at 2. apply map_ext_in. intros v I1. pose proof (P v I1). pose proof (B v I1). assert (v = 0) by lra. subst v. ring.
Qed.
Lemma plain_units : forall f l, plain (map (option_map (Rmult f)) l) = map (Rmult f) (plain l).
Proof. intros. unfold plain. rewrite !map_map. apply map_ext. intros [x|]; cbn; ring. Qed.

(** The moment springs in another unit of force, if the friction is multiplied by [g] *)
Lemma sand_rows : forall f g phi kind p e pm ym u idx q ymax n, 0 < f -> 0 < g -> (forall i, 0 <= u i < 1) -> good_place q -> 0 <= ymax -> (8 <= n)%nat ->
  let m := API_sand phi kind (Some p) None e pm ym in admissible m q n -> 0 <= at_X pm (q_X q) -> ymax <> 0 \/ (0.1 <= q_X q /\ 0 < q_sig q) ->
  (forall v, value phi q = Ok v -> fmax_api_sand (f * q_sig q) (v - 5) 0.8 = g * fmax_api_sand (q_sig q) (v - 5) 0.8) ->
  mt_spring_fct (model_units f 1 m) u idx (place_units f 1 q) ymax n = smap (rw 1 g) (mt_spring_fct m u idx q ymax n).
Proof.
  intros f g phi kind p e pm ym u idx q ymax n Hf Hg U G HY N m A HP Hy HF. pose proof G as [G1 G2 GD GS GX]. pose proof A as [A1 A2].
  assert (H1 : 0 < 1) by lra. assert (Ef : per_area f 1 = f) by (unfold per_area; field). assert (El : per_length f 1 = f) by (unfold per_length; field).
  assert (PY : py_spring_fct (model_units f 1 m) u (place_units f 1 q) ymax n = smap (cv 1 f) (py_spring_fct m u q ymax n)).
  { rewrite <- (Rmult_1_l ymax) at 1. rewrite <- El at 3. apply measured_eq. apply C121_sand_partial; auto.
    - intros k Ek. destruct (value_in _ _ _ _ pos_convex A2 G1 G2) as (s & E1 & P1). unfold value in Ek. rewrite E1 in Ek. injection Ek as <-. unfold pos in P1. lra.
    - destruct Hy as [Hy|[Hx Hs]]; [left; exact Hy|right]. repeat split; try lra.
      all: destruct (value_in _ _ _ _ (within_convex 15 45) A1 G1 G2) as (s & E1 & P1); unfold value in H; rewrite E1 in H; injection H as <-; unfold within in P1; lra. }
  assert (K : mt_curve (model_units f 1 m) u idx (place_units f 1 q) ymax n = smap (rw 1 g) (mt_curve m u idx q ymax n)).
  { change (mt_curve m u idx q ymax n) with (bind (value phi q) (fun phi => bind (py_spring_fct m u q ymax n) (fun c =>
      let norms := normalised (plain (snd c)) in let '(z, tz) := tz_api_sand u idx (q_sig q) (phi - 5) 0.8 1 n in
      Ok (repeat (api_rotation (q_D q) n z) n, map (fun norm => map Some (api_moment (q_D q) n tz norm)) norms)))).
    change (mt_curve (model_units f 1 m) u idx (place_units f 1 q) ymax n) with (bind (value (param_times 1 1 phi) (place_units f 1 q)) (fun phi => bind (py_spring_fct (model_units f 1 m) u (place_units f 1 q) ymax n) (fun c =>
      let norms := normalised (plain (snd c)) in let '(z, tz) := tz_api_sand u idx (per_area f 1 * q_sig q) (phi - 5) 0.8 1 n in
      Ok (repeat (api_rotation (1 * q_D q) n z) n, map (fun norm => map Some (api_moment (1 * q_D q) n tz norm)) norms)))).
    rewrite Ef, Rmult_1_l. apply (bind_smap _ _ _ _ (Rmult 1)); [apply value_units; auto|]. intros v Hv. rewrite Rmult_1_l.
    apply (bind_smap _ _ _ _ (cv 1 f)); [exact PY|]. intros c Hc. cbn [cv snd]. rewrite plain_units, normalised_units; [|exact Hf|].
    2:{ destruct (py_curve_ok m u q ymax n U G A HY N) as (y0 & p0 & EP & (_ & _ & _ & _ & _ & PP0) & _).
        unfold py_spring_fct in Hc. rewrite inside_ok in Hc by lra. rewrite EP in Hc. cbn [bind p_multiplier y_multiplier m] in Hc. rewrite scaled_numbers in Hc. injection Hc as <-. cbn [snd].
        rewrite plain_some. intros w I0. apply in_map_iff in I0. destruct I0 as (x & <- & I0). apply Rmult_le_pos; auto. }
    unfold tz_api_sand. rewrite (HF v Hv), scale_units. unfold smap, rw. cbn [bind fst snd]. f_equal. f_equal.
    - rewrite rep_map. f_equal. rewrite <- map_id at 1. apply map_ext. intros; ring.
    - rewrite map_map. apply map_ext. intros w. rewrite api_moment_units by auto. rewrite !map_map. reflexivity. }
  unfold mt_spring_fct, m. fold m. cbn [model_units]. change (API_sand (ratio 1 phi) kind (option_map (param_times 1 (per_volume f 1)) (Some p)) None e (mult_units 1 pm) (mult_units 1 ym)) with (model_units f 1 m).
  apply (smap_inside _ _ _ 1); auto. apply (bind_smap _ _ _ _ (rw 1 g)); [exact K|]. intros c _. unfold smap. cbn [bind]. f_equal. rewrite m_mult_units, t_mult_units by auto. apply scaled_rows_units.
Qed.

(** API sand with a subgrade modulus given by the user, in another unit of force: below the limits of the table *)
Theorem C121_sand_moment_springs_partial : forall f phi kind p e pm ym u idx q ymax n, 0 < f -> (forall i, 0 <= u i < 1) -> good_place q -> 0 <= ymax -> (8 <= n)%nat ->
  let m := API_sand phi kind (Some p) None e pm ym in admissible m q n -> 0 <= at_X pm (q_X q) -> ymax <> 0 \/ (0.1 <= q_X q /\ 0 < q_sig q) ->
  (forall v, value phi q = Ok v -> friction_unlimited f (q_sig q) (v - 5) 0.8) ->
  measured_rows 1 f (mt_spring_fct m u idx q ymax n) (mt_spring_fct (model_units f 1 m) u idx (place_units f 1 q) ymax n).
Proof. intros. apply measured_rw, sand_rows; auto. intros v Hv. apply fmax_sand_units; auto. Qed.
Print Assumptions C121_sand_moment_springs_partial.

(** Where the table governs, the moments are the same numbers in every larger unit of force. *)
Lemma sand_moment_limit : forall f phi kind p e pm ym u idx q ymax n, 1 < f -> (forall i, 0 <= u i < 1) -> good_place q -> 0 <= ymax -> (8 <= n)%nat ->
  let m := API_sand phi kind (Some p) None e pm ym in admissible m q n -> 0 <= at_X pm (q_X q) -> ymax <> 0 \/ (0.1 <= q_X q /\ 0 < q_sig q) ->
  (forall v, value phi q = Ok v -> 0 < rinterp fs_table (v - 5) <= 0.8 * q_sig q * tan ((v - 5) * PI / 180)) ->
  let mt := mt_spring_fct m u idx q ymax n in let mt' := mt_spring_fct (model_units f 1 m) u idx (place_units f 1 q) ymax n in
  (exists c, mt = Ok c /\ mt' = Ok c) /\ (forall c row x, mt = Ok c -> In row (snd c) -> In (Some x) row -> x <> 0 -> ~ measured_rows 1 f mt mt').
Proof.
  intros f phi kind p e pm ym u idx q ymax n Hf U G HY N m A HP Hy HL mt mt'.
  assert (E : mt' = smap (rw 1 1) mt).
  { apply (sand_rows f 1); auto; try lra. intros v Hv. destruct (HL v Hv) as [T0 T1]. rewrite Rmult_1_l. apply (fmax_sand_limited f _ _ _ Hf T0 T1). }
  assert (ID : forall c, rw 1 1 c = c).
  { intros [a b]. unfold rw. cbn [fst snd]. f_equal; rewrite <- map_id; apply map_ext; intros r; rewrite <- map_id; apply map_ext; [intros; ring|intros [v|]; cbn; [f_equal; ring|reflexivity]]. }
  assert (EQ : mt' = mt) by (rewrite E; unfold smap; destruct mt as [c|]; cbn [bind]; [rewrite ID|]; reflexivity).
  split.
  - pose proof G as [G1 G2 GD GS GX]. pose proof A as [A1 A2]. destruct (value_in _ _ _ _ (within_convex 15 45) A1 G1 G2) as (s & E1 & _).
    destruct (py_curve_ok m u q ymax n U G A HY N) as (y0 & p0 & EP & _ & _).
    assert (S0 : exists c, mt = Ok c).
    { unfold mt, mt_spring_fct, m. fold m. rewrite inside_ok by lra. unfold mt_curve, m. fold m. unfold value. rewrite E1. cbn [bind]. unfold py_spring_fct. rewrite inside_ok by lra. rewrite EP. cbn [bind]. eexists. reflexivity. }
    destruct S0 as [c S0]. exists c. rewrite EQ. split; exact S0.
  - intros c row x EC IR IX NZ. rewrite EQ, EC. cbn [measured_rows]. intros [_ M]. apply NZ.
    apply In_nth with (d := []) in IR. destruct IR as (i & Hi & Ei). apply In_nth with (d := None) in IX. destruct IX as (j & Hj & Ej).
    apply (f_equal (fun r => nth j (nth i r []) None)) in M. change (@nil (option R)) with (map (option_map (Rmult f)) []) in M at 2. rewrite map_nth in M.
    change (@None R) with (option_map (Rmult f) None) in M at 2. rewrite map_nth, Ei, Ej in M. cbn [option_map] in M. injection M as M.
    assert (Z : (f - 1) * x = 0) by lra. apply Rmult_integral in Z. lra.
Qed.

(** A sand with resistance has a moment. *)
Lemma sand_moment_there : forall phi kind p e pm ym u idx q n, (forall i, 0 <= u i < 1) -> good_place q -> (15 <= n)%nat -> argsort (sand_backbone_z u n) idx ->
  let m := API_sand phi kind (Some p) None e pm ym in admissible m q n -> 0 < at_X pm (q_X q) -> 0.1 <= q_X q -> 0 < q_sig q ->
  (forall v, value phi q = Ok v -> 0 < fmax_api_sand (q_sig q) (v - 5) 0.8) ->
  exists c row x, mt_spring_fct m u idx q 0 n = Ok c /\ In row (snd c) /\ In (Some x) row /\ x <> 0.
Proof.
  intros phi kind p e pm ym u idx q n U G N IX m A HP HX HS HF. pose proof G as [G1 G2 GD GS GX]. pose proof A as [A1 A2].
  destruct (C73_sand_moment phi kind (Some p) None e pm ym u idx q 0 n U G ltac:(lra) A ltac:(lra) IX N) as (v & Ev & y & pp & T & M & EP & EM & LP & LT & LM & H). fold m in EP, EM.
  destruct (value_in _ _ _ _ (within_convex 15 45) A1 G1 G2) as (s & E1 & P1). unfold within in P1. assert (s = v) by (unfold value in Ev; congruence). subst s.
  destruct (value_in _ _ _ _ pos_convex A2 G1 G2) as (k & E2 & P2). unfold pos in P2.
  destruct (C45_api_sand_curve (q_sig q) (q_X q) v (q_D q) kind (q_wet q) k 0 n ltac:(lra) ltac:(lra) GD HS GX ltac:(lra) ltac:(lra)) as (kk & y0 & p0 & EA & _ & _ & _ & L0 & _ & _ & _ & _ & _ & _ & LU).
  specialize (LU eq_refl HX). pose proof (C45_ultimate_positive (q_sig q) (q_X q) v (q_D q) ltac:(lra) ltac:(lra) GD HS GX) as UP.
  assert (LP0 : 0 < last p0 0).
  { assert (0 < match kind with Static => Rmax 0.9 (3 - 0.8 * q_X q / q_D q) | Cyclic => 0.9 end) as AP by (destruct kind; [apply (Rlt_le_trans _ 0.9); [lra|apply Rmax_l]|lra]).
    pose proof (Rmult_lt_0_compat _ _ AP UP). lra. }
  assert (PE : pp = map (fun w => w * at_X pm (q_X q)) p0).
  { unfold py_spring_fct, m in EP. rewrite inside_ok in EP by lra. cbn [py_curve] in EP. unfold subgrade, value in EP. rewrite E1, E2 in EP. cbn [bind] in EP. rewrite EA in EP. cbn [numbers bind p_multiplier y_multiplier fst snd] in EP.
    rewrite scaled_numbers in EP. assert (X : map Some (map (fun w => w * at_X pm (q_X q)) p0) = map Some pp) by congruence.
    apply (f_equal plain) in X. rewrite !plain_some in X. symmetry. exact X. }
  assert (PN : pp <> []) by (intros Z; rewrite Z in LP; cbn in LP; lia). destruct (array_max_is pp PN) as [MI MB].
  assert (MP : 0 < array_max pp).
  { apply (Rlt_le_trans _ (last p0 0 * at_X pm (q_X q))); [apply Rmult_lt_0_compat; assumption|]. apply MB. rewrite PE. apply (in_map (fun w => w * at_X pm (q_X q))).
    apply last_in. intros Z. rewrite Z in L0. cbn [length] in L0. lia. }
  pose proof MI as MI'. apply In_nth with (d := 0) in MI'. destruct MI' as (i & Hi & Ei). rewrite LP in Hi.
  destruct (H i Hi) as (_ & LMi & _ & _ & _ & _ & _ & _ & HM). specialize (HM (array_max pp) (conj MI MB) 1%nat ltac:(lia)).
  destruct (Rlt_dec 0 (array_max pp)) as [_|Z]; [|contradiction]. rewrite Ei in HM.
  exists (T, map (map Some) M), (map Some (nth i M [])), (nth 1 (nth i M []) 0). split; [exact EM|]. cbn [snd]. split; [apply in_map, nth_In; lia|]. split; [apply in_map, nth_In; lia|].
  rewrite HM. replace (array_max pp / array_max pp) with 1 by (field; lra). pose proof (HF v Ev) as F0. pose proof PI_RGT_0.
  assert (0 < PI / 4 * q_D q ^ 2 * fmax_api_sand (q_sig q) (v - 5) 0.8); [|lra].
  apply Rmult_lt_0_compat; [apply Rmult_lt_0_compat; [lra|apply pow_lt, GD]|exact F0].
Qed.

Theorem C121_sand_moment_limit_refuted : forall f phi kind p e pm ym u idx q n, 1 < f -> (forall i, 0 <= u i < 1) -> good_place q -> (15 <= n)%nat -> argsort (sand_backbone_z u n) idx ->
  let m := API_sand phi kind (Some p) None e pm ym in admissible m q n -> 0 < at_X pm (q_X q) -> 0.1 <= q_X q -> 0 < q_sig q ->
  (forall v, value phi q = Ok v -> 0 < rinterp fs_table (v - 5) <= 0.8 * q_sig q * tan ((v - 5) * PI / 180)) ->
  let mt := mt_spring_fct m u idx q 0 n in let mt' := mt_spring_fct (model_units f 1 m) u idx (place_units f 1 q) 0 n in
  (exists c, mt = Ok c /\ mt' = Ok c) /\ ~ measured_rows 1 f mt mt'.
Proof.
  intros f phi kind p e pm ym u idx q n Hf U G N IX m A HP HX HS HL mt mt'.
  destruct (sand_moment_limit f phi kind p e pm ym u idx q 0 n Hf U G ltac:(lra) ltac:(lia) A ltac:(lra) ltac:(right; lra) HL) as [S0 S1]. split; [exact S0|].
  destruct (sand_moment_there phi kind p e pm ym u idx q n U G N IX A HP HX HS) as (c & row & x & EC & IR & Ix & NZ).
  { intros v Hv. destruct (HL v Hv) as [T0 T1]. apply (fmax_sand_limited f _ _ _ Hf T0 T1). }
  exact (S1 c row x EC IR Ix NZ).
Qed.
Print Assumptions C121_sand_moment_limit_refuted.

(** In another unit of length the rotations are different numbers: the displacements of the friction are numbers of metres. *)
Lemma sand_rotations : forall phi kind k modif e pm ym u idx q ymax n c, mt_spring_fct (API_sand phi kind k modif e pm ym) u idx q ymax n = Ok c -> fst c = repeat (api_rotation (q_D q) n (sand_backbone_z u n)) n.
Proof.
  intros phi kind k modif e pm ym u idx q ymax n c. unfold mt_spring_fct, inside_layer. destruct (Rlt_dec _ _); [discriminate|]. cbn [mt_curve m_multiplier t_multiplier at_X].
  destruct (value phi q) as [v|]; [|discriminate]. cbn [bind]. destruct (py_spring_fct _ u q ymax n) as [d|]; [|discriminate]. cbn [bind]. unfold tz_api_sand. cbn [bind].
  intros E. assert (X : c = scaled_rows 1 1 (repeat (api_rotation (q_D q) n (sand_backbone_z u n)) n,
    map (fun norm => map Some (api_moment (q_D q) n (scale (fmax_api_sand (q_sig q) (v - 5) 0.8) (sand_backbone_t 1 n idx)) norm)) (normalised (plain (snd d))))) by congruence.
  rewrite X. unfold scaled_rows. cbn [fst]. rewrite <- map_id. apply map_ext. intros r. rewrite <- map_id. apply map_ext. intros; ring.
Qed.
Theorem C121_sand_moment_length_refuted : forall f l phi kind k modif e pm ym u idx q ymax n, 0 < f -> 0 < l -> l <> 1 -> (forall i, 0 <= u i < 1) -> good_place q -> 0 <= ymax -> (15 <= n)%nat ->
  argsort (sand_backbone_z u n) idx -> let m := API_sand phi kind k modif e pm ym in admissible m q n -> 0 <= at_X pm (q_X q) ->
  ~ measured_rows 1 f (mt_spring_fct m u idx q ymax n) (mt_spring_fct (model_units f l m) u idx (place_units f l q) (l * ymax) n).
Proof.
  intros f l phi kind k modif e pm ym u idx q ymax n Hf Hl NE U G HY N IX m A HP MR.
  destruct (C73_sand_moment phi kind k modif e pm ym u idx q ymax n U G HY A HP IX N) as (v & _ & y & pp & T & M & _ & EM & _). fold m in EM. rewrite EM in MR.
  destruct (mt_spring_fct (model_units f l m) u idx (place_units f l q) (l * ymax) n) as [c'|] eqn:EM'; cbn [measured_rows] in MR; [|exact MR]. destruct MR as [MT _]. cbn [fst] in MT.
  pose proof (sand_rotations _ _ _ _ _ _ _ _ _ _ _ _ _ EM) as R1. pose proof (sand_rotations _ _ _ _ _ _ _ _ _ _ _ _ _ EM') as R2. cbn [fst q_D place_units] in R1, R2.
  pose proof (g_D q G) as GD.
  rewrite R2, R1 in MT. apply (f_equal (fun r => nth 0 r [])) in MT. rewrite rep_map, !nth_repeat_lt in MT by lia.
  apply (f_equal (fun r => nth 1 r 0)) in MT. rewrite <- (Rmult_0_r 1) in MT at 2. rewrite map_nth, Rmult_1_l in MT.
  assert (PQ : positive_part (sand_backbone_z u n) = [0; 0.0254; 0.03; 0.032; 0.034; 0.036] ++ positive_part (skipn (length sand_low) (sand_backbone_z u n))).
  { rewrite <- pp_sand_low, <- pp_app. f_equal. rewrite (sand_z_eq u n U). rewrite skipn_app, skipn_all, Nat.sub_diag. reflexivity. }
  assert (RA : forall D, nth 1 (api_rotation D n (sand_backbone_z u n)) 0 = atan (0.0254 / (0.5 * D))) by (intros D; apply (rotation_at D n (sand_backbone_z u n) 1 [0; 0.0254; 0.03; 0.032; 0.034; 0.036] _ ltac:(cbn [length]; lia) PQ)).
  rewrite !RA in MT. apply (f_equal tan) in MT. rewrite !tan_atan in MT. apply NE.
  apply (f_equal (fun x => x * (0.5 * q_D q) * l)) in MT. replace (0.0254 / (0.5 * (l * q_D q)) * (0.5 * q_D q) * l) with 0.0254 in MT by (field; lra).
  replace (0.0254 / (0.5 * q_D q) * (0.5 * q_D q) * l) with (0.0254 * l) in MT by (field; lra). lra.
Qed.
Print Assumptions C121_sand_moment_length_refuted.

(** Sand below and above the limits of the table; the hypotheses are met. *)
Example C121_sand_moment_case : let m := API_sand (PNum 35) Static (Some (PNum 20000)) None true (MNum 1) (MNum 1) in
  let q := mkPlace 10 5 10 4 2 20 true in let deep := mkPlace 1000 5 10 4 2 20 true in
  good_place q /\ good_place deep /\ admissible m q 15 /\ admissible m deep 15 /\ 0 < at_X (MNum 1) 5 /\
  (forall v, value (PNum 35) q = Ok v -> friction_unlimited 2 (q_sig q) (v - 5) 0.8) /\
  (forall v, value (PNum 35) deep = Ok v -> 0 < rinterp fs_table (v - 5) <= 0.8 * q_sig deep * tan ((v - 5) * PI / 180)).
Proof.
  cbv zeta. assert (T3 : rinterp fs_table 30 = 95.7) by (unfold fs_table; cbn; repeat destruct (Rle_dec _ _); lra).
  assert (TA : tan (30 * PI / 180) = 1 / sqrt 3) by (replace (30 * PI / 180) with (PI / 6) by field; apply tan_PI6).
  assert (S3 : 1 < sqrt 3 < 2).
  { split; [rewrite <- sqrt_1 at 1; apply sqrt_lt_1; lra|]. replace 2 with (sqrt 4) by (replace 4 with (2 * 2) by ring; apply sqrt_square; lra). apply sqrt_lt_1; lra. }
  assert (B : 1 / 2 < 1 / sqrt 3 < 1).
  { unfold Rdiv. rewrite !Rmult_1_l. split; [apply Rinv_lt_contravar; nra|]. apply (Rmult_lt_reg_l (sqrt 3)); [lra|]. rewrite Rinv_r by lra. lra. }
  assert (V : forall q v, 0 < q_height q -> value (PNum 35) q = Ok v -> v = 35).
  { intros q v Hq. unfold value, in_layer, at_depth, PisaModel.nonzero. cbn. destruct (Req_EM_T (q_height q) 0); [lra|]. intros E. injection E as <-. field. lra. }
  split; [constructor; simpl; lra|]. split; [constructor; simpl; lra|]. split; [simpl; unfold within, pos; lra|]. split; [simpl; unfold within, pos; lra|]. split; [simpl; lra|].
  split; intros v Hv; apply V in Hv; try (simpl; lra); subst v; replace (35 - 5) with 30 by lra; cbn [q_sig]; unfold friction_unlimited; rewrite ?T3, ?TA; lra.
Qed.
