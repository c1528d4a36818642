(** Properties C121-C122: units of force and length. *)
From Coq Require Import List Reals Lra Lia Arith Permutation.
From Verif Require Import Base ConicModel ConicSpec ConicProofs PisaModel ApiSandModel ApiSandSpec ApiSandProofs ApiClayModel ApiClayProofs ReeseModel ReeseProofs AxialModel AxialSpec AxialProofs
  LateralModel LateralSpec LateralProofs MomentProofs DimSpec DimProofs ScaleProofs.
Import ListNotations.
Local Open Scope R_scope.

(** ** C121: the lateral springs do not depend on the units *)
Theorem C121_py_springs_partial : forall f l m u q ymax n, 0 < f -> 0 < l -> dimensionless_formulas m ->
  measured l (per_length f l) (py_spring_fct m u q ymax n) (py_spring_fct (model_units f l m) u (place_units f l q) (l * ymax) n).
Proof. intros f l m u q ymax n Hf Hl H. apply measured_cv, py_spring_units; auto. Qed.

Theorem C121_matlock : forall f l u sig X Su eps50 D J kind ymax n, 0 < f -> 0 < l ->
  measured_points l (per_length f l) (matlock_1970 u sig X Su eps50 D J kind ymax n)
    (matlock_1970 u (per_area f l * sig) (l * X) (per_area f l * Su) eps50 (l * D) J kind (l * ymax) n).
Proof. intros. apply measured_pt, matlock_units; auto. Qed.

Theorem C121_base_springs : forall f l m q ymax n, 0 < f -> 0 < l ->
  measured l f (Hb_spring_fct m q ymax n) (Hb_spring_fct (model_units f l m) (place_units f l q) (l * ymax) n) /\
  measured 1 (couple f l) (Mb_spring_fct m q ymax n) (Mb_spring_fct (model_units f l m) (place_units f l q) ymax n).
Proof. intros f l m q ymax n Hf Hl. split; apply measured_cv; [apply Hb_spring_units|apply Mb_spring_units]; auto. Qed.

Theorem C121_moment_springs_partial : forall f l m u idx q ymax n, 0 < f -> 0 < l -> pisa m ->
  measured_rows 1 f (mt_spring_fct m u idx q ymax n) (mt_spring_fct (model_units f l m) u idx (place_units f l q) ymax n).
Proof. intros. apply measured_rw, mt_spring_units; auto. Qed.

(** the API clays with extension, in another unit of force only, below the surface *)
Theorem C121_clay_moment_springs_partial : forall f m u idx q ymax n, 0 < f -> q_sig q <> 0 ->
  match m with API_clay _ _ _ _ _ _ _ | Modified_Matlock_clay _ _ _ _ _ _ _ => True | _ => False end ->
  measured_rows 1 f (mt_spring_fct m u idx q ymax n) (mt_spring_fct (model_units f 1 m) u idx (place_units f 1 q) ymax n).
Proof.
  intros f m u idx q ymax n Hf Hs Hm. apply measured_rw. assert (H1 : 0 < 1) by lra.
  assert (K : mt_curve (model_units f 1 m) u idx (place_units f 1 q) ymax n = smap (rw 1 f) (mt_curve m u idx q ymax n)).
  { assert (E1 : forall v, map (Rmult 1) v = v) by (intros v; rewrite <- map_id; apply map_ext; intros; ring).
    assert (Ef : per_area f 1 = f) by (unfold per_area; field).
    destruct m; try contradiction; simpl; cbn [q_sig q_X q_D q_L place_units];
    (apply (bind_smap _ _ _ _ (Rmult (per_area f 1))); [apply value_units; auto|]; intros s _; unfold tz_api_clay; rewrite Rmult_1_l;
      rewrite fmax_clay_units by (auto using st_pos); rewrite scale_units, api_moment_units by (rewrite Ef; auto); rewrite Ef;
      unfold smap, rw; cbn [bind fst snd]; rewrite !rep_map, E1; do 3 f_equal; rewrite !map_map; apply map_ext; intros v; reflexivity). }
  assert (E : forall m', match m' with API_clay _ _ _ _ _ _ _ | Modified_Matlock_clay _ _ _ _ _ _ _ => True | _ => False end -> mt_spring_fct m' = fun u idx q ymax n =>
    inside_layer q (bind (mt_curve m' u idx q ymax n) (fun c => Ok (scaled_rows (at_X (t_multiplier m') (q_X q)) (at_X (m_multiplier m') (q_X q)) c)))).
  { intros m' W. destruct m'; try contradiction; reflexivity. }
  rewrite !E by (destruct m; auto). apply (smap_inside _ _ _ 1); auto.
  apply (bind_smap _ _ _ _ (rw 1 f)); [apply K|]. intros c _. unfold smap. cbn [bind]. f_equal. rewrite m_mult_units, t_mult_units by auto. apply scaled_rows_units.
Qed.

(** sand with a subgrade modulus given by the user; without an extent, below a depth of 0.1 in both units *)
Theorem C121_sand_partial : forall f l phi kind p e pm ym u q ymax n, 0 < f -> 0 < l ->
  (forall k, value p q = Ok k -> k <> 0) ->
  ymax <> 0 \/ (0.1 <= q_X q /\ 0.1 <= l * q_X q /\ 0 < q_sig q /\ 0 < q_D q /\ forall v, value phi q = Ok v -> 0 < v < 90) ->
  measured l (per_length f l) (py_spring_fct (API_sand phi kind (Some p) None e pm ym) u q ymax n)
    (py_spring_fct (model_units f l (API_sand phi kind (Some p) None e pm ym)) u (place_units f l q) (l * ymax) n).
Proof.
  intros f l phi kind p e pm ym u q ymax n Hf Hl Hk Hy. apply measured_cv, py_spring_of_curve; auto.
  cbn [py_curve model_units option_map]. apply (bind_smap _ _ _ _ (Rmult 1)); [apply value_units; auto|]. intros v Hv. rewrite Rmult_1_l.
  apply (bind_smap _ _ _ _ (Rmult (per_volume f l))).
  { unfold subgrade. apply (bind_smap _ _ _ _ (Rmult (per_volume f l))); [apply value_units; auto|]. intros k _. reflexivity. }
  intros k Ek. assert (Hk' : k <> 0). { unfold subgrade in Ek. destruct (value p q) as [g|]; [|discriminate]. simpl in Ek. injection Ek as <-. apply Hk. auto. }
  apply numbers_units. cbn [q_sig q_X q_D q_wet place_units]. apply api_sand_units; auto. destruct Hy as [Hy|(a & b & c & d & g)]; [left; auto|right]. split; [auto|split; [auto|]].
  destruct (g _ Hv) as [P0 P1]. intros c0 Ec. rewrite factors_ok in Ec by auto. injection Ec as <-. unfold sand_Pmax.
  pose proof (ultimate_pos v P0 P1 (q_sig q) (q_X q) (q_D q)) as U. unfold sand_ultimate in U.
  replace (wedge_C1 v * q_sig q * q_X q + wedge_C2 v * q_sig q * q_D q) with ((wedge_C1 v * q_X q + wedge_C2 v * q_D q) * q_sig q) by ring.
  assert (0 <= q_X q) by lra. specialize (U c H d). lra.
Qed.

(** weak rock in another unit of force *)
Theorem C121_rock_partial : forall f Ei qu RQD k ztop pm ym u q ymax n, 0 < f ->
  measured 1 f (py_spring_fct (Reese_weakrock Ei qu RQD k ztop pm ym) u q ymax n)
    (py_spring_fct (model_units f 1 (Reese_weakrock Ei qu RQD k ztop pm ym)) u (place_units f 1 q) ymax n).
Proof.
  intros f Ei qu RQD k ztop pm ym u q ymax n Hf. assert (H1 : 0 < 1) by lra. apply measured_cv, py_spring_of_curve; auto. assert (Ef : per_area f 1 = f) by (unfold per_area; field).
  cbn [py_curve model_units]. apply (bind_smap _ _ _ _ (Rmult (per_area f 1))); [apply value_units; auto|]. intros E _.
  apply (bind_smap _ _ _ _ (Rmult (per_area f 1))); [apply value_units; auto|]. intros Q _. apply numbers_units. rewrite Ef. cbn [q_X q_D place_units]. rewrite !Rmult_1_l. apply reese_force. auto.
Qed.

Lemma tanh_inj : forall x y, tanh x = tanh y -> x = y.
Proof.
  intros x y E. rewrite !tanh_exp in E. pose proof (exp_pos (2 * x)). pose proof (exp_pos (2 * y)).
  assert (exp (2 * x) = exp (2 * y)).
  { assert (/ (exp (2 * x) + 1) = / (exp (2 * y) + 1)) as K by (unfold Rdiv in E; lra). apply (f_equal Rinv) in K. rewrite !Rinv_inv in K. lra. }
  apply exp_inv in H1. lra.
Qed.

(** the default subgrade modulus is a number of kN/m3 whatever the unit *)
Theorem C121_sand_default_refuted : forall f phi kind e u q ymax n, 0 < f -> f <> 1 -> 0 < phi < 90 -> 0 < q_sig q -> 0 < q_X q -> 0 < q_D q -> 0 < q_height q -> q_depth q <= q_height q -> 0 < ymax ->
  let m := API_sand (PNum phi) kind None None e (MNum 1) (MNum 1) in
  ~ measured 1 f (py_spring_fct m u q ymax n) (py_spring_fct (model_units f 1 m) u (place_units f 1 q) ymax n).
Proof.
  intros f phi kind e u q ymax n Hf Hne [P0 P1] Hs HX HD Hh Hd Hy m. unfold m, py_spring_fct. cbn [model_units option_map].
  assert (Eh : forall (A : Type) (r : res A), inside_layer q r = r) by (intros; unfold inside_layer; destruct (Rlt_dec (q_height q) (q_depth q)); [lra|auto]).
  assert (Eh' : forall (A : Type) (r : res A), inside_layer (place_units f 1 q) r = r).
  { intros. unfold inside_layer, place_units. cbn [q_height q_depth]. destruct (Rlt_dec (1 * q_height q) (1 * q_depth q)); [lra|auto]. }
  rewrite Eh, Eh'. clear Eh Eh'. cbn [py_curve]. assert (Ev : value (PNum phi) q = Ok phi).
  { unfold value, in_layer, at_depth, PisaModel.nonzero. cbn. destruct (Req_EM_T (q_height q) 0); [lra|]. f_equal. field. lra. }
  rewrite Ev. unfold ratio. rewrite value_units, Ev by lra. cbn [smap bind subgrade]. rewrite !Rmult_1_l.
  cbn [q_sig q_X q_D q_wet place_units]. rewrite !Rmult_1_l. assert (Ef : per_area f 1 = f) by (unfold per_area; field). rewrite Ef.
  rewrite !api_sand_eq by lra. cbn [numbers bind fst snd p_multiplier y_multiplier at_X measured scaled_by mult_units]. intros [_ E].
  assert (Ey : forall s, sand_ymax s (q_X q) phi (q_D q) kind (q_wet q) 0 ymax = ymax) by (intros; unfold sand_ymax; destruct (Req_EM_T ymax 0); [lra|auto]).
  rewrite !Ey in E. apply (f_equal (fun v => nth (Nat.max 8 n - 1) v None)) in E.
  assert (Hn : (2 <= Nat.max 8 n)%nat) by lia. destruct (linspace_ends 0 ymax (Nat.max 8 n) Hn) as [_ EL].
  assert (Hlen : (Nat.max 8 n - 1 < length (linspace 0 ymax (Nat.max 8 n)))%nat) by (rewrite linspace_length; lia).
  rewrite !map_map in E. rewrite !(nth_indep _ None (option_map (fun v => v * 1) (Some (sand_p (f * q_sig q) (q_X q) phi (q_D q) kind (q_wet q) 0 0)))) in E by (rewrite map_length; auto).
  rewrite (map_nth (fun x => option_map (fun v => v * 1) (Some (sand_p (f * q_sig q) (q_X q) phi (q_D q) kind (q_wet q) 0 x)))) in E.
  rewrite (nth_indep (map _ _) _ (option_map (Rmult f) (option_map (fun v => v * 1) (Some (sand_p (q_sig q) (q_X q) phi (q_D q) kind (q_wet q) 0 0))))) in E by (rewrite map_length; auto).
  rewrite (map_nth (fun x => option_map (Rmult f) (option_map (fun v => v * 1) (Some (sand_p (q_sig q) (q_X q) phi (q_D q) kind (q_wet q) 0 x))))), EL in E. cbn [option_map] in E.
  injection E as E. rewrite !Rmult_1_r in E. unfold sand_p in E. cbv zeta in E.
  pose proof (ultimate_pos phi P0 P1 (q_sig q) (q_X q) (q_D q) Hs (Rlt_le _ _ HX) HD) as U.
  assert (EU : sand_ultimate (f * q_sig q) (q_X q) phi (q_D q) = f * sand_ultimate (q_sig q) (q_X q) phi (q_D q)) by (unfold sand_ultimate; rewrite <- Rmin_units by lra; f_equal; ring).
  rewrite EU in E. set (P := sand_ultimate (q_sig q) (q_X q) phi (q_D q)) in *. assert (0 < f * P) by (apply Rmult_lt_0_compat; auto).
  destruct (Req_EM_T (f * P) 0); [lra|]. destruct (Req_EM_T P 0); [lra|]. pose proof (sand_A_ge (q_X q) (q_D q) kind) as HA. set (A := sand_A (q_X q) (q_D q) kind) in *.
  pose proof (sand_k_pos phi (q_wet q) 0 (Rle_refl 0)) as HK. set (kk := sand_k phi (q_wet q) 0) in *.
  assert (0 < A * P) by (apply Rmult_lt_0_compat; lra).
  assert (T : tanh (kk * q_X q * ymax / (A * (f * P))) = tanh (kk * q_X q * ymax / (A * P))).
  { apply (Rmult_eq_reg_l (A * (f * P))); [|apply Rgt_not_eq, Rmult_lt_0_compat; lra]. rewrite E. ring. }
  apply tanh_inj in T. assert (0 < kk * q_X q * ymax) by (repeat apply Rmult_lt_0_compat; auto). set (w := kk * q_X q * ymax) in *.
  apply Hne. apply (Rmult_eq_compat_r (A * (f * P))) in T. replace (w / (A * (f * P)) * (A * (f * P))) with w in T by (field; repeat split; lra).
  replace (w / (A * P) * (A * (f * P))) with (w * f) in T by (field; repeat split; lra). apply (Rmult_eq_reg_l w); lra.
Qed.

(** weak rock in another unit of length: the exponent 1.333 is not 4/3 *)
Theorem C121_rock_length_refuted : forall f l Ei qu RQD k ztop u q ymax n, 0 < f -> 0 < l -> l <> 1 -> 0 < Ei -> 0 < qu -> 0 < k -> 0 < q_D q -> 0 <= q_X q + ztop -> 0 < q_height q -> q_depth q <= q_height q ->
  let m := Reese_weakrock (PNum Ei) (PNum qu) RQD k ztop (MNum 1) (MNum 1) in
  ~ measured l (per_length f l) (py_spring_fct m u q ymax n) (py_spring_fct (model_units f l m) u (place_units f l q) (l * ymax) n).
Proof.
  intros f l Ei qu RQD k ztop u q ymax n Hf Hl Hne HE Hq Hk HD Hx Hh Hd m. unfold m, py_spring_fct. cbn [model_units option_map].
  assert (Eh : forall (A : Type) (r : res A), inside_layer q r = r) by (intros; unfold inside_layer; destruct (Rlt_dec (q_height q) (q_depth q)); [lra|auto]).
  assert (Eh' : forall (A : Type) (r : res A), inside_layer (place_units f l q) r = r).
  { intros. unfold inside_layer, place_units. cbn [q_height q_depth]. destruct (Rlt_dec (l * q_height q) (l * q_depth q)) as [a|]; auto. apply Rmult_lt_reg_l in a; auto. lra. }
  rewrite Eh, Eh'. clear Eh Eh'. cbn [py_curve]. assert (Ev : forall x, value (PNum x) q = Ok x).
  { intros. unfold value, in_layer, at_depth, PisaModel.nonzero. cbn. destruct (Req_EM_T (q_height q) 0); [lra|]. f_equal. field. lra. }
  unfold stress. rewrite !value_units, !Ev by lra. cbn [smap bind q_X q_D place_units]. replace (l * q_X q + l * ztop) with (l * (q_X q + ztop)) by ring.
  destruct (reese_length f l Ei qu RQD (q_X q + ztop) (q_D q) k n) as (y & p & y' & p' & E & E' & H0 & H1); auto. rewrite E, E'.
  cbn [numbers bind fst snd p_multiplier y_multiplier at_X measured scaled_by mult_units]. intros [K _]. apply (f_equal (fun v => nth 1 v 0)) in K.
  assert (N : forall g v, g 0 = 0 -> nth 1 (map g v) 0 = g (nth 1 v 0)) by (intros g v Hg; rewrite <- Hg at 1; apply map_nth).
  rewrite !N in K by ring. rewrite H1 in K. apply (power_ne l Hl Hne). apply (Rmult_eq_reg_r (nth 1 y 0)); lra.
Qed.

(** the modified subgrade moduli of hooks.py *)
Theorem C121_modified_moduli_refuted : forall f l phi wet X D, 0 < f -> 0 < l -> 0.01 <= X -> 0.01 <= l * X -> 0 < D ->
  kallehave_k phi wet (l * X) (l * D) = Rpower l 1.1 * kallehave_k phi wet X D /\ sorensen_k phi (l * X) (l * D) = Rpower l 0.1 * sorensen_k phi X D /\ 0 < kallehave_k phi wet X D /\
  (kallehave_k phi wet (l * X) (l * D) = per_volume f l * kallehave_k phi wet X D -> f = Rpower l 4.1).
Proof.
  intros f l phi wet X D Hf Hl HX HX' HD. pose proof (api_k_pos phi wet) as KP.
  assert (0 < X) by lra. assert (0 < l * X) by lra. assert (0 < l * D) by (apply Rmult_lt_0_compat; auto).
  assert (EK : kallehave_k phi wet (l * X) (l * D) = Rpower l 1.1 * kallehave_k phi wet X D).
  { unfold kallehave_k. rewrite !rpow_pos by (apply Rdiv_lt_0_compat; lra).
    replace (l * X / 2.5) with (l * (X / 2.5)) by (unfold Rdiv; ring). replace (l * D / 0.61) with (l * (D / 0.61)) by (unfold Rdiv; ring).
    rewrite <- !Rpower_mult_distr by (auto; apply Rdiv_lt_0_compat; lra). replace 1.1 with (0.6 + 0.5) by lra. rewrite Rpower_plus. ring. }
  assert (PK : 0 < kallehave_k phi wet X D).
  { unfold kallehave_k. rewrite !rpow_pos by (apply Rdiv_lt_0_compat; lra). repeat apply Rmult_lt_0_compat; try apply Rpower_gt0. lra. }
  split; [auto|]. split; [|split; [auto|]].
  - unfold sorensen_k. cbv zeta. rewrite !Rmax_left by lra. rewrite !(rpow_pos (_ / 1)) by (apply Rdiv_lt_0_compat; lra).
    replace (l * X / 1) with (l * (X / 1)) by (unfold Rdiv; ring). replace (l * D / 1) with (l * (D / 1)) by (unfold Rdiv; ring).
    rewrite <- !Rpower_mult_distr by (auto; apply Rdiv_lt_0_compat; lra).
    assert (El : Rpower l 0.6 * Rpower l 0.5 = l * Rpower l 0.1). { rewrite <- Rpower_plus. replace (0.6 + 0.5) with (1 + 0.1) by lra. rewrite Rpower_plus, Rpower_1; auto. }
    replace (Rpower l 0.1) with (Rpower l 0.6 * Rpower l 0.5 / l) by (rewrite El; field; lra). generalize (rpow (phi * (PI / 180)) 3.6). intros g. field. split; lra.
  - rewrite EK. intros E. apply Rmult_eq_reg_r in E; [|lra]. unfold per_volume in E. replace 4.1 with (1.1 + 3) by lra. rewrite Rpower_plus. replace 3 with (INR 3) by (simpl; lra). rewrite Rpower_pow by auto.
    rewrite E. field. lra.
Qed.

(** the hooks of the PISA models take ratios only *)
Theorem C121_hooks : forall l D L Dr ra x, 0 < l -> D <> 0 -> L <> 0 ->
  (forall g, In g [h_k; h_n; h_X; h_Y] ->
     g (hook_cowden_py (l * D)) (l * x) = g (hook_cowden_py D) x /\ g (hook_cowden_mt (l * D)) (l * x) = g (hook_cowden_mt D) x /\
     g (hook_cowden_Hb (l * D) (l * L)) (l * x) = g (hook_cowden_Hb D L) x /\ g (hook_cowden_Mb (l * D) (l * L)) (l * x) = g (hook_cowden_Mb D L) x /\
     g (hook_dunkirk_py (l * D) (l * L) Dr) (l * x) = g (hook_dunkirk_py D L Dr) x /\ g (hook_dunkirk_mt (l * L) Dr) (l * x) = g (hook_dunkirk_mt L Dr) x /\
     g (hook_dunkirk_Hb (l * D) (l * L) Dr) (l * x) = g (hook_dunkirk_Hb D L Dr) x /\ g (hook_dunkirk_Mb (l * D) (l * L) Dr) (l * x) = g (hook_dunkirk_Mb D L Dr) x) /\
  durkhop (l * D) ra (l * x) = durkhop D ra x /\ durkhop_normalized (l * D) ra (l * x) = durkhop_normalized D ra x.
Proof.
  intros l D L Dr ra x Hl HD HL. split.
  - intros g [<-|[<-|[<-|[<-|[]]]]]; cbn [h_k h_n h_X h_Y hook_cowden_py hook_cowden_mt hook_cowden_Hb hook_cowden_Mb hook_dunkirk_py hook_dunkirk_mt hook_dunkirk_Hb hook_dunkirk_Mb];
    rewrite ?(ratio_eq l Hl) by auto; repeat split; reflexivity.
  - unfold durkhop, durkhop_normalized, PisaModel.nonzero. assert (l * D <> 0) by (intros Z; apply HD; apply (zero_iff l); auto; lra).
    destruct (Req_EM_T (l * D) 0); [contradiction|]. destruct (Req_EM_T D 0); [contradiction|]. rewrite !(ratio_eq l Hl) by auto. auto.
Qed.

(** moment curves of the API clays in another unit of length: the rotations are padded in steps of 0.1 *)
Lemma rotation_steps : forall l D n z, 0 < l -> 0 < D -> (length (positive_part z) + 2 <= n)%nat -> api_rotation (l * D) n (map (Rmult l) z) = api_rotation D n z -> l = 1.
Proof.
  intros l D n z Hl HD Hn E. unfold api_rotation in E. rewrite pp_units in E by auto. set (v := positive_part z) in *.
  apply (f_equal (fun r => nth (n - 1) r 0)) in E. rewrite <- atan_0 in E.
  assert (N : forall (g : R -> R) d r, (n - 1 < length r)%nat -> nth (n - 1) (map g r) d = g (nth (n - 1) r 0)) by (intros g d r Hr; rewrite (nth_indep _ d (g 0)) by (rewrite map_length; auto); apply map_nth).
  assert (Lp : forall w, (length w <= n)%nat -> length (pad_z n w) = n) by (intros w Hw; unfold pad_z; rewrite app_length, map_length, seq_length; lia).
  rewrite !N in E by (rewrite Lp; rewrite ?map_length; lia).
  assert (P : forall w, (length w + 2 <= n)%nat -> nth (n - 1) (pad_z n w) 0 = last w 0 + INR (n - length w - 1) * 0.1).
  { intros w Hw. unfold pad_z. rewrite app_nth2 by lia. rewrite (nth_indep _ 0 (last w 0 + INR 0 * 0.1)) by (rewrite map_length, seq_length; lia).
    rewrite (map_nth (fun i => last w 0 + INR i * 0.1)), seq_nth by lia. do 3 f_equal. lia. }
  rewrite !P in E by (rewrite ?map_length; lia). rewrite map_length, last_units in E.
  apply (f_equal tan) in E. rewrite !tan_atan in E. set (s := INR (n - length v - 1) * 0.1) in *.
  assert (Hs : 0 < s) by (unfold s; apply Rmult_lt_0_compat; [apply lt_0_INR; lia|lra]).
  apply (Rmult_eq_compat_r (0.5 * l * D)) in E. replace ((l * last v 0 + s) / (0.5 * (l * D)) * (0.5 * l * D)) with (l * last v 0 + s) in E by (field; split; lra).
  replace ((last v 0 + s) / (0.5 * D) * (0.5 * l * D)) with (l * last v 0 + l * s) in E by (field; lra). apply (Rmult_eq_reg_r s); lra.
Qed.
Theorem C121_clay_moment_length_refuted : forall f l Su eps50 kind J e pm ym u idx q ymax n, 0 < f -> 0 < l -> l <> 1 -> (forall i, 0 <= u i < 1) -> (15 <= n)%nat -> 0 < q_D q -> 0 < q_height q -> q_depth q <= q_height q ->
  let m := API_clay (PNum Su) eps50 kind J e pm ym in
  ~ measured_rows 1 f (mt_spring_fct m u idx q ymax n) (mt_spring_fct (model_units f l m) u idx (place_units f l q) ymax n).
Proof.
  intros f l Su eps50 kind J e pm ym u idx q ymax n Hf Hl Hne HU Hn HD Hh Hd m. unfold m, mt_spring_fct. cbn [model_units].
  assert (Eh : forall (A : Type) (r : res A), inside_layer q r = r) by (intros; unfold inside_layer; destruct (Rlt_dec (q_height q) (q_depth q)); [lra|auto]).
  assert (Eh' : forall (A : Type) (r : res A), inside_layer (place_units f l q) r = r).
  { intros. unfold inside_layer, place_units. cbn [q_height q_depth]. destruct (Rlt_dec (l * q_height q) (l * q_depth q)) as [a|]; auto. apply Rmult_lt_reg_l in a; auto. lra. }
  rewrite Eh, Eh'. clear Eh Eh'. cbn [mt_curve]. assert (Ev : forall x, value (PNum x) q = Ok x).
  { intros. unfold value, in_layer, at_depth, PisaModel.nonzero. cbn. destruct (Req_EM_T (q_height q) 0); [lra|]. f_equal. field. lra. }
  unfold stress. rewrite !value_units, !Ev by lra. cbn [smap bind q_sig q_D place_units tz_api_clay m_multiplier t_multiplier at_X measured_rows scaled_rows fst snd]. intros [E _].
  apply (f_equal (fun r => nth 0 r [])) in E. rewrite !rep_map in E. destruct n as [|n]; [lia|]. cbn [repeat nth] in E.
  assert (E1 : forall v, map (fun x => x * 1) v = v) by (intros v; rewrite <- map_id; apply map_ext; intros; ring).
  assert (E2 : forall v, map (Rmult 1) v = v) by (intros v; rewrite <- map_id; apply map_ext; intros; ring). rewrite E2, !E1 in E.
  apply Hne. apply (rotation_steps l (q_D q) (S n) (scale (q_D q) (clay_backbone_z u (S n)))); auto.
  - rewrite pp_scale by auto. unfold scale. rewrite map_length, (clay_z_eq u (S n) HU), pp_app, pp_clay_low, app_length.
    match goal with |- context [positive_part ?w] => pose proof (pp_length w) as PL; pose proof (f_equal (@length R) (clay_z_eq u (S n) HU)) as LL end.
    rewrite app_length, clay_z_length in LL. replace (length clay_low) with 13%nat in LL by reflexivity. cbn [length]. lia.
  - rewrite <- scale_units. exact E.
Qed.

(** ** C122: the axial springs do not depend on the units *)
Theorem C122_clay_shaft_partial : forall f l m u idx cin cout sig height depth D n, 0 < f -> 0 < l -> sig <> 0 ->
  measured_points l (per_length f l) (clay_tz m u idx cin cout sig height depth D n)
    (clay_tz (clay_units f l m) u idx (l * cin) (l * cout) (per_area f l * sig) (l * height) (l * depth) (l * D) n).
Proof. intros. apply measured_pt, clay_tz_units; auto. Qed.

Theorem C122_clay_tip : forall f l m u idx tip foot height depth D n, 0 < f -> 0 < l ->
  measured_points l f (clay_Qz m u idx tip foot height depth D n)
    (clay_Qz (clay_units f l m) u idx (l ^ 2 * tip) (l ^ 2 * foot) (l * height) (l * depth) (l * D) n).
Proof. intros. apply measured_pt, clay_Qz_units; auto. Qed.

Theorem C122_sand_shaft_partial : forall f m u idx cin cout sig height depth n,
  (forall d, at_depth (sa_delta_top m) (sa_delta_bottom m) depth height = Ok d -> friction_unlimited f sig d (sa_K m)) ->
  measured_points 1 f (sand_tz m u idx cin cout sig height depth n) (sand_tz m u idx cin cout (f * sig) height depth n).
Proof. intros. apply measured_pt, sand_tz_units; auto. Qed.

Theorem C122_sand_tip_partial : forall f l m u idx tip foot sig height depth D n, 0 < l ->
  (forall d, at_depth (sa_delta_top m) (sa_delta_bottom m) depth height = Ok d -> bearing_unlimited (per_area f l) sig d) ->
  measured_points l f (sand_Qz m u idx tip foot sig height depth D n)
    (sand_Qz (sand_units l m) u idx (l ^ 2 * tip) (l ^ 2 * foot) (per_area f l * sig) (l * height) (l * depth) (l * D) n).
Proof. intros. apply measured_pt, sand_Qz_units; auto. Qed.

Theorem C122_kraft_force : forall f fmax D G0 residual tf RF zif n, 0 < f ->
  match kraft_modification fmax D G0 residual tf RF zif n, kraft_modification (f * fmax) D (f * G0) residual tf RF zif n with
  | Ok (Some (z, t)), Ok (Some (z', t')) => z' = z /\ t' = map (Rmult f) t
  | Ok None, Ok None => True
  | Err e, Err e' => e = e'
  | _, _ => False
  end.
Proof.
  intros f fmax D G0 residual tf RF zif n Hf. rewrite kraft_force by auto. destruct (kraft_modification fmax D G0 residual tf RF zif n) as [[[z t]|]|e]; simpl; auto.
  split; [|auto]. rewrite <- map_id. apply map_ext. intros. ring.
Qed.

(** at the surface, where the effective stress is zero, friction goes with the power 3/4 of the unit *)
Theorem C122_clay_surface_refuted : forall f Su limit, 1 <= f -> 0.001 < Su -> 0.5 <= limit ->
  fmax_api_clay 0 (f * Su) limit = Rpower f 0.75 * fmax_api_clay 0 Su limit /\ 0 < fmax_api_clay 0 Su limit.
Proof.
  intros f Su limit Hf HS HL. assert (K : forall c, 1 <= c -> fmax_api_clay 0 (c * Su) limit = 0.5 * Rpower (c * Su / 0.001) (-0.25) * (c * Su)).
  { intros c Hc. unfold fmax_api_clay. cbv zeta. destruct (Req_EM_T 0 0); [|lra]. assert (1 < c * Su / 0.001).
    { apply (Rmult_lt_reg_r 0.001); [lra|]. unfold Rdiv. rewrite Rmult_assoc, Rinv_l by lra. nra. }
    destruct (Rlt_dec 1 (c * Su / 0.001)); [|lra]. rewrite Rmin_left; [auto|]. assert (Rpower (c * Su / 0.001) (-0.25) <= 1); [|lra].
    rewrite <- (Rpower_O (c * Su / 0.001)) by lra. apply Rle_Rpower; lra. }
  pose proof (K 1 (Rle_refl 1)) as K1. rewrite !Rmult_1_l in K1. rewrite K, K1 by auto. split.
  - assert (0 < Su / 0.001) by (apply Rdiv_lt_0_compat; lra). replace (f * Su / 0.001) with (f * (Su / 0.001)) by (unfold Rdiv; ring). rewrite <- Rpower_mult_distr by lra.
    assert (Ef : f = Rpower f 0.25 * Rpower f 0.75). { rewrite <- Rpower_plus. replace (0.25 + 0.75) with 1 by lra. rewrite Rpower_1; lra. }
    assert (Rpower f (-0.25) * f = Rpower f 0.75) as EE. { rewrite Ef at 2. rewrite <- Rmult_assoc, <- Rpower_plus. replace (-0.25 + 0.25) with 0 by lra. rewrite Rpower_O by lra. ring. }
    rewrite <- EE. ring.
  - apply Rmult_lt_0_compat; [|lra]. pose proof (Rpower_gt0 (Su / 0.001) (-0.25)). lra.
Qed.

(** where the tables of limiting values govern, resistances are numbers of kPa whatever the unit *)
Theorem C122_sand_limits_refuted : forall f sig delta K, 1 < f ->
  (0 < rinterp fs_table delta <= K * sig * tan (delta * PI / 180) -> fmax_api_sand (f * sig) delta K = fmax_api_sand sig delta K /\ fmax_api_sand (f * sig) delta K <> f * fmax_api_sand sig delta K) /\
  (0 < rinterp Qmax_table delta <= sig * rinterp Nq_table delta -> Qmax_api_sand (f * sig) delta = Qmax_api_sand sig delta /\ Qmax_api_sand (f * sig) delta <> f * Qmax_api_sand sig delta).
Proof.
  intros f sig delta K Hf. split; intros [A B].
  - destruct (fmax_sand_limited f sig delta K Hf A B) as [E P]. split; [auto|]. rewrite E. intros Z. assert ((f - 1) * fmax_api_sand sig delta K = 0) by lra. apply Rmult_integral in H. lra.
  - assert (E0 : Qmax_api_sand sig delta = rinterp Qmax_table delta) by (apply Rmin_left; auto).
    assert (E1 : Qmax_api_sand (f * sig) delta = rinterp Qmax_table delta) by (apply Rmin_left; rewrite Rmult_assoc; nra).
    rewrite E0, E1. split; [auto|]. intros Z. assert ((f - 1) * rinterp Qmax_table delta = 0) by lra. apply Rmult_integral in H. lra.
Qed.

Lemma fixed_by_scale : forall l v x, l <> 1 -> v = map (Rmult l) v -> In x v -> x = 0.
Proof.
  intros l v x Hne E H. apply (In_nth _ _ 0) in H. destruct H as (i & Hi & <-). apply (f_equal (fun w => nth i w 0)) in E.
  rewrite <- (Rmult_0_r l) in E at 2. rewrite map_nth in E. assert ((l - 1) * nth i v 0 = 0) as K by lra. apply Rmult_integral in K. lra.
Qed.
(** the displacements of the t-z curves in sand are numbers of metres whatever the unit *)
Theorem C122_sand_displacements_refuted : forall f l u idx sig delta K tf n, l <> 1 ->
  fst (tz_api_sand u idx (per_area f l * sig) delta K tf n) <> map (Rmult l) (fst (tz_api_sand u idx sig delta K tf n)).
Proof.
  intros f l u idx sig delta K tf n Hne E. unfold tz_api_sand in E. cbn [fst] in E.
  assert (H : In 0.04 (sand_backbone_z u n)). { apply rsort_in. apply in_or_app. left. unfold sand_zs, mirror. apply in_or_app. right. simpl. tauto. }
  pose proof (fixed_by_scale l _ _ Hne E H). lra.
Qed.

(** the residual of the curve of Kraft starts 0.005 after the peak whatever the unit *)
Theorem C122_kraft_length_refuted : forall f l fmax D G0 residual tf RF zif n, 0 < f -> 0 < l -> l <> 1 -> fmax <> 0 -> G0 <> 0 -> RF <> 1 -> 0 < (zif - RF) / (1 - RF) ->
  exists z t z' t', kraft_modification fmax D G0 residual tf RF zif n = Ok (Some (z, t)) /\
    kraft_modification (per_area f l * fmax) (l * D) (per_area f l * G0) residual tf RF zif n = Ok (Some (z', t')) /\
    last z' 0 = l * last z 0 + 0.01 * (1 - l) /\ z' <> map (Rmult l) z.
Proof.
  intros f l fmax D G0 residual tf RF zif n Hf Hl Hne HF HG HR HZ. pose proof (st_pos f l Hf Hl) as Hst.
  assert (LA : forall (a : list R) x y, last (a ++ [x; y]) 0 = y).
  { intros a x y. replace (a ++ [x; y]) with ((a ++ [x]) ++ [y]) by (rewrite <- app_assoc; auto). apply last_last. }
  assert (K : forall fm d g, fm <> 0 -> g <> 0 -> exists z t, kraft_modification fm d g residual tf RF zif n = Ok (Some (z, t)) /\ last z 0 = fm * d / (2 * g) * ln ((zif - RF) / (1 - RF)) + 0.005 + 0.005).
  { intros fm d g Hfm Hg. unfold kraft_modification, PisaModel.nonzero. cbv zeta. destruct (Req_EM_T g 0); [contradiction|].
    destruct (Req_EM_T (1 - RF) 0); [lra|]. destruct (Rlt_dec 0 ((zif - RF) / (1 - RF))); [|contradiction]. destruct (Req_EM_T fm 0); [contradiction|]. eexists _, _. split; [reflexivity|]. rewrite !app_assoc. apply LA. }
  destruct (K fmax D G0) as (z & t & E & L); auto. destruct (K (per_area f l * fmax) (l * D) (per_area f l * G0)) as (z' & t' & E' & L').
  { intros Z. apply HF. apply (zero_iff (per_area f l)); auto; lra. }
  { intros Z. apply HG. apply (zero_iff (per_area f l)); auto; lra. }
  exists z, t, z', t'. split; [auto|]. split; [auto|].
  assert (EL : last z' 0 = l * last z 0 + 0.01 * (1 - l)).
  { rewrite L, L'. replace (per_area f l * fmax * (l * D) / (2 * (per_area f l * G0))) with (l * (fmax * D / (2 * G0))) by (field; split; lra).
    generalize (fmax * D / (2 * G0)) (ln ((zif - RF) / (1 - RF))). intros a b. lra. }
  split; [auto|]. intros Z. rewrite Z, last_units in EL. lra.
Qed.

(** ** The hypotheses are met *)
Example C121_case : let m := API_clay (PList [20; 60]) (PNum 0.02) Cyclic 0.5 true (MNum 1) (MFun (fun X => 1 + X)) in let q := mkPlace 60 5 10 4 2 20 true in
  dimensionless_formulas m /\ q_sig q <> 0 /\ place_units 1000 100 q = mkPlace (per_area 1000 100 * 60) (100 * 5) (100 * 10) (100 * 4) (100 * 2) (100 * 20) true /\
  at_X (y_multiplier (model_units 1000 100 m)) 500 = 6.
Proof. cbv zeta. split; [exact Logic.I|]. split; [simpl; lra|]. split; [reflexivity|]. simpl. lra. Qed.
Example C121_case_place : good_place (mkPlace 60 5 10 4 2 20 true) /\ admissible (API_clay (PList [20; 60]) (PNum 0.02) Cyclic 0.5 true (MNum 1) (MFun (fun X => 1 + X))) (mkPlace 60 5 10 4 2 20 true) 15.
Proof. split; [constructor; simpl; lra|]. simpl. unfold all_values. simpl. repeat split; try lra; unfold pos; lra. Qed.
Example C122_case : friction_unlimited 2 10 25 1 /\ bearing_unlimited 2 100 25 /\ (0 < rinterp Qmax_table 25 <= 1000 * rinterp Nq_table 25).
Proof.
  assert (Q1 : rinterp Qmax_table 25 = 4800) by (unfold Qmax_table; cbn; repeat destruct (Rle_dec _ _); lra).
  assert (Q2 : rinterp Nq_table 25 = 20) by (unfold Nq_table; cbn; repeat destruct (Rle_dec _ _); lra).
  assert (Q3 : rinterp fs_table 25 = 81.3) by (unfold fs_table; cbn; repeat destruct (Rle_dec _ _); lra).
  unfold friction_unlimited, bearing_unlimited. rewrite Q1, Q2, Q3.
  assert (tan (25 * PI / 180) < 1).
  { rewrite <- tan_PI4. apply tan_increasing; pose proof PI_RGT_0; lra. }
  repeat split; lra.
Qed.

Print Assumptions C121_py_springs_partial.
Print Assumptions C121_matlock.
Print Assumptions C121_base_springs.
Print Assumptions C121_moment_springs_partial.
Print Assumptions C121_clay_moment_springs_partial.
Print Assumptions C121_sand_partial.
Print Assumptions C121_rock_partial.
Print Assumptions C121_sand_default_refuted.
Print Assumptions C121_rock_length_refuted.
Print Assumptions C121_modified_moduli_refuted.
Print Assumptions C121_hooks.
Print Assumptions C121_clay_moment_length_refuted.
Print Assumptions C122_clay_shaft_partial.
Print Assumptions C122_clay_tip.
Print Assumptions C122_sand_shaft_partial.
Print Assumptions C122_sand_tip_partial.
Print Assumptions C122_kraft_force.
Print Assumptions C122_clay_surface_refuted.
Print Assumptions C122_sand_limits_refuted.
Print Assumptions C122_sand_displacements_refuted.
Print Assumptions C122_kraft_length_refuted.
