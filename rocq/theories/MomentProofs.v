(** Lemmas about the base and moment springs of the lateral soil models. *)
From Coq Require Import Reals Lra Lia List Bool Arith Permutation.
From Verif Require Import Base ConicModel ConicSpec ConicProofs PisaModel PisaSpec PisaProofs PisaProps ApiSandModel ApiClayModel ApiClayProofs
  AxialModel AxialSpec AxialProofs AxialProps LateralModel LateralSpec LateralProofs.
Import ListNotations.
Local Open Scope R_scope.

(** ** Base springs *)
Definition base_admissible (m : lateral_model) (q : place) : Prop :=
  match m with
  | Bothkennar_clay Su G0 _ | Cowden_clay Su G0 _ => all_values pos Su /\ all_values pos G0 /\ 2 * q_D q <= q_L q <= 6 * q_D q
  | Dunkirk_sand Dr G0 _ => all_values density Dr /\ all_values pos G0 /\ 2 * q_D q <= q_L q <= 6 * q_D q
  | Custom_pisa_sand G0 _ _ Hb Mb _ => custom_values pos G0 (q_X q) /\ conic_fields Hb (q_X q) /\ conic_regular Hb q /\ conic_fields Mb (q_X q) /\ conic_regular Mb q
  | Custom_pisa_clay Su G0 _ _ Hb Mb _ => custom_values pos Su (q_X q) /\ custom_values pos G0 (q_X q) /\ conic_fields Hb (q_X q) /\ conic_regular Hb q /\ conic_fields Mb (q_X q) /\ conic_regular Mb q
  | _ => False
  end.
Lemma custom_curve : forall f q n num g sc, good_place q -> conic_fields f (q_X q) -> conic_regular f q -> (7 <= n)%nat -> 0 <= num -> 0 < g -> 0 <= sc ->
  exists x nn k y xs ys, wide x /\ pos y /\ (forall h, with_four f q h = h x nn k y) /\ scaled (conic x nn k y n) num g sc = Ok (xs, map Some ys) /\ spring_curve n xs ys /\ nondecreasing ys /\ last ys 0 = y * sc.
Proof.
  intros f q n num g sc G F R N NU GG SC. destruct (four_ok f q G F R) as (x & c & k & yy & W & CV & PK & PY & RG & EQ). unfold wide, curvature, pos in *.
  destruct (scaled_curve' x c k yy n num g sc) as (xs & ys & E & C); try lra; try lia.
  exists x, c, k, yy, xs, ys. do 4 (split; [auto|]). pose proof C as (_ & _ & _ & _ & _ & _ & _ & _ & LY & _). apply pisa_spring in C. tauto.
Qed.
Lemma base_ok : forall m q ymax n, good_place q -> base_admissible m q -> (7 <= n)%nat ->
  (exists y p, Hb_spring_fct m q ymax n = Ok (y, map Some p) /\ spring_curve n y p /\ nondecreasing p) /\
  (exists t M, Mb_spring_fct m q ymax n = Ok (t, map Some M) /\ spring_curve n t M /\ nondecreasing M).
Proof.
  intros m q ymax n G A N. pose proof G as [G1 G2 GD GS GX].
  assert (SC : 0 <= q_sig q * q_D q /\ 0 <= q_sig q * q_D q ^ 2 /\ 0 <= q_sig q * q_D q ^ 3) by (apply scales; auto).
  destruct m; cbn [base_admissible] in A; try contradiction; cbn [Hb_spring_fct Mb_spring_fct]; unfold value, custom_value in *; rewrite !inside_ok by lra.
  - destruct A as (A1 & A2 & A3). destruct (value_in _ _ _ _ pos_convex A1 G1 G2) as (s & E1 & P1). destruct (value_in _ _ _ _ pos_convex A2 G1 G2) as (g & E2 & P2).
    rewrite E1, E2. cbn [bind]. unfold pos in *.
    split; [destruct (C43_Hb_bothkennar s g (q_D q) (q_L q) n) as (xs & ys & E & C)|destruct (C43_Mb_bothkennar s g (q_D q) (q_L q) n) as (xs & ys & E & C)]; try lra; try lia;
      exists xs, ys; (split; [exact E|]); apply pisa_spring in C; tauto.
  - destruct A as (A1 & A2 & A3). destruct (value_in _ _ _ _ pos_convex A1 G1 G2) as (s & E1 & P1). destruct (value_in _ _ _ _ pos_convex A2 G1 G2) as (g & E2 & P2).
    rewrite E1, E2. cbn [bind]. unfold pos in *.
    split; [destruct (C43_Hb_cowden s g (q_D q) (q_L q) n) as (xs & ys & E & C)|destruct (C43_Mb_cowden s g (q_D q) (q_L q) n) as (xs & ys & E & C)]; try lra; try lia;
      exists xs, ys; (split; [exact E|]); apply pisa_spring in C; tauto.
  - destruct A as (A1 & A2 & A3). destruct (value_in _ _ _ _ density_convex A1 G1 G2) as (s & E1 & P1). destruct (value_in _ _ _ _ pos_convex A2 G1 G2) as (g & E2 & P2).
    rewrite E1, E2. cbn [bind]. unfold pos, density in *.
    split; [destruct (C43_Hb_dunkirk (q_sig q) s g (q_D q) (q_L q) n) as (xs & ys & E & C)|destruct (C43_Mb_dunkirk (q_sig q) s g (q_D q) (q_L q) n) as (xs & ys & E & C)]; try lra; try lia;
      exists xs, ys; (split; [exact E|]); apply pisa_spring in C; tauto.
  - destruct A as (A1 & A2 & A3 & A4 & A5). destruct (custom_value_in _ _ (q_depth q) (q_height q) (q_X q) pos_convex A1 G1 G2) as (g & E1 & P1). rewrite E1. cbn [bind]. unfold pos in P1. split.
    + destruct (custom_curve Hb q n (q_sig q * q_D q) g (q_sig q * q_D q ^ 2)) as (x & c & k & y & xs & ys & _ & _ & EQ & E & C & ND & _); auto; try tauto. exists xs, ys. rewrite EQ. auto.
    + destruct (custom_curve Mb q n (q_sig q) g (q_sig q * q_D q ^ 3)) as (x & c & k & y & xs & ys & _ & _ & EQ & E & C & ND & _); auto; try tauto. exists xs, ys. rewrite EQ. auto.
  - destruct A as (A0 & A1 & A2 & A3 & A4 & A5). destruct (custom_value_in _ _ (q_depth q) (q_height q) (q_X q) pos_convex A0 G1 G2) as (s & E0 & P0).
    destruct (custom_value_in _ _ (q_depth q) (q_height q) (q_X q) pos_convex A1 G1 G2) as (g & E1 & P1). rewrite E0, E1. cbn [bind]. unfold pos in P0, P1.
    destruct (scales s (q_D q)) as (S1 & S2 & S3); [lra|auto|]. split.
    + destruct (custom_curve Hb q n (s * q_D q) g (s * q_D q ^ 2)) as (x & c & k & y & xs & ys & _ & _ & EQ & E & C & ND & _); auto. exists xs, ys. rewrite EQ. auto.
    + destruct (custom_curve Mb q n s g (s * q_D q ^ 3)) as (x & c & k & y & xs & ys & _ & _ & EQ & E & C & ND & _); auto; try lra. exists xs, ys. rewrite EQ. auto.
Qed.

(** ** Moment springs of the PISA models *)
Lemma mt_rows_ok : forall n (p : list (option R)) row g, length p = n -> (forall v, In v p -> row v = Ok (g v)) -> mt_rows n p row = Ok (map (fun v => fst (g v)) p, map (fun v => snd (g v)) p).
Proof.
  intros n p row g L H. unfold mt_rows. rewrite <- L, firstn_all, (mapM_ok _ _ _ g) by auto. cbn [bind]. rewrite Nat.ltb_irrefl, Nat.sub_diag. cbn [repeat].
  rewrite !app_nil_r, !map_map. reflexivity.
Qed.

(** ** The API moment curves *)
Lemma pp_app : forall a b, positive_part (a ++ b) = positive_part a ++ positive_part b.
Proof. intros. apply filter_app. Qed.
Lemma pp_all : forall l, (forall v, In v l -> 0 <= v) -> positive_part l = l.
Proof. induction l as [|a t IH]; intros H; [reflexivity|]. cbn. destruct (Rle_dec 0 a) as [_|N]; [|exfalso; apply N; apply H; left; auto]. f_equal. apply IH. intros; apply H; right; auto. Qed.
Lemma pp_scale : forall c l, 0 < c -> positive_part (scale c l) = scale c (positive_part l).
Proof.
  intros c l C. induction l as [|a t IH]; [reflexivity|]. cbn [scale map positive_part filter]. fold (scale c t). destruct (Rle_dec 0 a) as [H|H]; destruct (Rle_dec 0 (a * c)) as [H'|H'].
  - cbn [map scale]. f_equal. exact IH.
  - exfalso. apply H'. apply Rmult_le_pos; lra.
  - exfalso. apply H. apply Rmult_le_reg_r with c; [auto|lra].
  - exact IH.
Qed.
Lemma pp_clay_low : positive_part clay_low = [0; 0.0016; 0.0031; 0.0057; 0.0080; 0.0100].
Proof. unfold positive_part, clay_low. cbn [firstn clay_zs mirror map rev tl app filter]. repeat (destruct (Rle_dec _ _); [try (exfalso; lra)|try (exfalso; lra)]). reflexivity. Qed.
Lemma pp_clay_tlow : positive_part (clay_tlow 1 1) = [0; 0.3; 0.5; 0.75; 0.90; 1.00].
Proof. unfold positive_part, clay_tlow, clay_ts. cbn [firstn mirror map rev tl app filter]. repeat (destruct (Rle_dec _ _); [try (exfalso; lra)|try (exfalso; lra)]). reflexivity. Qed.
Lemma pp_sand_low : positive_part sand_low = [0; 0.0254; 0.03; 0.032; 0.034; 0.036].
Proof. unfold positive_part, sand_low. cbn [firstn sand_zs mirror map rev tl app filter]. repeat (destruct (Rle_dec _ _); [try (exfalso; lra)|try (exfalso; lra)]). reflexivity. Qed.
Lemma pp_sand_tlow : positive_part (sand_tlow 1) = [0; 1; 1; 1; 1; 1].
Proof. unfold positive_part, sand_tlow, sand_ts. cbn [firstn mirror map rev tl app filter]. repeat (destruct (Rle_dec _ _); [try (exfalso; lra)|try (exfalso; lra)]). reflexivity. Qed.

Lemma nd_pp : forall l, nondecreasing l -> nondecreasing (positive_part l).
Proof.
  induction l as [|a t IH]; intros N; [exact N|]. cbn [positive_part filter]. pose proof (IH (nondecreasing_tl _ _ N)) as T. destruct (Rle_dec 0 a); [|exact T].
  apply nondecreasing_cons; [|exact T]. intros x I. apply filter_In in I. apply nondecreasing_hd with t; tauto.
Qed.
Lemma nd_repeat : forall x k, nondecreasing (repeat x k).
Proof. induction k as [|k IH]; [intros i j A B; cbn in B; lia|]. cbn. apply nondecreasing_cons; auto. intros y I. apply repeat_spec in I. lra. Qed.
Lemma last_in : forall (l : list R), l <> [] -> In (last l 0) l.
Proof. intros l H. rewrite last_nth0. apply nth_In. destruct l; [contradiction|cbn; lia]. Qed.
Lemma last_repeat : forall x k d, last (repeat x (S k)) d = (x : R).
Proof. induction k as [|k IH]; intros d; [reflexivity|]. change (repeat x (S (S k))) with (x :: repeat x (S k)). change (last (x :: repeat x (S k)) d) with (last (repeat x (S k)) d). apply IH. Qed.
Lemma pad_t_ok : forall n l, l <> [] -> nondecreasing l -> (length l <= n)%nat ->
  length (pad_t n l) = n /\ nth 0 (pad_t n l) 0 = nth 0 l 0 /\ nondecreasing (pad_t n l) /\ last (pad_t n l) 0 = last l 0 /\ (forall v, In v (pad_t n l) -> v <= last l 0).
Proof.
  intros n l NE ND L. unfold pad_t. assert (HL : (0 < length l)%nat) by (destruct l; [contradiction|cbn; lia]).
  assert (UP : forall v, In v l -> v <= last l 0) by (intros; apply nd_last_ge; auto).
  rewrite app_length, repeat_length. split; [lia|]. split; [rewrite app_nth1 by auto; reflexivity|].
  split; [apply nondecreasing_app; [auto|apply nd_repeat|]; intros x y I J; apply repeat_spec in J; rewrite J; auto|]. split.
  - destruct (n - length l)%nat as [|k] eqn:K; [rewrite app_nil_r; reflexivity|]. rewrite last_nth0, app_nth2 by (rewrite app_length, repeat_length; lia).
    rewrite app_length, repeat_length. apply (repeat_spec (S k)). apply nth_In. rewrite repeat_length. lia.
  - intros v I. apply in_app_iff in I. destruct I as [I|I]; [auto|]. apply repeat_spec in I. lra.
Qed.
Lemma pad_z_ok : forall n l, l <> [] -> nondecreasing l -> (length l <= n)%nat ->
  length (pad_z n l) = n /\ nth 0 (pad_z n l) 0 = nth 0 l 0 /\ nondecreasing (pad_z n l).
Proof.
  intros n l NE ND L. unfold pad_z. assert (HL : (0 < length l)%nat) by (destruct l; [contradiction|cbn; lia]).
  rewrite app_length, map_length, seq_length. split; [lia|]. split; [rewrite app_nth1 by auto; reflexivity|]. apply nondecreasing_app; [auto| |].
  - intros i j I J. rewrite map_length, seq_length in J.
    rewrite !nth_indep with (d := 0) (d' := last l 0 + INR 0 * 0.1) by (rewrite map_length, seq_length; lia).
    rewrite !(map_nth (fun i => last l 0 + INR i * 0.1)), !seq_nth by lia. apply le_INR in I. cbn [Nat.add]. lra.
  - intros x y I J. apply in_map_iff in J. destruct J as (i & <- & _). pose proof (nd_last_ge _ _ ND I). pose proof (pos_INR i). lra.
Qed.

(** A backbone whose positive part rises from 0 to 1, with as many points as the curve *)
Definition rising_backbone (n : nat) (b : list R) : Prop :=
  length b = n /\ positive_part b <> [] /\ nth 0 (positive_part b) 0 = 0 /\ nondecreasing (positive_part b) /\ last (positive_part b) 0 = 1.
Lemma pp_length : forall l, (length (positive_part l) <= length l)%nat.
Proof. intros. unfold positive_part. induction l as [|a t IH]; [cbn; lia|]. cbn. destruct (Rle_dec 0 a); cbn; lia. Qed.
Lemma last_map_mul : forall (f : R -> R) l, l <> [] -> last (map f l) 0 = f (last l 0).
Proof. intros f l H. induction l as [|a [|b t] IH]; [contradiction|reflexivity|]. change (last (map f (a :: b :: t)) 0) with (last (map f (b :: t)) 0). rewrite IH by discriminate. reflexivity. Qed.

Lemma moment_row : forall f b D n norm, 0 <= f -> 0 < D -> 0 <= norm -> (1 <= n)%nat -> rising_backbone n b ->
  let r := api_moment D n (scale f b) norm in let peak := PI / 4 * D ^ 2 * f * norm in
  length r = n /\ nth 0 r 0 = 0 /\ nondecreasing r /\ (forall v, In v r -> 0 <= v <= peak) /\ last r 0 = peak.
Proof.
  intros f b D n norm F HD NM HN (LB & NE & Z & ND & L1) r peak.
  assert (C : 0 < 1 / 4 * PI * D ^ 2) by (pose proof PI_RGT_0; apply Rmult_lt_0_compat; [lra|apply pow_lt; auto]).
  assert (CORE : exists l, r = map (fun v => 1 / 4 * PI * D ^ 2 * v * norm) l /\ length l = n /\ nth 0 l 0 = 0 /\ nondecreasing l /\ last l 0 = f).
  { unfold r, api_moment. eexists. split; [reflexivity|]. destruct F as [F|F].
    - rewrite pp_scale by auto. destruct (pad_t_ok n (scale f (positive_part b))) as (A & B & CC & E & _).
      + destruct (positive_part b); [contradiction|discriminate].
      + apply scale_nd; [lra|auto].
      + rewrite scale_length, <- LB. apply pp_length.
      + split; [exact A|]. split; [rewrite B; unfold scale; rewrite nth_scale, Z; ring|]. split; [exact CC|]. rewrite E. unfold scale. rewrite last_map_mul by auto. rewrite L1. ring.
    - subst f. assert (ZZ : scale 0 b = repeat 0 n). { rewrite <- LB. clear. unfold scale. induction b as [|a t IH]; [reflexivity|]. cbn. f_equal; [ring|exact IH]. }
      rewrite ZZ, pp_all by (intros v I; apply repeat_spec in I; lra). destruct (pad_t_ok n (repeat 0 n)) as (A & B & CC & E & _).
      + destruct n; [lia|discriminate].
      + apply nd_repeat.
      + rewrite repeat_length. lia.
      + split; [exact A|]. split; [rewrite B; destruct n; reflexivity|]. split; [exact CC|]. rewrite E. destruct n; [reflexivity|]. apply last_repeat. }
  destruct CORE as (l & -> & L & Z' & ND' & LL). assert (NL : l <> []) by (intros ->; cbn in L; lia).
  assert (MON : forall x y, x <= y -> 1 / 4 * PI * D ^ 2 * x * norm <= 1 / 4 * PI * D ^ 2 * y * norm) by (intros; apply Rmult_le_compat_r; [auto|]; apply Rmult_le_compat_l; lra).
  assert (N0 : nth 0 (map (fun v => 1 / 4 * PI * D ^ 2 * v * norm) l) 0 = 0).
  { rewrite nth_indep with (d' := 1 / 4 * PI * D ^ 2 * 0 * norm) by (rewrite map_length; lia). rewrite (map_nth (fun v => 1 / 4 * PI * D ^ 2 * v * norm)), Z'. ring. }
  assert (NR : nondecreasing (map (fun v => 1 / 4 * PI * D ^ 2 * v * norm) l)) by (apply nondecreasing_map; auto).
  assert (LR : last (map (fun v => 1 / 4 * PI * D ^ 2 * v * norm) l) 0 = peak) by (rewrite last_map_mul by auto; rewrite LL; unfold peak; field).
  rewrite map_length. split; [exact L|]. split; [exact N0|]. split; [exact NR|]. split; [|exact LR].
  intros v I. split; [apply (nd_nonneg _ N0 NR); auto|]. rewrite <- LR. apply nd_last_ge; auto.
Qed.

Lemma atan_mono : forall x y, x <= y -> atan x <= atan y.
Proof. intros x y [H| ->]; [left; apply atan_increasing; auto|right; auto]. Qed.
Lemma rotation_row : forall D n z, 0 < D -> nondecreasing z -> positive_part z <> [] -> nth 0 (positive_part z) 0 = 0 -> length z = n ->
  let r := api_rotation D n z in length r = n /\ nth 0 r 0 = 0 /\ nondecreasing r /\ (forall v, In v r -> v < PI / 2).
Proof.
  intros D n z HD ND NE Z L r. destruct (pad_z_ok n (positive_part z) NE (nd_pp _ ND)) as (A & B & C). { rewrite <- L. apply pp_length. }
  unfold r, api_rotation. rewrite map_length. split; [exact A|]. split.
  { rewrite nth_indep with (d' := atan (0 / (0.5 * D))). 2:{ rewrite map_length, A, <- L. pose proof (pp_length z). destruct (positive_part z); [contradiction|cbn in *; lia]. }
    rewrite (map_nth (fun v => atan (v / (0.5 * D)))), B, Z. unfold Rdiv. rewrite Rmult_0_l. apply atan_0. }
  split; [apply nondecreasing_map; auto; intros x y _ _ H; apply atan_mono; apply Rmult_le_compat_r; [left; apply Rinv_0_lt_compat; lra|auto]|].
  intros v I. apply in_map_iff in I. destruct I as (w & <- & _). apply atan_bound.
Qed.

Lemma clay_backbone_rises : forall u n idx, (forall i, 0 <= u i < 1) -> argsort (clay_backbone_z u n) idx -> (15 <= n)%nat -> rising_backbone n (clay_backbone_t 1 1 n idx).
Proof.
  intros u n idx HU HA N. unfold rising_backbone. rewrite (clay_t_length u 1 1 n idx HU HA). split; [lia|]. rewrite (clay_t_eq u 1 1 n idx HU HA), pp_app, pp_clay_tlow.
  rewrite pp_all by (intros v I; apply repeat_spec in I; lra). split; [discriminate|]. split; [reflexivity|].
  split. { apply nondecreasing_app; [|apply nd_repeat|intros x y I J; apply repeat_spec in J; cbn in I; repeat (destruct I as [<-|I]; [lra|]); contradiction].
    repeat (apply nondecreasing_cons; [intros x I; cbn in I; repeat (destruct I as [<-|I]; [lra|]); contradiction|]). intros i j _ H. cbn in H. lia. }
  destruct (Nat.max 15 n - 13)%nat as [|k] eqn:K; [lia|]. rewrite last_nth0, app_nth2 by (rewrite app_length, repeat_length; cbn; lia).
  apply (repeat_spec (S k)). apply nth_In. rewrite app_length, !repeat_length. cbn [length]. lia.
Qed.
Lemma sand_backbone_rises : forall u n idx, (forall i, 0 <= u i < 1) -> argsort (sand_backbone_z u n) idx -> (15 <= n)%nat -> rising_backbone n (sand_backbone_t 1 n idx).
Proof.
  intros u n idx HU HA N. unfold rising_backbone. rewrite (sand_t_length u 1 n idx HU HA). split; [lia|]. rewrite (sand_t_eq u 1 n idx HU HA), pp_app, pp_sand_tlow.
  rewrite pp_all by (intros v I; apply repeat_spec in I; lra). split; [discriminate|]. split; [reflexivity|].
  split. { apply nondecreasing_app; [|apply nd_repeat|intros x y I J; apply repeat_spec in J; cbn in I; repeat (destruct I as [<-|I]; [lra|]); contradiction].
    repeat (apply nondecreasing_cons; [intros x I; cbn in I; repeat (destruct I as [<-|I]; [lra|]); contradiction|]). intros i j _ H. cbn in H. lia. }
  destruct (Nat.max 15 n - 13)%nat as [|k] eqn:K; [lia|]. rewrite last_nth0, app_nth2 by (rewrite app_length, repeat_length; cbn; lia).
  apply (repeat_spec (S k)). apply nth_In. rewrite app_length, !repeat_length. cbn [length]. lia.
Qed.
Lemma clay_rotation : forall u n D, (forall i, 0 <= u i < 1) -> 0 < D -> (15 <= n)%nat ->
  let r := api_rotation D n (scale D (clay_backbone_z u n)) in length r = n /\ nth 0 r 0 = 0 /\ nondecreasing r /\ (forall v, In v r -> v < PI / 2).
Proof.
  intros u n D HU HD N. apply rotation_row; auto.
  - apply scale_nd; [lra|]. apply clay_z_sorted.
  - rewrite pp_scale by auto. rewrite (clay_z_eq u n HU), pp_app, pp_clay_low. discriminate.
  - rewrite pp_scale by auto. unfold scale. rewrite nth_scale, (clay_z_eq u n HU), pp_app, pp_clay_low. cbn. ring.
  - rewrite scale_length, clay_z_length. lia.
Qed.
Lemma sand_rotation : forall u n D, (forall i, 0 <= u i < 1) -> 0 < D -> (15 <= n)%nat ->
  let r := api_rotation D n (sand_backbone_z u n) in length r = n /\ nth 0 r 0 = 0 /\ nondecreasing r /\ (forall v, In v r -> v < PI / 2).
Proof.
  intros u n D HU HD N. apply rotation_row; auto.
  - apply sand_z_sorted.
  - rewrite (sand_z_eq u n HU), pp_app, pp_sand_low. discriminate.
  - rewrite (sand_z_eq u n HU), pp_app, pp_sand_low. reflexivity.
  - rewrite sand_z_length. lia.
Qed.

(** The largest value of an array *)
Lemma fold_max : forall t a, (forall v, In v (a :: t) -> v <= fold_left Rmax t a) /\ In (fold_left Rmax t a) (a :: t).
Proof.
  induction t as [|b t IH]; intros a; [split; [intros v [<-|[]]; cbn; lra|left; reflexivity]|]. cbn [fold_left]. destruct (IH (Rmax a b)) as [U I]. split.
  - intros v [<-|[<-|J]].
    + apply Rle_trans with (Rmax a b); [apply Rmax_l|apply U; left; auto].
    + apply Rle_trans with (Rmax a b); [apply Rmax_r|apply U; left; auto].
    + apply U. right. auto.
  - destruct I as [I|I]; [|right; right; auto]. rewrite <- I. apply (Rmax_case a b (fun m => In m (a :: b :: t))); cbn; auto.
Qed.
Lemma array_max_is : forall l, l <> [] -> is_max (array_max l) l.
Proof. intros [|a t] H; [contradiction|]. destruct (fold_max t a). split; auto. Qed.
Lemma plain_some : forall l, plain (map Some l) = l.
Proof. intros l. unfold plain. rewrite map_map. apply map_id. Qed.

Lemma rows_exist : forall (P : option R -> list R -> list R -> Prop) (row : option R -> res curve) p, (forall v, In v p -> exists xs ys, row v = Ok (xs, map Some ys) /\ P v xs ys) ->
  exists T M, length T = length p /\ length M = length p /\ mapM row p = Ok (combine T (map (map Some) M)) /\ forall i, (i < length p)%nat -> P (nth i p None) (nth i T []) (nth i M []).
Proof.
  intros P row. induction p as [|v p IH]; intros H.
  - exists [], []. do 3 (split; [reflexivity|]). intros i Hi. cbn in Hi. lia.
  - destruct (H v (or_introl eq_refl)) as (xs & ys & E & HP). destruct IH as (T & M & LT & LM & EM & HI); [intros; apply H; right; auto|].
    exists (xs :: T), (ys :: M). cbn [length]. do 2 (split; [lia|]). split; [cbn [mapM]; rewrite E; cbn [bind]; rewrite EM; reflexivity|].
    intros [|i] Hi; [exact HP|]. apply HI. cbn in Hi. lia.
Qed.
Lemma map_combine_l : forall (A B : Type) (a : list A) (b : list B), length a = length b -> map fst (combine a b) = a.
Proof. induction a as [|x a IH]; intros [|y b] L; try discriminate; [reflexivity|]. cbn. f_equal. apply IH. injection L as L. exact L. Qed.
Lemma map_combine_r : forall (A B : Type) (a : list A) (b : list B), length a = length b -> map snd (combine a b) = b.
Proof. induction a as [|x a IH]; intros [|y b] L; try discriminate; [reflexivity|]. cbn. f_equal. apply IH. injection L as L. exact L. Qed.
Lemma mt_rows_exist : forall (P : option R -> list R -> list R -> Prop) (row : option R -> res curve) p n, length p = n -> (forall v, In v p -> exists xs ys, row v = Ok (xs, map Some ys) /\ P v xs ys) ->
  exists T M, length T = n /\ length M = n /\ mt_rows n p row = Ok (T, map (map Some) M) /\ forall i, (i < n)%nat -> P (nth i p None) (nth i T []) (nth i M []).
Proof.
  intros P row p n L H. destruct (rows_exist P row p H) as (T & M & LT & LM & EM & HI). exists T, M. rewrite <- L. do 2 (split; [auto|]). split; [|exact HI].
  unfold mt_rows. rewrite firstn_all, EM. cbn [bind]. rewrite Nat.ltb_irrefl, Nat.sub_diag. cbn [repeat]. rewrite !app_nil_r, map_combine_l, map_combine_r by (rewrite map_length; lia). reflexivity.
Qed.
Lemma nth_rows : forall (f : R -> R) l i, nth i (map (map f) l) [] = map f (nth i l []).
Proof. intros f l i. exact (map_nth (map f) l [] i). Qed.
Lemma scaled_rows_numbers : forall ct cm T M, scaled_rows ct cm (T, map (map Some) M) = (map (map (fun v => v * ct)) T, map (map Some) (map (map (fun v => v * cm)) M)).
Proof. intros. unfold scaled_rows. cbn [fst snd]. rewrite !map_map. f_equal. apply map_ext. intros l. rewrite !map_map. reflexivity. Qed.

(** The moment springs are used in the range where the rotation curve is not degenerate. *)
Definition moment_admissible (m : lateral_model) (q : place) (n : nat) : Prop :=
  admissible m q n /\
  match m with
  | Bothkennar_clay _ _ _ => True
  | Cowden_clay _ _ _ => q_X q <= 5.89 * q_D q
  | Dunkirk_sand Dr _ _ => forall Dr', value Dr q = Ok Dr' -> 0.17 <= 0.2605 + (-0.1989 + 0.2019 * (Dr' / 100)) * (q_X q / q_L q)
  | Custom_pisa_sand _ _ mt _ _ _ | Custom_pisa_clay _ _ _ mt _ _ _ => conic_fields mt (q_X q) /\ conic_regular mt q
  | _ => False
  end.
Definition is_sand (m : lateral_model) : Prop := match m with Dunkirk_sand _ _ _ | Custom_pisa_sand _ _ _ _ _ _ => True | _ => False end.

(** Every row is a curve; in sand the row of a point of the p-y curve ends in proportion to its resistance. *)
Lemma moment_ok : forall m u idx q ymax n, (forall i, 0 <= u i < 1) -> good_place q -> moment_admissible m q n -> 0 <= ymax -> (8 <= n)%nat ->
  exists y p T M, py_curve m u q ymax n = Ok (y, map Some p) /\ length p = n /\ mt_curve m u idx q ymax n = Ok (T, map (map Some) M) /\ length T = n /\ length M = n /\
    (forall i, (i < n)%nat -> spring_curve n (nth i T []) (nth i M []) /\ nondecreasing (nth i M [])) /\
    (is_sand m -> exists Y, 0 < Y /\ forall i, (i < n)%nat -> last (nth i M []) 0 = Y * (nth i p 0 * q_D q)).
Proof.
  intros m u idx q ymax n U G [A A'] HY N. pose proof G as [G1 G2 GD GS GX].
  destruct (py_curve_ok m u q ymax n U G A HY N) as (y & p & EP & (LY & LP & _ & _ & _ & PP) & _). exists y, p. pose proof EP as EP0.
  assert (W : forall i, (i < n)%nat -> nth i (map Some p) None = Some (nth i p 0)).
  { intros i Hi. rewrite nth_indep with (d' := Some 0) by (rewrite map_length; lia). apply map_nth. }
  destruct m; cbn [admissible] in A; try contradiction; cbn [py_curve] in EP; cbn [mt_curve is_sand]; unfold value, custom_value in *.
  - destruct A as (A1 & A2 & A3). destruct (value_in _ _ _ _ pos_convex A1 G1 G2) as (s & E1 & P1). destruct (value_in _ _ _ _ pos_convex A2 G1 G2) as (g & E2 & P2).
    rewrite E1, E2 in *. cbn [bind] in *. rewrite EP. cbn [bind snd]. unfold pos in *.
    destruct (C43_mt_bothkennar (q_X q) s g (q_D q) n) as (xs & ys & E & C); try lra; try lia. apply pisa_spring in C.
    destruct (mt_rows_exist (fun _ xs ys => spring_curve n xs ys /\ nondecreasing ys) (fun _ => mt_bothkennar (q_X q) s g (q_D q) n) (map Some p) n) as (T & M & L1 & L2 & ER & HI); [rewrite map_length; auto|intros v _; exists xs, ys; auto|].
    exists T, M. split; [exact EP0|]. do 4 (split; [auto|]). split; [auto|contradiction].
  - destruct A as (A1 & A2 & A3). destruct (value_in _ _ _ _ pos_convex A1 G1 G2) as (s & E1 & P1). destruct (value_in _ _ _ _ pos_convex A2 G1 G2) as (g & E2 & P2).
    rewrite E1, E2 in *. cbn [bind] in *. rewrite EP. cbn [bind snd]. unfold pos in *.
    destruct (C43_mt_cowden_partial (q_X q) s g (q_D q) n) as (xs & ys & E & C); try lra; try lia. apply pisa_spring in C.
    destruct (mt_rows_exist (fun _ xs ys => spring_curve n xs ys /\ nondecreasing ys) (fun _ => mt_cowden (q_X q) s g (q_D q) n) (map Some p) n) as (T & M & L1 & L2 & ER & HI); [rewrite map_length; auto|intros v _; exists xs, ys; auto|].
    exists T, M. split; [exact EP0|]. do 4 (split; [auto|]). split; [auto|contradiction].
  - destruct A as (A1 & A2 & A3 & A4 & A5). destruct (value_in _ _ _ _ density_convex A1 G1 G2) as (s & E1 & P1). destruct (value_in _ _ _ _ pos_convex A2 G1 G2) as (g & E2 & P2).
    specialize (A' s E1). rewrite E1, E2 in *. cbn [bind] in *. rewrite EP. cbn [bind snd]. unfold pos, density in *.
    set (yu := 0.2605 + (-0.1989 + 0.2019 * (s / 100)) * (q_X q / q_L q)) in *.
    destruct (mt_rows_exist (fun v xs ys => exists pv, v = Some pv /\ (spring_curve n xs ys /\ nondecreasing ys) /\ last ys 0 = yu * (pv * q_D q)) (of_p (fun p => mt_dunkirk (q_sig q) (q_X q) s g p (q_D q) (q_L q) n)) (map Some p) n)
      as (T & M & L1 & L2 & ER & HI).
    { rewrite map_length; auto. }
    { intros v I. apply in_map_iff in I. destruct I as (pv & <- & I). cbn [of_p].
      destruct (C43_mt_dunkirk_partial (q_sig q) (q_X q) s g pv (q_D q) (q_L q) n) as (xs & ys & E & C); try lra; try lia; auto.
      exists xs, ys. split; [exact E|]. exists pv. split; [reflexivity|]. pose proof C as (_ & _ & _ & _ & _ & _ & _ & _ & LL & _). rewrite Rabs_right in LL by (apply Rle_ge, PP, I).
      apply pisa_spring in C. split; [exact C|exact LL]. }
    exists T, M. split; [exact EP0|]. do 4 (split; [auto|]). split; [intros i Hi; destruct (HI i Hi) as (pv & _ & H & _); exact H|]. intros _. exists yu. split; [lra|].
    intros i Hi. destruct (HI i Hi) as (pv & E & _ & H). rewrite W in E by auto. injection E as <-. exact H.
  - destruct A as (A1 & A2 & A3). destruct A' as (B1 & B2). destruct (custom_value_in _ _ (q_depth q) (q_height q) (q_X q) pos_convex A1 G1 G2) as (g & E1 & P1). rewrite E1 in *. cbn [bind] in *. rewrite EP. cbn [bind snd]. unfold pos in P1.
    assert (CC : exists Y, 0 < Y /\ forall pv, 0 <= pv -> exists xs ys, with_four mt q (fun X nn k Y => mt_custom_sand (q_sig q) g pv (q_D q) X nn k Y n) = Ok (xs, map Some ys) /\ (spring_curve n xs ys /\ nondecreasing ys) /\ last ys 0 = Y * (pv * q_D q)).
    { destruct (four_ok mt q G B1 B2) as (x & c & k & yy & WD & CV & PK & PY & RG & EQ). unfold wide, curvature, pos in *. exists yy. split; [exact PY|]. intros pv Hp. rewrite EQ.
      pose proof (Rmult_le_pos _ _ Hp (Rlt_le _ _ GD)). destruct (scaled_curve' x c k yy n (q_sig q) g (pv * q_D q)) as (xs & ys & E & C); try lra; try lia.
      exists xs, ys. split; [exact E|]. pose proof C as (_ & _ & _ & _ & _ & _ & _ & _ & LL & _). apply pisa_spring in C. auto. }
    destruct CC as (Y & Y0 & CC).
    destruct (mt_rows_exist (fun v xs ys => exists pv, v = Some pv /\ (spring_curve n xs ys /\ nondecreasing ys) /\ last ys 0 = Y * (pv * q_D q)) (of_p (fun p => with_four mt q (fun X nn k Y => mt_custom_sand (q_sig q) g p (q_D q) X nn k Y n))) (map Some p) n)
      as (T & M & L1 & L2 & ER & HI).
    { rewrite map_length; auto. }
    { intros v I. apply in_map_iff in I. destruct I as (pv & <- & I). cbn [of_p]. destruct (CC pv (PP pv I)) as (xs & ys & E & C). exists xs, ys. split; [exact E|]. exists pv. auto. }
    exists T, M. split; [exact EP0|]. do 4 (split; [auto|]). split; [intros i Hi; destruct (HI i Hi) as (pv & _ & H & _); exact H|]. intros _. exists Y. split; [auto|].
    intros i Hi. destruct (HI i Hi) as (pv & E & _ & H). rewrite W in E by auto. injection E as <-. exact H.
  - destruct A as (A0 & A1 & A2 & A3). destruct A' as (B1 & B2). destruct (custom_value_in _ _ (q_depth q) (q_height q) (q_X q) pos_convex A0 G1 G2) as (s & E0 & P0).
    destruct (custom_value_in _ _ (q_depth q) (q_height q) (q_X q) pos_convex A1 G1 G2) as (g & E1 & P1). rewrite E0, E1 in *. cbn [bind] in *. rewrite EP. cbn [bind snd]. unfold pos in P0, P1.
    destruct (scales s (q_D q)) as (S1 & S2 & S3); [lra|auto|].
    destruct (custom_curve mt q n s g (s * q_D q ^ 2)) as (x & c & k & yy & xs & ys & _ & _ & EQ & E & C & ND & _); auto; try lra; try lia.
    destruct (mt_rows_exist (fun _ xs ys => spring_curve n xs ys /\ nondecreasing ys) (fun _ => with_four mt q (fun X nn k Y => mt_custom_clay s g (q_D q) X nn k Y n)) (map Some p) n) as (T & M & L1 & L2 & ER & HI);
      [rewrite map_length; auto|intros v _; exists xs, ys; rewrite EQ; auto|].
    exists T, M. split; [exact EP0|]. do 4 (split; [auto|]). split; [auto|contradiction].
Qed.
