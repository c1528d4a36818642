(** Lemmas about the lateral soil models. *)
From Coq Require Import Reals Lra Lia List Bool Arith Permutation.
From Verif Require Import Base ConicModel ConicSpec ConicProofs PisaModel PisaSpec PisaProofs PisaProps ApiSandModel ApiSandSpec ApiSandProofs ApiClayModel ApiClaySpec ApiClayProofs ApiClayProps
  ReeseModel ReeseSpec ReeseProofs ReeseProps AxialModel LateralModel LateralSpec.
Import ListNotations.
Local Open Scope R_scope.

(** What pydantic checks of a field: the number, or every number of a list of one or two. *)
Definition all_values (P : R -> Prop) (p : rparam) : Prop :=
  match p with PNum x => P x | PList [x] => P x | PList [x; y] => P x /\ P y | _ => False end.
(** Custom PISA fields also take functions, whose values are not checked. *)
Definition custom_values (P : R -> Prop) (p : rparam) (X : R) : Prop := match p with PFun f => P (f X) | _ => all_values P p end.

Definition pos (x : R) : Prop := 0 < x.
Lemma pos_convex : convex pos.
Proof. intros a b t A B T. unfold between, pos in *. destruct (Rle_lt_dec t (1/2)); [assert (0 < (1 - t) * a) by (apply Rmult_lt_0_compat; lra); assert (0 <= t * b) by (apply Rmult_le_pos; lra)|
  assert (0 <= (1 - t) * a) by (apply Rmult_le_pos; lra); assert (0 < t * b) by (apply Rmult_lt_0_compat; lra)]; lra. Qed.
Definition within (lo hi x : R) : Prop := lo <= x <= hi.
Lemma within_convex : forall lo hi, convex (within lo hi).
Proof. intros lo hi a b t A B T. unfold between, within in *. assert (0 <= (1 - t) * (a - lo)) by (apply Rmult_le_pos; lra). assert (0 <= t * (b - lo)) by (apply Rmult_le_pos; lra).
  assert (0 <= (1 - t) * (hi - a)) by (apply Rmult_le_pos; lra). assert (0 <= t * (hi - b)) by (apply Rmult_le_pos; lra). lra. Qed.
Definition density (x : R) : Prop := 0 < x <= 100.
Lemma density_convex : convex density.
Proof. intros a b t A B T. split; [apply pos_convex; unfold density, pos in *; try lra; tauto|]. apply (within_convex 0 100); unfold density, within in *; try lra; tauto. Qed.
Definition curvature (x : R) : Prop := 0 <= x < 1.
Lemma curvature_convex : convex curvature.
Proof. intros a b t A B T. unfold curvature in *. split; [apply (within_convex 0 1); unfold within; try lra; tauto|].
  assert (0 < 1 - between a b t); [|lra]. replace (1 - between a b t) with (between (1 - a) (1 - b) t) by (unfold between; ring). apply pos_convex; unfold pos; lra || auto. Qed.
Definition wide (x : R) : Prop := 1/100 <= x.
Lemma wide_convex : convex wide.
Proof. intros a b t A B T. unfold between, wide in *. assert (0 <= (1 - t) * (a - 1/100)) by (apply Rmult_le_pos; lra). assert (0 <= t * (b - 1/100)) by (apply Rmult_le_pos; lra). lra. Qed.

Lemma at_depth_between : forall a b depth height, height <> 0 -> at_depth a b depth height = Ok (between a b (depth / height)).
Proof. intros a b depth height H. unfold at_depth. rewrite nonzero_ok by auto. f_equal. unfold between. field. auto. Qed.
Lemma fraction : forall depth height, 0 < height -> 0 <= depth <= height -> 0 <= depth / height <= 1.
Proof. intros d h H D. split; [apply Rmult_le_pos; [lra|left; apply Rinv_0_lt_compat; auto]|]. apply Rmult_le_reg_r with h; [auto|]. unfold Rdiv. rewrite Rmult_assoc, Rinv_l; lra. Qed.
Lemma value_in : forall P p depth height, convex P -> all_values P p -> 0 < height -> 0 <= depth <= height -> exists v, in_layer p depth height = Ok v /\ P v.
Proof.
  intros P p depth height C A H D. pose proof (fraction depth height H D) as F.
  destruct p as [x|[|x [|y [|z l]]]|f]; cbn in A; try contradiction; unfold in_layer; cbn [top_bottom bind fst snd]; rewrite at_depth_between by lra; eexists; (split; [reflexivity|]); apply C; tauto.
Qed.
Lemma custom_value_in : forall P p depth height X, convex P -> custom_values P p X -> 0 < height -> 0 <= depth <= height -> exists v, at_current_depth p depth height X = Ok v /\ P v.
Proof. intros P p depth height X C A H D. destruct p; [apply value_in; auto|apply value_in; auto|]. exists (f X). split; [reflexivity|exact A]. Qed.

(** A place in a layer of a pile of diameter D *)
Record good_place (q : place) : Prop := { g_height : 0 < q_height q; g_depth : 0 <= q_depth q <= q_height q; g_D : 0 < q_D q; g_sig : 0 <= q_sig q; g_X : 0 <= q_X q }.

(** No sample of the conic hits its singularity. *)
Definition conic_regular (f : four) (q : place) : Prop := forall x n k y,
  custom_value (f_X f) q = Ok x -> custom_value (f_n f) q = Ok n -> custom_value (f_k f) q = Ok k -> custom_value (f_Y f) q = Ok y -> n <= 1/2 \/ n * y <= (1 - n) * k * x.
Definition conic_fields (f : four) (X : R) : Prop :=
  custom_values wide (f_X f) X /\ custom_values curvature (f_n f) X /\ custom_values pos (f_k f) X /\ custom_values pos (f_Y f) X.
Definition dunkirk_regular (Dr : rparam) (q : place) (m : nat) : Prop := forall Dr', value Dr q = Ok Dr' ->
  let d := Dr' / 100 in let n := 0.917 + 0.06193 * d in let k := 8.731 - 0.6982 * d - 0.9178 * (q_X q / q_D q) in
  let xu := 146.1 - 92.11 * d in let yu := 0.3667 + 25.89 * d + (0.3375 - 8.9 * d) * (q_X q / q_L q) in
  forall x, In x (conic_x xu (Nat.max 8 m)) -> 0 < x -> x < xu -> (1 - n) * Rmax (yu / xu) k * xu ^ 2 <> n * yu * x.

(** Accepted by pydantic, and used within the documented range of the model. *)
Definition admissible (m : lateral_model) (q : place) (n : nat) : Prop :=
  match m with
  | Bothkennar_clay Su G0 _ | Cowden_clay Su G0 _ => all_values pos Su /\ all_values pos G0 /\ q_X q <= 6 * q_D q
  | Dunkirk_sand Dr G0 _ => all_values density Dr /\ all_values pos G0 /\ q_X q <= q_L q /\ 2 * q_D q <= q_L q <= 6 * q_D q /\ dunkirk_regular Dr q n
  | API_sand phi _ k _ _ _ _ => all_values (within 15 45) phi /\ match k with None => True | Some p => all_values pos p end
  | API_clay Su eps50 _ J _ _ _ | Modified_Matlock_clay Su eps50 _ J _ _ _ => all_values pos Su /\ all_values pos eps50 /\ 0.25 <= J <= 0.5
  | Reese_weakrock Ei qu RQD k ztop _ _ => all_values pos Ei /\ all_values pos qu /\ 0 <= RQD <= 100 /\ 0.00005 <= k <= 0.0005 /\ 0 <= ztop
  | Custom_pisa_sand G0 py _ _ _ _ => custom_values pos G0 (q_X q) /\ conic_fields py (q_X q) /\ conic_regular py q
  | Custom_pisa_clay Su G0 py _ _ _ _ => custom_values pos Su (q_X q) /\ custom_values pos G0 (q_X q) /\ conic_fields py (q_X q) /\ conic_regular py q
  end.
(** Models whose p-y curve never softens *)
Definition hardening (m : lateral_model) : Prop :=
  match m with API_clay _ _ kind _ _ _ _ | Modified_Matlock_clay _ _ kind _ _ _ _ => kind = Static | Reese_weakrock _ _ _ _ _ _ _ => False | _ => True end.

Lemma nd_nonneg : forall l, nth 0 l 0 = 0 -> nondecreasing l -> forall v, In v l -> 0 <= v.
Proof. intros l Z N v I. apply In_nth with (d := 0) in I. destruct I as (i & Hi & <-). pose proof (N 0%nat i ltac:(lia) Hi). lra. Qed.
Lemma pisa_spring : forall m n s e xu yu xs ys, pisa_curve m n s e xu yu xs ys -> spring_curve m xs ys /\ nondecreasing ys.
Proof. intros m n s e xu yu xs ys (A & B & C & D & E & F & _). split; [|exact F]. do 5 (split; [auto|]). apply nd_nonneg; auto. Qed.
Lemma clay_spring : forall f b reach n sig X Su eps50 D J kind ymax r, clay_claim f b reach n sig X Su eps50 D J kind ymax r ->
  exists y p, r = Ok (y, p) /\ spring_curve n y p /\ (kind = Static -> nondecreasing p).
Proof.
  intros f b reach n sig X Su eps50 D J kind ymax r (Xr & y & p & E & _ & _ & [L1 L2 F1 F2 SS _] & _ & _ & K). exists y, p. split; [exact E|].
  destruct kind; [destruct K as (K1 & K2 & _)|destruct K as (K2 & _)]; (split; [do 5 (split; [auto|]); intros v I; apply K2; auto|]); [auto|discriminate].
Qed.
Lemma numbers_ok : forall y p, numbers (Ok (y, p)) = Ok (y, map Some p). Proof. reflexivity. Qed.

Lemma nd_scale : forall c l, 0 <= c -> nondecreasing l -> nondecreasing (map (fun v => v * c) l).
Proof. intros c l C N i j I J. rewrite map_length in J. rewrite !nth_scale. apply Rmult_le_compat_r; auto. Qed.
Lemma spring_scale : forall n y p cy cp, 0 <= cy -> 0 <= cp -> spring_curve n y p -> spring_curve n (map (fun v => v * cy) y) (map (fun v => v * cp) p).
Proof.
  intros n y p cy cp CY CP (A & B & C & D & E & F). unfold spring_curve. rewrite !map_length, !nth_scale, C, D. do 2 (split; [auto|]). do 2 (split; [ring|]).
  split; [apply nd_scale; auto|]. intros v I. apply in_map_iff in I. destruct I as (w & <- & I). apply Rmult_le_pos; auto.
Qed.
Lemma scaled_numbers : forall cx cy y p, scaled_by cx cy (y, map Some p) = (map (fun v => v * cx) y, map Some (map (fun v => v * cy) p)).
Proof. intros. unfold scaled_by. cbn [fst snd]. rewrite !map_map. reflexivity. Qed.

Lemma sand_spring : forall sig X phi D kind b k ymax n, 15 <= phi <= 45 -> 0 < D -> 0 <= k -> 0 <= sig -> 0 <= X -> 0 <= ymax -> (8 <= n)%nat ->
  exists y p, api_sand sig X phi D kind b k ymax n = Ok (y, p) /\ spring_curve n y p /\ nondecreasing p.
Proof.
  intros sig X phi D kind b k ymax n P HD HK HS HX HY N. rewrite api_sand_eq by (auto; lra). replace (Nat.max 8 n) with n by lia. eexists _, _. split; [reflexivity|].
  pose proof (sand_ymax_pos sig X phi D kind b k ymax ltac:(lra) ltac:(lra) HD HK HS HX HY) as Y.
  assert (NP : nondecreasing (map (sand_p sig X phi D kind b k) (linspace 0 (sand_ymax sig X phi D kind b k ymax) n))).
  { apply nondecreasing_map; [apply linspace_nondecr; lra|]. intros; apply sand_p_mono; auto; lra. }
  assert (Z : nth 0 (linspace 0 (sand_ymax sig X phi D kind b k ymax) n) 0 = 0). { apply linspace_ends. lia. }
  assert (ZP : nth 0 (map (sand_p sig X phi D kind b k) (linspace 0 (sand_ymax sig X phi D kind b k ymax) n)) 0 = 0).
  { rewrite nth_indep with (d' := sand_p sig X phi D kind b k 0) by (rewrite map_length, linspace_length; lia). rewrite map_nth, Z.
    unfold sand_p. cbv zeta. destruct (Req_EM_T _ 0); [reflexivity|]. rewrite Rmult_0_r. unfold Rdiv. rewrite Rmult_0_l, tanh_0. ring. }
  split; [|exact NP]. unfold spring_curve. rewrite map_length, linspace_length. do 4 (split; [auto|]). split; [apply linspace_nondecr; lra|]. apply nd_nonneg; auto.
Qed.

Lemma kallehave_nonneg : forall phi b X D, 0 <= kallehave_k phi b X D.
Proof. intros. unfold kallehave_k. pose proof (api_k_pos phi b). repeat apply Rmult_le_pos; try apply rpow_nonneg; lra. Qed.
Lemma sorensen_nonneg : forall phi X D, 0 <= sorensen_k phi X D.
Proof. intros. unfold sorensen_k. pose proof (Rmax_r X 0.01). repeat apply Rmult_le_pos; try apply rpow_nonneg; try lra. left. apply Rinv_0_lt_compat. lra. Qed.

Lemma four_ok : forall f q, good_place q -> conic_fields f (q_X q) -> conic_regular f q ->
  exists x n k y, wide x /\ curvature n /\ pos k /\ pos y /\ (n <= 1/2 \/ n * y <= (1 - n) * k * x) /\ forall g, with_four f q g = g x n k y.
Proof.
  intros f q [G1 G2 _ _ _] (A & B & C & D) R. unfold with_four.
  destruct (custom_value_in _ _ (q_depth q) (q_height q) (q_X q) wide_convex A G1 G2) as (x & Ex & Px).
  destruct (custom_value_in _ _ (q_depth q) (q_height q) (q_X q) curvature_convex B G1 G2) as (n & En & Pn).
  destruct (custom_value_in _ _ (q_depth q) (q_height q) (q_X q) pos_convex C G1 G2) as (k & Ek & Pk).
  destruct (custom_value_in _ _ (q_depth q) (q_height q) (q_X q) pos_convex D G1 G2) as (y & Ey & Py).
  exists x, n, k, y. do 4 (split; [auto|]). split; [apply R; auto|]. intros g. unfold custom_value. rewrite Ex, En, Ek, Ey. reflexivity.
Qed.

Lemma py_curve_ok : forall m u q ymax n, (forall i, 0 <= u i < 1) -> good_place q -> admissible m q n -> 0 <= ymax -> (8 <= n)%nat ->
  exists y p, py_curve m u q ymax n = Ok (y, map Some p) /\ spring_curve n y p /\ (hardening m -> nondecreasing p).
Proof.
  intros m u q ymax n U G A HY N. pose proof G as [G1 G2 GD GS GX].
  destruct m; cbn [admissible] in A; cbn [py_curve hardening]; unfold value, custom_value in *.
  - destruct A as (A1 & A2 & A3). destruct (value_in _ _ _ _ pos_convex A1 G1 G2) as (s & E1 & P1). destruct (value_in _ _ _ _ pos_convex A2 G1 G2) as (g & E2 & P2).
    rewrite E1, E2. cbn [bind]. unfold pos in *. destruct (C43_py_bothkennar (q_X q) s g (q_D q) n) as (xs & ys & E & C); try lra; try lia.
    exists xs, ys. split; [exact E|]. apply pisa_spring in C. tauto.
  - destruct A as (A1 & A2 & A3). destruct (value_in _ _ _ _ pos_convex A1 G1 G2) as (s & E1 & P1). destruct (value_in _ _ _ _ pos_convex A2 G1 G2) as (g & E2 & P2).
    rewrite E1, E2. cbn [bind]. unfold pos in *. destruct (C43_py_cowden (q_X q) s g (q_D q) n) as (xs & ys & E & C); try lra; try lia.
    exists xs, ys. split; [exact E|]. apply pisa_spring in C. tauto.
  - destruct A as (A1 & A2 & A3 & A4 & A5). destruct (value_in _ _ _ _ density_convex A1 G1 G2) as (s & E1 & P1). destruct (value_in _ _ _ _ pos_convex A2 G1 G2) as (g & E2 & P2).
    specialize (A5 s E1). rewrite E1, E2. cbn [bind]. unfold pos, density in *. destruct (C43_py_dunkirk_partial (q_sig q) (q_X q) s g (q_D q) (q_L q) n) as (xs & ys & E & C); try lra; auto.
    exists xs, ys. split; [exact E|]. apply pisa_spring in C. replace (Nat.max 8 n) with n in C by lia. tauto.
  - destruct A as (A1 & A2). destruct (value_in _ _ _ _ (within_convex 15 45) A1 G1 G2) as (s & E1 & P1). rewrite E1. cbn [bind].
    assert (K : exists kk, subgrade s k modif q = Ok kk /\ 0 <= kk).
    { unfold subgrade, value. assert (V : exists v, match k with Some p => in_layer p (q_depth q) (q_height q) | None => Ok 0 end = Ok v /\ 0 <= v).
      { destruct k as [p|]; [destruct (value_in _ _ _ _ pos_convex A2 G1 G2) as (v & E & P); exists v; unfold pos in P; split; [exact E|lra]|exists 0; split; [reflexivity|lra]]. }
      destruct V as (v & E & P). rewrite E. cbn [bind]. eexists. split; [reflexivity|]. destruct modif as [[]|]; [apply kallehave_nonneg|apply sorensen_nonneg|exact P]. }
    destruct K as (kk & Ek & Pk). rewrite Ek. cbn [bind]. unfold within in P1.
    destruct (sand_spring (q_sig q) (q_X q) s (q_D q) kind (q_wet q) kk ymax n) as (y & p & E & C & NP); auto. exists y, p. rewrite E. split; [reflexivity|]. auto.
  - destruct A as (A1 & A2 & A3). destruct (value_in _ _ _ _ pos_convex A1 G1 G2) as (s & E1 & P1). destruct (value_in _ _ _ _ pos_convex A2 G1 G2) as (g & E2 & P2).
    rewrite E1, E2. cbn [bind]. unfold pos in *. pose proof (C46_api_clay_partial u (q_sig q) (q_X q) s g (q_D q) J kind ymax n U P2 GD GS GX ltac:(lra) ltac:(lra) HY) as C.
    apply clay_spring in C. destruct C as (y & p & E & C & H). exists y, p. rewrite E. replace (Nat.max 8 n) with n in C by lia. split; [reflexivity|]. auto.
  - destruct A as (A1 & A2 & A3). destruct (value_in _ _ _ _ pos_convex A1 G1 G2) as (s & E1 & P1). destruct (value_in _ _ _ _ pos_convex A2 G1 G2) as (g & E2 & P2).
    rewrite E1, E2. cbn [bind]. unfold pos in *. pose proof (C46_modified_matlock_partial u (q_sig q) (q_X q) s g (q_D q) J kind ymax n U P2 GD GS GX ltac:(lra) ltac:(lra) HY) as C.
    apply clay_spring in C. destruct C as (y & p & E & C & H). exists y, p. rewrite E. replace (Nat.max 8 n) with n in C by lia. split; [reflexivity|]. auto.
  - destruct A as (A1 & A2 & A3 & A4 & A5). destruct (value_in _ _ _ _ pos_convex A1 G1 G2) as (s & E1 & P1). destruct (value_in _ _ _ _ pos_convex A2 G1 G2) as (g & E2 & P2).
    rewrite E1, E2. cbn [bind]. unfold pos in *. pose proof (C47_reese_partial s g RQD (q_X q + ztop) (q_D q) k n P1 ltac:(lra) ltac:(lra) GD ltac:(lra)) as C. cbv zeta in C.
    destruct C as (y & p & E & L1 & L2 & F1 & F2 & SS & B & _). exists y, p. rewrite E. replace (Nat.max 8 n) with n in * by lia. split; [reflexivity|].
    split; [|tauto]. do 5 (split; [auto|]). intros v I. apply B. auto.
  - destruct A as (A1 & A2 & A3). destruct (custom_value_in _ _ (q_depth q) (q_height q) (q_X q) pos_convex A1 G1 G2) as (g & E1 & P1). rewrite E1. cbn [bind].
    destruct (four_ok py q G A2 A3) as (x & c & k & yy & W & CV & PK & PY & RG & EQ). rewrite EQ. unfold wide, curvature, pos in *.
    pose proof (Rmult_le_pos _ _ GS (Rlt_le _ _ GD)). destruct (scaled_curve' x c k yy n (q_sig q * q_D q) g (q_sig q * q_D q)) as (xs & ys & E & C); try lra; try lia.
    exists xs, ys. split; [exact E|]. apply pisa_spring in C. tauto.
  - destruct A as (A0 & A1 & A2 & A3). destruct (custom_value_in _ _ (q_depth q) (q_height q) (q_X q) pos_convex A0 G1 G2) as (s & E0 & P0).
    destruct (custom_value_in _ _ (q_depth q) (q_height q) (q_X q) pos_convex A1 G1 G2) as (g & E1 & P1). rewrite E0, E1. cbn [bind].
    destruct (four_ok py q G A2 A3) as (x & c & k & yy & W & CV & PK & PY & RG & EQ). rewrite EQ. unfold wide, curvature, pos in *.
    pose proof (Rmult_le_pos _ _ (Rlt_le _ _ P0) (Rlt_le _ _ GD)). destruct (scaled_curve' x c k yy n (s * q_D q) g (s * q_D q)) as (xs & ys & E & C); try lra; try lia.
    exists xs, ys. split; [exact E|]. apply pisa_spring in C. tauto.
Qed.

Lemma inside_ok : forall A q (r : res A), q_depth q <= q_height q -> inside_layer q r = r.
Proof. intros A q r H. unfold inside_layer. destruct (Rlt_dec _ _); [lra|reflexivity]. Qed.
Lemma outside : forall A q (r : res A), q_height q < q_depth q -> inside_layer q r = Err ValueError.
Proof. intros A q r H. unfold inside_layer. destruct (Rlt_dec _ _); [reflexivity|lra]. Qed.
