(** Property C128, continued: the moment springs of the API models and of custom sand, row by row. *)
From Coq Require Import Reals Lra Lia List Bool Arith.
From Verif Require Import Base ConicModel ConicSpec ConicProofs PisaModel PisaSpec PisaProofs PisaProps ApiSandModel ApiSandSpec ApiSandProofs ApiSandProps ApiClayModel ApiClaySpec
  AxialModel AxialSpec AxialProofs AxialProps LateralModel LateralSpec LateralProofs MomentProofs LateralProps SoftenProps FirmSpec FirmProofs FirmLateralProofs FirmBaseProofs.
Import ListNotations.
Local Open Scope R_scope.

(** ** Clay *)
Definition clay_z : list R := [0; 0.0016; 0.0031; 0.0057; 0.0080; 0.0100].
Definition clay_t : list R := [0; 0.3; 0.5; 0.75; 0.90; 1.00].

(** Every row of an API clay: six points of the table and then the ultimate moment *)
Lemma clay_rows : forall m Su u idx q ymax n, clay_strength m = Some Su -> (forall i, 0 <= u i < 1) -> good_place q -> 0 < q_sig q -> all_values pos Su ->
  argsort (clay_backbone_z u n) idx -> (15 <= n)%nat ->
  exists s z r, value Su q = Ok s /\ 0 < s /\ mt_spring_fct m u idx q ymax n = Ok (repeat z n, map (map Some) (repeat r n)) /\ length z = n /\ length r = n /\ nondecreasing z /\
    (forall k, (k < 6)%nat -> nth k z 0 = atan (2 * nth k clay_z 0)) /\
    (forall k, (k < 6)%nat -> nth k r 0 = nth k clay_t 0 * (PI / 4 * q_D q ^ 2 * fmax_api_clay (q_sig q) s 1)) /\
    (forall k, (5 <= k < n)%nat -> nth k r 0 = PI / 4 * q_D q ^ 2 * fmax_api_clay (q_sig q) s 1).
Proof.
  intros m Su u idx q ymax n CS U G HS AS IX N. pose proof G as [G1 G2 GD GS GX].
  destruct (value_in _ _ _ _ pos_convex AS G1 G2) as (s & E1 & P1). unfold pos in P1. exists s.
  set (z := api_rotation (q_D q) n (scale (q_D q) (clay_backbone_z u n))). set (f := fmax_api_clay (q_sig q) s 1). set (r := api_moment (q_D q) n (scale f (clay_backbone_t 1 1 n idx)) 1).
  exists z, r. split; [exact E1|]. split; [exact P1|].
  assert (E : mt_spring_fct m u idx q ymax n = Ok (repeat z n, map (map Some) (repeat r n))).
  { assert (W : mt_spring_fct m u idx q ymax n = inside_layer q (bind (bind (value Su q) (fun Su => let '(z, tz) := tz_api_clay u idx (q_sig q) Su (q_D q) 1 1 1 n in
      Ok (repeat (api_rotation (q_D q) n z) n, repeat (map Some (api_moment (q_D q) n tz 1)) n))) (fun c => Ok (scaled_rows 1 1 c)))) by (destruct m; cbn in CS; try discriminate; injection CS as ->; reflexivity).
    rewrite W, inside_ok by lra. unfold value. rewrite E1. cbn [bind tz_api_clay]. fold f z r.
    assert (RP : forall k, repeat (map Some r) k = map (map Some) (repeat r k)) by (intros k; induction k as [|k IH]; [reflexivity|]; cbn [repeat map]; rewrite IH; reflexivity). rewrite RP, one_rows. reflexivity. }
  split; [exact E|].
  destruct (C50_clay_friction_partial (q_sig q) s 1 HS ltac:(lra) ltac:(lra)) as (F0 & _). fold f in F0.
  destruct (clay_rotation u n (q_D q) U GD N) as (R1 & R2 & R3 & R4). fold z in R1, R2, R3, R4.
  pose proof (clay_backbone_rises u n idx U IX N) as RB. pose proof (moment_row f (clay_backbone_t 1 1 n idx) (q_D q) n 1 ltac:(lra) GD ltac:(lra) ltac:(lia) RB) as MR. cbv zeta in MR. fold r in MR. destruct MR as (M1 & M2 & M3 & M4 & M5).
  split; [exact R1|]. split; [exact M1|]. split; [exact R3|].
  assert (PPZ : positive_part (scale (q_D q) (clay_backbone_z u n)) = scale (q_D q) clay_z ++ scale (q_D q) (positive_part (skipn (length clay_low) (clay_backbone_z u n)))).
  { rewrite pp_scale by auto. unfold scale. rewrite <- map_app. f_equal. unfold clay_z. rewrite <- pp_clay_low, <- pp_app. f_equal. rewrite (clay_z_eq u n U). rewrite skipn_app, skipn_all, Nat.sub_diag. reflexivity. }
  assert (ZT : forall k, (k < 6)%nat -> nth k z 0 = atan (2 * nth k clay_z 0)).
  { intros k Hk. unfold z. rewrite (rotation_at (q_D q) n (scale (q_D q) (clay_backbone_z u n)) k (scale (q_D q) clay_z) _ Hk PPZ). f_equal. unfold scale. rewrite nth_scale. set (v := nth k _ 0). clearbody v. replace (0.5 * q_D q) with (q_D q / 2) by lra. field. lra. }
  split; [exact ZT|].
  assert (MT : forall k, (k < 6)%nat -> nth k r 0 = nth k clay_t 0 * (PI / 4 * q_D q ^ 2 * f)).
  { intros k Hk. destruct (Rle_lt_or_eq_dec 0 f ltac:(lra)) as [FP|FZ]; [|unfold r; rewrite <- FZ, zero_at; [ring|lia|apply RB]].
    assert (PPT : positive_part (scale f (clay_backbone_t 1 1 n idx)) = scale f clay_t ++ scale f (positive_part (skipn (length (clay_tlow 1 1)) (clay_backbone_t 1 1 n idx)))).
    { rewrite pp_scale by auto. unfold scale. rewrite <- map_app. f_equal. unfold clay_t. rewrite <- pp_clay_tlow, <- pp_app. f_equal. rewrite (clay_t_eq u 1 1 n idx U IX). rewrite skipn_app, skipn_all, Nat.sub_diag. reflexivity. }
    unfold r. rewrite (moment_at (q_D q) n (scale f (clay_backbone_t 1 1 n idx)) 1 k (scale f clay_t) _ Hk PPT). unfold scale. rewrite nth_scale. set (v := nth k _ 0). clearbody v. field. }
  split; [exact MT|]. intros k Hk. apply Rle_antisym.
  - assert (PE : PI / 4 * q_D q ^ 2 * f = PI / 4 * q_D q ^ 2 * f * 1) by ring. rewrite PE. apply M4, nth_In. lia.
  - replace (PI / 4 * q_D q ^ 2 * f) with (nth 5 r 0) by (rewrite MT by lia; unfold clay_t; cbn [nth]; lra). apply M3; lia.
Qed.

Lemma in_row : forall (a b : list R) n v w, length a = n -> length b = n -> In (v, w) (combine a b) -> exists k, (k < n)%nat /\ v = nth k a 0 /\ w = nth k b 0.
Proof.
  intros a b n v w LA LB I. destruct (In_nth _ _ (0, 0) I) as (k & Hk & E). rewrite combine_length, LA, LB, Nat.min_id in Hk. rewrite combine_nth in E by lia. exists k. split; [exact Hk|]. split; congruence.
Qed.
Lemma clay_z_strict : forall j k, (j < 6)%nat -> (k < 6)%nat -> nth j clay_z 0 <= nth k clay_z 0 -> nth j clay_t 0 <= nth k clay_t 0.
Proof.
  intros j k Hj Hk. unfold clay_z, clay_t. destruct j as [|[|[|[|[|[|j]]]]]]; try lia; destruct k as [|[|[|[|[|[|k]]]]]]; try lia; cbn [nth]; lra.
Qed.
Lemma atan_reflects : forall x y, atan x <= atan y -> x <= y.
Proof. intros x y H. destruct (Rle_lt_dec x y) as [|L]; [assumption|]. apply atan_increasing in L. lra. Qed.

(** The rows of the API clays: the same rotations, moments in proportion to the unit friction *)
Theorem C128_api_clay_rows : forall m m' Su Su' u u' idx idx' q q' ymax ymax' n, clay_strength m = Some Su -> clay_strength m' = Some Su' ->
  (forall i, 0 <= u i < 1) -> (forall i, 0 <= u' i < 1) -> good_place q -> good_place q' -> no_shallower q q' -> 0 < q_sig q -> all_values pos Su -> all_values pos Su' -> at_most Su Su' q ->
  argsort (clay_backbone_z u n) idx -> argsort (clay_backbone_z u' n) idx' -> (15 <= n)%nat ->
  exists T M T' M', mt_spring_fct m u idx q ymax n = Ok (T, map (map Some) M) /\ mt_spring_fct m' u' idx' q' ymax' n = Ok (T', map (map Some) M') /\
    length T = n /\ length M = n /\ length T' = n /\ length M' = n /\ forall i, (i < n)%nat -> outdone (nth i T []) (nth i M []) (nth i T' []) (nth i M' []).
Proof.
  intros m m' Su Su' u u' idx idx' q q' ymax ymax' n CS CS' U U' G G' NS HS AS AS' AM IX IX' N. destruct NS as (HSS & NX & NH & ND & Nd & NL & _).
  destruct (clay_rows m Su u idx q ymax n CS U G HS AS IX N) as (s & z & r & V & SP & E & LZ & LR & NZ & ZT & RT & RK).
  destruct (clay_rows m' Su' u' idx' q' ymax' n CS' U' G' ltac:(lra) AS' IX' N) as (s' & z' & r' & V' & SP' & E' & LZ' & LR' & NZ' & ZT' & RT' & RK').
  exists (repeat z n), (repeat r n), (repeat z' n), (repeat r' n). split; [exact E|]. split; [exact E'|]. rewrite !repeat_length. do 4 (split; [reflexivity|]). intros i Hi. rewrite !nth_repeat_lt by exact Hi.
  assert (SS : s <= s') by (apply AM; [apply value_custom; exact V|]; apply value_custom in V'; unfold custom_value in *; rewrite NX, NH, ND in V'; exact V').
  destruct (C50_clay_friction_partial (q_sig q) s 1 HS ltac:(lra) ltac:(lra)) as (F0 & _ & _ & FM). specialize (FM (q_sig q') s' 1 HSS SS ltac:(lra)).
  assert (DP : 0 < q_D q) by apply G. set (K := PI / 4 * q_D q ^ 2) in *. assert (KP : 0 < K) by (unfold K; pose proof PI_RGT_0; apply Rmult_lt_0_compat; [lra|apply pow_lt; exact DP]).
  rewrite Nd in RT', RK'. fold K in RT', RK'. set (P := K * fmax_api_clay (q_sig q) s 1) in *. set (P' := K * fmax_api_clay (q_sig q') s' 1) in *.
  assert (P0 : 0 <= P) by (apply Rmult_le_pos; lra). assert (PP : P <= P') by (apply Rmult_le_compat_l; lra).
  assert (T1 : forall k, (k < 6)%nat -> 0 <= nth k clay_t 0 <= 1) by (intros k Hk; unfold clay_t; destruct k as [|[|[|[|[|[|k]]]]]]; try lia; cbn [nth]; lra).
  assert (RU : forall k, (k < n)%nat -> nth k r 0 <= P).
  { intros k Hk. destruct (Nat.lt_ge_cases k 6) as [C|C]; [|rewrite RK by lia; lra]. rewrite RT by exact C. destruct (T1 k C). nra. }
  split.
  - intros v w v' w' I I' L. destruct (in_row z r n v w LZ LR I) as (j & Hj & -> & ->). destruct (in_row z' r' n v' w' LZ' LR' I') as (k & Hk & -> & ->).
    destruct (Nat.lt_ge_cases k 6) as [Ck|Ck]; [|rewrite (RK' k) by lia; pose proof (RU j Hj); lra].
    destruct (Nat.lt_ge_cases j 6) as [Cj|Cj].
    + rewrite (ZT j Cj), (ZT' k Ck) in L. apply atan_reflects in L. rewrite (RT j Cj), (RT' k Ck). pose proof (clay_z_strict j k Cj Ck ltac:(lra)). destruct (T1 j Cj), (T1 k Ck). apply Rmult_le_compat; lra.
    + assert (L5 : nth 5 z 0 <= nth j z 0) by (apply NZ; lia). rewrite (ZT 5%nat ltac:(lia)) in L5. rewrite (ZT' k Ck) in L. assert (LL : atan (2 * nth 5 clay_z 0) <= atan (2 * nth k clay_z 0)) by lra. apply atan_reflects in LL.
      pose proof (clay_z_strict 5 k ltac:(lia) Ck ltac:(lra)) as TT. assert (nth 5 clay_t 0 = 1) by (unfold clay_t; cbn [nth]; lra). rewrite (RK j) by lia. rewrite (RT' k Ck). nra.
  - intros w I. exists (nth 5 r' 0). split; [apply nth_In; lia|]. rewrite (RK' 5%nat) by lia. destruct (In_nth _ _ 0 I) as (k & Hk & <-). pose proof (RU k ltac:(lia)). lra.
Qed.
Print Assumptions C128_api_clay_rows.

(** ** Sand *)
(** The share of its largest value that point [i] of the p-y curve of API sand reaches, when the extent of the curve is left to the program *)
Definition sand_share (X : R) (n i : nat) : R := tanh (4 * X / Rmax X 0.1 * (INR i / INR (n - 1))).
Lemma share_pos : forall X n i, 0 < X -> (2 <= n)%nat -> (1 <= i)%nat -> 0 < sand_share X n i.
Proof.
  intros X n i HX N I. unfold sand_share. rewrite tanh_exp. assert (HR : 0.1 <= Rmax X 0.1) by apply Rmax_r. assert (HN : 0 < INR (n - 1)) by (apply lt_0_INR; lia). assert (HI : 0 < INR i) by (apply lt_0_INR; lia).
  set (a := 4 * X / Rmax X 0.1 * (INR i / INR (n - 1))). assert (HA : 0 < a) by (unfold a; apply Rmult_lt_0_compat; apply Rdiv_lt_0_compat; lra). pose proof (exp_ineq1 (2 * a) ltac:(lra)) as EX.
  assert (2 / (exp (2 * a) + 1) < 1); [|lra]. apply Rmult_lt_reg_r with (exp (2 * a) + 1); [lra|]. unfold Rdiv. rewrite Rmult_assoc, Rinv_l by lra. lra.
Qed.

Lemma sand_points : forall phi kind k modif e pm ym u q n s, good_place q -> let m := API_sand phi kind k modif e pm ym in admissible m q n -> (15 <= n)%nat -> 0 < q_sig q -> value phi q = Ok s ->
  exists y p, py_spring_fct m u q 0 n = Ok (y, map Some p) /\ length p = n /\
    forall i, (i < n)%nat -> nth i p 0 = at_X pm (q_X q) * (sand_A (q_X q) (q_D q) kind * sand_ultimate (q_sig q) (q_X q) s (q_D q)) * sand_share (q_X q) n i.
Proof.
  intros phi kind k modif e pm ym u q n s G m A N HS VS. pose proof G as [G1 G2 GD GS GX]. destruct A as (A1 & A2).
  assert (P1 : within 15 45 s). { destruct (value_in _ _ _ _ (within_convex 15 45) A1 G1 G2) as (s0 & E1 & P1). unfold value in VS. assert (s0 = s) by congruence. subst s0. exact P1. } unfold within in P1.
  assert (K : exists kk, subgrade s k modif q = Ok kk /\ 0 <= kk).
  { unfold subgrade, value. assert (V : exists v, match k with Some p => in_layer p (q_depth q) (q_height q) | None => Ok 0 end = Ok v /\ 0 <= v).
    { destruct k as [p|]; [destruct (value_in _ _ _ _ pos_convex A2 G1 G2) as (v & E & P); exists v; unfold pos in P; split; [exact E|lra]|exists 0; split; [reflexivity|lra]]. }
    destruct V as (v & E & P). rewrite E. cbn [bind]. eexists. split; [reflexivity|]. destruct modif as [[]|]; [apply kallehave_nonneg|apply sorensen_nonneg|exact P]. }
  destruct K as (kk & Ek & Pk).
  unfold py_spring_fct, m. rewrite inside_ok by lra. cbn [py_curve]. rewrite VS. cbn [bind]. rewrite Ek. cbn [bind]. rewrite api_sand_eq by lra. cbn [numbers bind p_multiplier y_multiplier]. rewrite scaled_numbers.
  eexists _, _. split; [reflexivity|]. cbn [fst snd]. rewrite !map_length, linspace_length. replace (Nat.max 8 n) with n by lia. split; [reflexivity|]. intros i Hi.
  rewrite nth_scale. set (ym0 := sand_ymax _ _ _ _ _ _ _ _). set (g := sand_p _ _ _ _ _ _ _).
  assert (U0 : 0 < sand_ultimate (q_sig q) (q_X q) s (q_D q)) by (apply ultimate_pos; lra). pose proof (sand_A_ge (q_X q) (q_D q) kind) as AG. pose proof (sand_k_pos s (q_wet q) kk Pk) as KP. assert (HR : 0.1 <= Rmax (q_X q) 0.1) by apply Rmax_r.
  assert (NG : nth i (map g (linspace 0 ym0 n)) 0 = g (nth i (linspace 0 ym0 n) 0)) by (rewrite nth_indep with (d' := g 0) by (rewrite map_length, linspace_length; exact Hi); apply map_nth).
  rewrite NG, linspace_nth by lia. unfold g, sand_p. cbv zeta. destruct (Req_EM_T (sand_ultimate (q_sig q) (q_X q) s (q_D q)) 0) as [Z|_]; [lra|].
  unfold ym0, sand_ymax. destruct (Req_EM_T 0 0) as [_|Z]; [|lra]. destruct (Req_EM_T (sand_ultimate (q_sig q) (q_X q) s (q_D q)) 0) as [Z|_]; [lra|]. unfold sand_share.
  set (P := sand_ultimate (q_sig q) (q_X q) s (q_D q)) in *. set (AA := sand_A (q_X q) (q_D q) kind) in *. set (kk' := sand_k s (q_wet q) kk) in *. set (Z := Rmax (q_X q) 0.1) in *. set (t := INR i / INR (n - 1)).
  replace (kk' * q_X q * (0 + (4 * AA * P / (kk' * Z) - 0) * t) / (AA * P)) with (4 * q_X q / Z * t) by (field; repeat split; lra). ring.
Qed.

(** Rows of a matrix of moments that are given by a table *)
Lemma sand_row_outdone : forall n (t m t' m' : list R) W W', length t = n -> length m = n -> length t' = n -> length m' = n -> (2 <= n)%nat -> nondecreasing t -> 0 < nth 1 t 0 -> nth 0 t' 0 = 0 ->
  nth 0 m 0 = 0 -> nth 0 m' 0 = 0 -> (forall j, (1 <= j < n)%nat -> nth j m 0 = W) -> (forall j, (1 <= j < n)%nat -> nth j m' 0 = W') -> 0 <= W <= W' -> outdone t m t' m'.
Proof.
  intros n t m t' m' W W' LT LM LT' LM' N NT T1 T0 M0 M0' MW MW' HW.
  assert (ML : forall j, (j < n)%nat -> nth j m 0 <= W) by (intros [|j] H; [lra|rewrite MW by lia; lra]). split.
  - intros v w v' w' I I' L. destruct (in_row t m n v w LT LM I) as (j & Hj & -> & ->). destruct (in_row t' m' n v' w' LT' LM' I') as (k & Hk & -> & ->).
    destruct k as [|k]; [|rewrite (MW' (S k)) by lia; pose proof (ML j Hj); lra]. rewrite T0 in L. destruct j as [|j]; [lra|]. exfalso. assert (nth 1 t 0 <= nth (S j) t 0) by (apply NT; lia). lra.
  - intros w I. destruct (In_nth _ _ 0 I) as (j & Hj & <-). exists (nth 1 m' 0). split; [apply nth_In; lia|]. rewrite MW' by lia. pose proof (ML j ltac:(lia)). lra.
Qed.

(** A row of API sand: the moment in proportion to unit friction and share.  Outside of [live] places there is none. *)
Lemma share_max : forall p C X n, length p = n -> (15 <= n)%nat -> 0 < C -> 0 <= X -> (forall i, (i < n)%nat -> nth i p 0 = C * sand_share X n i) -> is_max (C * sand_share X n (n - 1)) p.
Proof.
  intros p C X n LP N HC HX H. split; [rewrite <- H by lia; apply nth_In; lia|]. intros v I. destruct (In_nth _ _ 0 I) as (i & Hi & <-). rewrite H by lia. apply Rmult_le_compat_l; [lra|].
  unfold sand_share. apply tanh_mono. assert (HR : 0.1 <= Rmax X 0.1) by apply Rmax_r. apply Rmult_le_compat_l; [apply Rmult_le_pos; [lra|left; apply Rinv_0_lt_compat; lra]|].
  apply Rmult_le_compat_r; [left; apply Rinv_0_lt_compat, lt_0_INR; lia|]. apply le_INR. lia.
Qed.
Lemma is_max_unique : forall a b l, is_max a l -> is_max b l -> a = b.
Proof. intros a b l [I U] [I' U']. apply Rle_antisym; auto. Qed.

Lemma sand_rows : forall phi kind k modif e pm ym u idx q n s, (forall i, 0 <= u i < 1) -> good_place q -> let m := API_sand phi kind k modif e pm ym in admissible m q n -> 0 <= at_X pm (q_X q) ->
  argsort (sand_backbone_z u n) idx -> (15 <= n)%nat -> value phi q = Ok s ->
  exists T M, mt_spring_fct m u idx q 0 n = Ok (T, map (map Some) M) /\ length T = n /\ length M = n /\
    forall i, (i < n)%nat -> length (nth i T []) = n /\ length (nth i M []) = n /\ nth 0 (nth i T []) 0 = 0 /\ nth 0 (nth i M []) 0 = 0 /\ nondecreasing (nth i T []) /\ 0 < nth 1 (nth i T []) 0 /\
      forall j, (1 <= j < n)%nat -> nth j (nth i M []) 0 = if Rlt_dec 0 (at_X pm (q_X q) * q_X q) then PI / 4 * q_D q ^ 2 * fmax_api_sand (q_sig q) (s - 5) 0.8 * (sand_share (q_X q) n i / sand_share (q_X q) n (n - 1)) else 0.
Proof.
  intros phi kind k modif e pm ym u idx q n s U G m A HP IX N VS. pose proof G as [G1 G2 GD GS GX].
  destruct (C73_sand_moment phi kind k modif e pm ym u idx q 0 n U G ltac:(lra) A HP IX N) as (s0 & V0 & y & p & T & M & EP & EM & LP & LT & LM & H). assert (s0 = s) by congruence. subst s0. fold m in EP, EM.
  exists T, M. split; [exact EM|]. split; [exact LT|]. split; [exact LM|]. intros i Hi. destruct (H i Hi) as (L1 & L2 & T0 & M0 & NT & NM & _ & T1 & V). do 5 (split; [assumption|]).
  split; [rewrite T1, <- atan_0; apply atan_increasing; apply Rdiv_lt_0_compat; lra|]. intros j Hj.
  assert (P1 : within 15 45 s). { destruct A as [A1 _]. destruct (value_in _ _ _ _ (within_convex 15 45) A1 G1 G2) as (s0 & E1 & P1). unfold value in VS. assert (s0 = s) by congruence. subst s0. exact P1. } unfold within in P1.
  destruct GS as [GS|GS].
  - destruct (sand_points phi kind k modif e pm ym u q n s G A N GS VS) as (y0 & p0 & EP0 & _ & H0). fold m in EP0. rewrite EP in EP0. assert (EQ : map Some p = map Some p0) by congruence. apply SoftenProofs.map_Some_inj in EQ. subst p0.
    assert (U0 : 0 < sand_ultimate (q_sig q) (q_X q) s (q_D q)) by (apply ultimate_pos; lra). pose proof (sand_A_ge (q_X q) (q_D q) kind) as AG. set (C := sand_A (q_X q) (q_D q) kind * sand_ultimate (q_sig q) (q_X q) s (q_D q)) in *.
    assert (CP : 0 < C) by (apply Rmult_lt_0_compat; lra). destruct (Rlt_dec 0 (at_X pm (q_X q) * q_X q)) as [L|L].
    + assert (PM : 0 < at_X pm (q_X q)) by (destruct HP as [HP|HP]; [exact HP|rewrite <- HP in L; lra]). assert (XP : 0 < q_X q) by (destruct GX as [GX|GX]; [exact GX|rewrite <- GX in L; lra]).
      assert (CC : 0 < at_X pm (q_X q) * C) by (apply Rmult_lt_0_compat; assumption). pose proof (share_max p (at_X pm (q_X q) * C) (q_X q) n LP N CC ltac:(lra) H0) as MX.
      pose proof (share_pos (q_X q) n (n - 1) XP ltac:(lia) ltac:(lia)) as SP. rewrite (V _ MX j Hj). destruct (Rlt_dec 0 _) as [_|NL]; [|exfalso; apply NL; apply Rmult_lt_0_compat; assumption].
      f_equal. rewrite (H0 i Hi). fold C. field. repeat split; lra.
    + assert (Z : forall v, In v p -> v = 0).
      { intros v I. destruct (In_nth _ _ 0 I) as (a & Ha & <-). rewrite H0 by lia. destruct HP as [HP|HP]; [|rewrite <- HP; ring]. destruct GX as [GX|GX]; [exfalso; apply L, Rmult_lt_0_compat; assumption|].
        unfold sand_share. rewrite <- GX. replace (4 * 0 / Rmax 0 0.1 * (INR a / INR (n - 1))) with 0 by (unfold Rdiv; ring). rewrite tanh_0. ring. }
      rewrite (V 0); [destruct (Rlt_dec 0 0); [lra|reflexivity]| |exact Hj]. split; [rewrite <- (Z (nth 0 p 0)) by (apply nth_In; lia); apply nth_In; lia|]. intros v I. rewrite (Z v I). lra.
  - assert (F0 : fmax_api_sand (q_sig q) (s - 5) 0.8 = 0).
    { destruct (C50_sand_friction (q_sig q) (s - 5) 0.8 ltac:(lra) ltac:(lra) ltac:(lra)) as (F & FT & _). rewrite <- GS in *. lra. }
    rewrite F0 in *. pose proof (array_max_is p ltac:(intros Z; rewrite Z in LP; cbn in LP; lia)) as MX. rewrite (V _ MX j Hj). destruct (Rlt_dec 0 (array_max p)); destruct (Rlt_dec 0 (at_X pm (q_X q) * q_X q)); ring.
Qed.

(** Row by row, that is at the same share of the lateral resistance, sand of no smaller friction angle under no less stress has no less moment. *)
Theorem C128_api_sand_rows_partial : forall phi kind k modif e pm ym phi' kind' k' modif' e' pm' ym' u u' idx idx' q q' n,
  let m := API_sand phi kind k modif e pm ym in let m' := API_sand phi' kind' k' modif' e' pm' ym' in
  (forall i, 0 <= u i < 1) -> (forall i, 0 <= u' i < 1) -> good_place q -> good_place q' -> no_shallower q q' -> admissible m q n -> admissible m' q' n -> at_most phi phi' q ->
  0 <= at_X pm (q_X q) <= at_X pm' (q_X q) -> argsort (sand_backbone_z u n) idx -> argsort (sand_backbone_z u' n) idx' -> (15 <= n)%nat ->
  exists T M T' M', mt_spring_fct m u idx q 0 n = Ok (T, map (map Some) M) /\ mt_spring_fct m' u' idx' q' 0 n = Ok (T', map (map Some) M') /\
    length T = n /\ length M = n /\ length T' = n /\ length M' = n /\ forall i, (i < n)%nat -> outdone (nth i T []) (nth i M []) (nth i T' []) (nth i M' []).
Proof.
  intros phi kind k modif e pm ym phi' kind' k' modif' e' pm' ym' u u' idx idx' q q' n m m' U U' G G' NS A A' AM HP IX IX' N. destruct NS as (HS & NX & NH & ND & Nd & NL & _). pose proof G as [G1 G2 GD GS GX].
  assert (VV : exists s s', value phi q = Ok s /\ value phi' q' = Ok s' /\ 15 <= s <= s' /\ s' <= 45).
  { destruct A as [A1 _], A' as [A1' _]. destruct (value_in _ _ _ _ (within_convex 15 45) A1 G1 G2) as (s & E1 & P1). pose proof G' as [G1' G2' _ _ _]. destruct (value_in _ _ _ _ (within_convex 15 45) A1' G1' G2') as (s' & E1' & P1').
    exists s, s'. split; [exact E1|]. split; [exact E1'|]. unfold within in *. assert (s <= s'); [|lra]. apply AM; [apply value_custom; exact E1|]. assert (V' : custom_value phi' q' = Ok s') by (apply value_custom; exact E1'). unfold custom_value in *. rewrite NX, NH, ND in V'. exact V'. }
  destruct VV as (s & s' & VS & VS' & SS & S45).
  destruct (sand_rows phi kind k modif e pm ym u idx q n s U G A ltac:(lra) IX N VS) as (T & M & E & LT & LM & H). destruct (sand_rows phi' kind' k' modif' e' pm' ym' u' idx' q' n s' U' G' A' ltac:(rewrite NX; lra) IX' N VS') as (T' & M' & E' & LT' & LM' & H').
  exists T, M, T', M'. split; [exact E|]. split; [exact E'|]. do 4 (split; [assumption|]). intros i Hi. destruct (H i Hi) as (L1 & L2 & T0 & M0 & NT & T1 & V). destruct (H' i Hi) as (L1' & L2' & T0' & M0' & NT' & T1' & V').
  destruct (C50_sand_friction (q_sig q) (s - 5) 0.8 GS ltac:(lra) ltac:(lra)) as (F0 & _ & _ & FM). specialize (FM (q_sig q') (s' - 5) 0.8 HS ltac:(lra) ltac:(lra) ltac:(lra)).
  eapply (sand_row_outdone n); try eassumption; [lia|]. rewrite NX, Nd. set (r := sand_share (q_X q) n i / sand_share (q_X q) n (n - 1)).
  assert (R0 : 0 < q_X q -> 0 <= r).
  { intros XP. apply Rmult_le_pos; [|left; apply Rinv_0_lt_compat, share_pos; lia || lra]. destruct i as [|i]; [|left; apply share_pos; lia || lra]. unfold sand_share. replace (4 * q_X q / Rmax (q_X q) 0.1 * (INR 0 / INR (n - 1))) with 0 by (cbn [INR]; unfold Rdiv; ring). rewrite tanh_0. lra. }
  assert (KP : 0 <= PI / 4 * q_D q ^ 2) by (pose proof PI_RGT_0; apply Rmult_le_pos; [lra|apply pow_le; lra]).
  destruct (Rlt_dec 0 (at_X pm (q_X q) * q_X q)) as [L|L].
  - assert (XP : 0 < q_X q) by (destruct GX as [GX|GX]; [exact GX|rewrite <- GX in L; lra]). specialize (R0 XP). destruct (Rlt_dec 0 (at_X pm' (q_X q) * q_X q)) as [L'|L']; [|exfalso; apply L'; eapply Rlt_le_trans; [exact L|apply Rmult_le_compat_r; lra]].
    split; [apply Rmult_le_pos; [apply Rmult_le_pos; [exact KP|lra]|exact R0]|]. apply Rmult_le_compat_r; [exact R0|]. apply Rmult_le_compat_l; [exact KP|exact FM].
  - split; [lra|]. destruct (Rlt_dec 0 (at_X pm' (q_X q) * q_X q)) as [L'|L']; [|lra]. assert (XP : 0 < q_X q) by (destruct GX as [GX|GX]; [exact GX|rewrite <- GX in L'; lra]). specialize (R0 XP).
    apply Rmult_le_pos; [|exact R0]. apply Rmult_le_pos; [exact KP|lra].
Qed.
Print Assumptions C128_api_sand_rows_partial.

(** But the rows go with the lateral resistance.  Where the friction is at its limit, sand under four times the stress has at least the same lateral resistance at its second point as
    the first sand at most, and there it has less than a third of its moment. *)
Definition four_times (q : place) : place := mkPlace (4 * q_sig q) (q_X q) (q_height q) (q_depth q) (q_D q) (q_L q) (q_wet q).
Lemma tanh_step : 1/4 <= tanh (4 * (1 / 14)).
Proof.
  rewrite tanh_exp. replace (2 * (4 * (1 / 14))) with (1/7 + 1/7 + (1/7 + 1/7)) by lra. rewrite !exp_plus. pose proof (exp_ineq1_le (1/7)) as X. set (a := exp (1/7)) in *. clearbody a.
  assert (B : 1.3 <= a * a) by nra. set (b := a * a) in *. clearbody b. assert (C : 5/3 <= b * b) by nra. set (c := b * b) in *. clearbody c.
  assert (2 / (c + 1) <= 3/4); [|lra]. apply Rmult_le_reg_r with (c + 1); [lra|]. unfold Rdiv. rewrite Rmult_assoc, Rinv_l by lra. lra.
Qed.
Lemma tanh_below : forall x, 0 <= x -> tanh x <= x.
Proof.
  intros x H. destruct H as [H|<-]; [|rewrite tanh_0; lra]. destruct (MVT_cor2 tanh (fun y => 1 / (cosh y * cosh y)) 0 x H (fun c _ => tanh_slope c)) as (c & E & _). rewrite tanh_0 in E.
  assert (CH : 1 <= cosh c). { unfold cosh. pose proof (exp_ineq1_le c). pose proof (exp_pos c) as EP. rewrite exp_Ropp. set (t := exp c) in *. assert (IT : t * / t = 1) by (apply Rinv_r; lra). assert (0 < / t) by (apply Rinv_0_lt_compat; exact EP). set (v := / t) in *. clearbody v t. assert (0 <= (t - v) * (t - v)) by apply Rle_0_sqr. nra. }
  assert (C2 : 1 <= cosh c * cosh c) by nra. assert (D1 : 1 / (cosh c * cosh c) <= 1). { unfold Rdiv. rewrite Rmult_1_l. rewrite <- Rinv_1. apply Rinv_le_contravar; lra. } nra.
Qed.
Theorem C128_api_sand_pressure_refuted : forall phi kind k modif e pm ym u u' idx idx' q s, let m := API_sand phi kind k modif e pm ym in
  (forall i, 0 <= u i < 1) -> (forall i, 0 <= u' i < 1) -> good_place q -> admissible m q 15 -> 0.1 <= q_X q -> 0 < at_X pm (q_X q) -> argsort (sand_backbone_z u 15) idx -> argsort (sand_backbone_z u' 15) idx' ->
  value phi q = Ok s -> rinterp fs_table (s - 5) <= 0.8 * q_sig q * tan ((s - 5) * PI / 180) ->
  no_shallower q (four_times q) /\ exists y p T M y' p' T' M', py_spring_fct m u q 0 15 = Ok (y, map Some p) /\ mt_spring_fct m u idx q 0 15 = Ok (T, map (map Some) M) /\
    py_spring_fct m u' (four_times q) 0 15 = Ok (y', map Some p') /\ mt_spring_fct m u' idx' (four_times q) 0 15 = Ok (T', map (map Some) M') /\
    (forall v, In v p -> v <= nth 1 p' 0) /\ forall j, (1 <= j < 15)%nat -> 0 < nth j (nth 14 M []) 0 /\ nth j (nth 1 M' []) 0 <= 0.3 * nth j (nth 14 M []) 0.
Proof.
  intros phi kind k modif e pm ym u u' idx idx' q s m U U' G A HX HP IX IX' VS FL. pose proof G as [G1 G2 GD GS GX].
  assert (P1 : within 15 45 s). { destruct A as [A1 _]. destruct (value_in _ _ _ _ (within_convex 15 45) A1 G1 G2) as (s0 & E1 & P1). unfold value in VS. assert (s0 = s) by congruence. subst s0. exact P1. } unfold within in P1.
  assert (RS : rising fs_table) by (unfold fs_table; cbn; lra). pose proof (interp_bounds _ _ _ RS (s - 5)) as B. fold fs_table in B. cbn [last snd] in B.
  assert (TP : 0 < tan ((s - 5) * PI / 180)) by (pose proof PI_RGT_0; apply tan_gt_0; nra).
  assert (SP : 0 < q_sig q) by (destruct GS as [GS|GS]; [exact GS|exfalso; rewrite <- GS in FL; lra]).
  assert (G' : good_place (four_times q)) by (constructor; cbn [four_times q_depth q_height q_D q_sig q_X]; lra).
  assert (A' : admissible m (four_times q) 15) by exact A. assert (VS' : value phi (four_times q) = Ok s) by exact VS.
  split; [unfold no_shallower, four_times; cbn [q_sig q_X q_height q_depth q_D q_L q_wet]; repeat split; lra|].
  destruct (sand_points phi kind k modif e pm ym u q 15 s G A ltac:(lia) SP VS) as (y & p & EP & LP & HPT).
  destruct (sand_points phi kind k modif e pm ym u' (four_times q) 15 s G' A' ltac:(lia) ltac:(cbn [four_times q_sig]; lra) VS') as (y' & p' & EP' & LP' & HPT').
  destruct (sand_rows phi kind k modif e pm ym u idx q 15 s U G A ltac:(lra) IX ltac:(lia) VS) as (T & M & EM & LT & LM & H). destruct (sand_rows phi kind k modif e pm ym u' idx' (four_times q) 15 s U' G' A' ltac:(cbn [four_times q_X]; lra) IX' ltac:(lia) VS') as (T' & M' & EM' & LT' & LM' & H').
  exists y, p, T, M, y', p', T', M'. do 4 (split; [assumption|]). cbn [four_times q_sig q_X q_D] in HPT', H'.
  assert (SH : forall i, sand_share (q_X q) 15 i = tanh (4 * (INR i / 14))) by (intros i; unfold sand_share; rewrite Rmax_left by lra; replace (INR (15 - 1)) with 14 by (simpl; lra); f_equal; field; lra).
  assert (S1 : 1/4 <= sand_share (q_X q) 15 1 <= 2/7) by (rewrite SH; cbn [INR]; split; [apply tanh_step|eapply Rle_trans; [apply tanh_below; lra|lra]]).
  assert (S14 : 0.999 <= sand_share (q_X q) 15 14 <= 1) by (rewrite SH; replace (4 * (INR 14 / 14)) with 4 by (simpl; lra); split; [apply tanh_4|left; apply tanh_bounds]).
  assert (U0 : 0 < sand_ultimate (q_sig q) (q_X q) s (q_D q)) by (apply ultimate_pos; lra). pose proof (sand_A_ge (q_X q) (q_D q) kind) as AG.
  assert (U4 : sand_ultimate (4 * q_sig q) (q_X q) s (q_D q) = 4 * sand_ultimate (q_sig q) (q_X q) s (q_D q)).
  { unfold sand_ultimate. set (a := flow_C3 s). set (b := wedge_C1 s * q_X q + wedge_C2 s * q_D q). clearbody a b. replace (a * (4 * q_sig q) * q_D q) with (4 * (a * q_sig q * q_D q)) by ring. replace (b * (4 * q_sig q)) with (4 * (b * q_sig q)) by ring.
    set (x := a * q_sig q * q_D q). set (y0 := b * q_sig q). unfold Rmin. destruct (Rle_dec (4 * x) (4 * y0)), (Rle_dec x y0); lra. }
  set (C := at_X pm (q_X q) * (sand_A (q_X q) (q_D q) kind * sand_ultimate (q_sig q) (q_X q) s (q_D q))) in *.
  assert (CP : 0 < C) by (apply Rmult_lt_0_compat; [exact HP|apply Rmult_lt_0_compat; lra]). split.
  - intros v I. pose proof (share_max p C (q_X q) 15 LP ltac:(lia) CP ltac:(lra) HPT) as [_ MX]. eapply Rle_trans; [apply MX; exact I|]. change (15 - 1)%nat with 14%nat. rewrite (HPT' 1%nat ltac:(lia)), U4.
    replace (at_X pm (q_X q) * (sand_A (q_X q) (q_D q) kind * (4 * sand_ultimate (q_sig q) (q_X q) s (q_D q))) * sand_share (q_X q) 15 1) with (C * (4 * sand_share (q_X q) 15 1)) by (unfold C; ring). apply Rmult_le_compat_l; lra.
  - intros j Hj. destruct (H 14%nat ltac:(lia)) as (_ & _ & _ & _ & _ & _ & V). destruct (H' 1%nat ltac:(lia)) as (_ & _ & _ & _ & _ & _ & V'). rewrite (V j Hj), (V' j Hj). change (15 - 1)%nat with 14%nat.
    destruct (Rlt_dec 0 (at_X pm (q_X q) * q_X q)) as [L|L]; [|exfalso; apply L, Rmult_lt_0_compat; lra].
    assert (FE : fmax_api_sand (q_sig q) (s - 5) 0.8 = rinterp fs_table (s - 5)) by (unfold fmax_api_sand; rewrite Rmin_left by lra; reflexivity).
    assert (FE' : fmax_api_sand (4 * q_sig q) (s - 5) 0.8 = rinterp fs_table (s - 5)).
    { unfold fmax_api_sand. rewrite Rmin_left; [reflexivity|]. eapply Rle_trans; [exact FL|]. apply Rmult_le_compat_r; lra. }
    rewrite FE, FE'. set (K := PI / 4 * q_D q ^ 2 * rinterp fs_table (s - 5)). assert (KP : 0 < K) by (unfold K; pose proof PI_RGT_0; apply Rmult_lt_0_compat; [apply Rmult_lt_0_compat; [lra|apply pow_lt; lra]|lra]).
    set (a := sand_share (q_X q) 15 1) in *. set (b := sand_share (q_X q) 15 14) in *. clearbody a b. replace (b / b) with 1 by (field; lra). split; [lra|].
    assert (AB : a / b <= 0.3). { apply Rmult_le_reg_r with b; [lra|]. unfold Rdiv. rewrite Rmult_assoc, Rinv_l by lra. lra. } nra.
Qed.
Print Assumptions C128_api_sand_pressure_refuted.

(** ** Custom sand *)
Lemma scaled_values : forall c num g sc xs ys, g <> 0 -> scaled c num g sc = Ok (xs, map Some ys) -> exists x0 V, c = Ok (x0, map Some V) /\ ys = map (fun v => v * sc) V.
Proof.
  intros [[x0 l]|] num g sc xs ys NZ E; [|discriminate]. unfold scaled in E. cbn [bind fst snd] in E. rewrite nonzero_ok in E by exact NZ. assert (EL : map (option_map (fun v => v * sc)) l = map Some ys) by congruence. clear E. exists x0.
  revert ys EL. induction l as [|o l IH]; intros [|w ys] EL; try discriminate; [exists []; split; reflexivity|]. cbn [map] in EL. destruct o as [v|]; [|discriminate]. cbn [option_map] in EL. injection EL as EW EL.
  destruct (IH ys EL) as (V & EV & EY). exists (v :: V). split; [cbn [map]; congruence|]. cbn [map]. congruence.
Qed.

Definition custom_firmer (m m' : lateral_model) (q : place) : Prop :=
  match m, m' with
  | Custom_pisa_sand G0 py mt _ _ _, Custom_pisa_sand G0' py' mt' _ _ _ => py' = py /\ mt' = mt /\ at_most G0 G0' q /\ from (1/8) (f_X mt) q
  | _, _ => False
  end.
Lemma custom_sand_rows : forall G0 py mt Hb Mb mu u idx q ymax g, let m := Custom_pisa_sand G0 py mt Hb Mb mu in (forall i, 0 <= u i < 1) -> good_place q -> moment_admissible m q 15 -> 0 <= ymax -> custom_value G0 q = Ok g -> 0 < g ->
  exists x0 V T M, with_four py q (fun X nn k Y => conic X nn k Y 15) = Ok (x0, map Some V) /\ (forall v, In v V -> 0 <= v) /\ length V = 15%nat /\
    mt_curve m u idx q ymax 15 = Ok (T, map (map Some) M) /\ length T = 15%nat /\ length M = 15%nat /\
    (forall i, (i < 15)%nat -> spring_curve 15 (nth i T []) (nth i M [])) /\
    forall i, (i < 15)%nat -> with_four mt q (fun X nn k Y => scaled (conic X nn k Y 15) (q_sig q) g (q_sig q * (nth i V 0 * q_D q * q_D q))) = Ok (nth i T [], map Some (nth i M [])).
Proof.
  intros G0 py mt Hb Mb mu u idx q ymax g m U G A HY VG GP. pose proof G as [G1 G2 GD GS GX]. destruct A as [(A1 & A2 & A3) (B1 & B2)].
  destruct (four_ok py q G A2 A3) as (x & c & k & yy & W & CV & PK & PY & RG & EQ). destruct (four_ok mt q G B1 B2) as (xm & cm & km & ym & Wm & CVm & PKm & PYm & RGm & EQm). unfold wide, curvature, pos in *.
  destruct (scaled_curve' x c k yy 15 1 1 1) as (xs & ys & E & C); try lra; try lia. destruct (scaled_values _ _ _ _ _ _ R1_neq_R0 E) as (x0 & V & EC & EY).
  apply pisa_spring in C. destruct C as [(_ & LY & _ & _ & _ & PP) _]. assert (EV : ys = V) by (rewrite EY; rewrite <- (map_id V) at 2; apply map_ext; intros; ring). rewrite EV in *. clear EY EV ys.
  assert (EP : py_curve m u q ymax 15 = Ok (map (fun v => v * (q_sig q * q_D q / g)) x0, map Some (map (fun v => v * (q_sig q * q_D q)) V))).
  { unfold m. cbn [py_curve]. rewrite VG. cbn [bind]. rewrite EQ. unfold py_custom_sand, scaled. rewrite EC. cbn [bind fst snd]. rewrite nonzero_ok by lra. rewrite !map_map. reflexivity. }
  pose proof (Rmult_le_pos _ _ GS (Rlt_le _ _ GD)) as SD.
  destruct (mt_rows_exist (fun v xs ys => spring_curve 15 xs ys /\ forall pv, v = Some pv -> scaled (conic xm cm km ym 15) (q_sig q) g (pv * q_D q) = Ok (xs, map Some ys))
    (of_p (fun p => with_four mt q (fun X nn k Y => mt_custom_sand (q_sig q) g p (q_D q) X nn k Y 15))) (map Some (map (fun v => v * (q_sig q * q_D q)) V)) 15) as (T & M & L1 & L2 & ER & HI).
  { rewrite !map_length. exact LY. }
  { intros v I. apply in_map_iff in I. destruct I as (pv & <- & I). apply in_map_iff in I. destruct I as (v0 & <- & I). cbn [of_p]. rewrite EQm. unfold mt_custom_sand. pose proof (Rmult_le_pos _ _ (Rmult_le_pos _ _ (PP v0 I) SD) (Rlt_le _ _ GD)).
    destruct (scaled_curve' xm cm km ym 15 (q_sig q) g (v0 * (q_sig q * q_D q) * q_D q)) as (xs' & ys' & E' & C'); try lra; try lia. exists xs', ys'. split; [exact E'|]. apply pisa_spring in C'. split; [apply C'|]. intros pv EP'. injection EP' as <-. exact E'. }
  exists x0, V, T, M. split; [rewrite EQ; exact EC|]. split; [exact PP|]. split; [exact LY|].
  split; [unfold m in *; cbn [mt_curve py_curve] in *; rewrite VG in *; cbn [bind] in *; rewrite EP; cbn [bind snd]; exact ER|]. split; [exact L1|]. split; [exact L2|]. split; [intros i Hi; apply HI; exact Hi|].
  intros i Hi. rewrite EQm. destruct (HI i Hi) as [_ H]. rewrite <- (H (nth i V 0 * (q_sig q * q_D q))); [f_equal; ring|].
  rewrite nth_indep with (d' := Some 0) by (rewrite !map_length; lia). rewrite map_nth. rewrite nth_scale. reflexivity.
Qed.

(** Row by row, custom sand that is no softer, under no less stress, has no less moment. *)
Theorem C128_custom_sand_rows_partial : forall m m' u u' idx idx' q q' ymax, (forall i, 0 <= u i < 1) -> (forall i, 0 <= u' i < 1) -> good_place q -> good_place q' -> 0 <= ymax ->
  moment_admissible m q 15 -> moment_admissible m' q' 15 -> custom_firmer m m' q -> no_shallower q q' ->
  0 <= at_X (m_multiplier m) (q_X q) <= at_X (m_multiplier m') (q_X q) -> 0 < at_X (t_multiplier m') (q_X q) <= at_X (t_multiplier m) (q_X q) ->
  exists T M T' M', mt_spring_fct m u idx q ymax 15 = Ok (T, map (map Some) M) /\ mt_spring_fct m' u' idx' q' ymax 15 = Ok (T', map (map Some) M') /\
    length T = 15%nat /\ length M = 15%nat /\ length T' = 15%nat /\ length M' = 15%nat /\
    forall i, (i < 15)%nat -> outdone (nth i T []) (nth i M []) (nth i T' []) (nth i M' []).
Proof.
  intros m m' u u' idx idx' q q' ymax U U' G G' HY A A' F NS HM HT. destruct NS as (HS & NX & NH & ND & Nd & NL & _). pose proof G as [GA GB GD GS GX]. pose proof G' as [GA' GB' _ _ _].
  destruct m as [| | | | | | |G0 py mt Hb Mb mu|]; cbn [custom_firmer] in F; try contradiction. destruct m' as [| | | | | | |G1 py' mt' Hb' Mb' mu'|]; try contradiction. destruct F as (-> & -> & FG & FX).
  pose proof A as [(A1 & _ & _) (B1 & B2)]. pose proof A' as [(A1' & _ & _) _].
  destruct (custom_value_in _ _ (q_depth q) (q_height q) (q_X q) pos_convex A1 GA GB) as (g & E1 & P1). destruct (custom_value_in _ _ (q_depth q') (q_height q') (q_X q') pos_convex A1' GA' GB') as (g' & E1' & P1').
  assert (VG : custom_value G0 q = Ok g) by exact E1. assert (VG' : custom_value G1 q' = Ok g') by exact E1'. unfold pos in P1, P1'.
  match goal with |- exists T M T' M', mt_spring_fct ?a _ _ _ _ _ = _ /\ mt_spring_fct ?b _ _ _ _ _ = _ /\ _ => set (m := a) in *; set (m' := b) in * end.
  assert (GG : g <= g') by (apply FG; [exact VG|unfold custom_value in *; rewrite NX, NH, ND in VG'; exact VG']).
  destruct (custom_sand_rows _ _ _ _ _ _ u idx q ymax g U G A HY VG P1) as (x0 & V & T & M & EV & PV & LV & EM & LT & LM & SC & H).
  destruct (custom_sand_rows _ _ _ _ _ _ u' idx' q' ymax g' U' G' A' HY VG' P1') as (x0' & V' & T' & M' & EV' & PV' & LV' & EM' & LT' & LM' & SC' & H'). fold m in EM. fold m' in EM'.
  assert (W4 : forall f (h : R -> R -> R -> R -> res curve), with_four f q' h = with_four f q h) by (intros f h; unfold with_four, custom_value; rewrite NX, NH, ND; reflexivity).
  rewrite W4, EV in EV'. assert (VE : V' = V) by (apply SoftenProofs.map_Some_inj; congruence). subst V'.
  assert (SP : mt_spring_fct m u idx q ymax 15 = inside_layer q (bind (mt_curve m u idx q ymax 15) (fun c => Ok (scaled_rows (at_X (t_multiplier m) (q_X q)) (at_X (m_multiplier m) (q_X q)) c)))) by reflexivity.
  assert (SP' : mt_spring_fct m' u' idx' q' ymax 15 = inside_layer q' (bind (mt_curve m' u' idx' q' ymax 15) (fun c => Ok (scaled_rows (at_X (t_multiplier m') (q_X q')) (at_X (m_multiplier m') (q_X q')) c)))) by reflexivity.
  rewrite SP, SP', EM, EM', !inside_ok by lra. cbn [bind]. rewrite !scaled_rows_numbers, NX. eexists _, _, _, _. split; [reflexivity|]. split; [reflexivity|]. rewrite !map_length. do 4 (split; [assumption|]).
  intros i Hi. rewrite !nth_rows. specialize (H i Hi). specialize (H' i Hi). rewrite W4, Nd in H'. destruct (SC i Hi) as (_ & _ & _ & _ & _ & PM). destruct (SC' i Hi) as (_ & _ & T0' & _ & NT' & _).
  apply outdone_scale; auto; [|intros v I; exact (nd_nonneg _ T0' NT' v I)].
  destruct (four_ok mt q G B1 B2) as (x & n & k & yy & W & CV & PK & PY & RG & EQ). pose proof (FX x (four_X _ _ _ _ _ _ EQ)) as X8. rewrite EQ in H, H'. unfold curvature, pos in *.
  assert (NV : 0 <= nth i V 0 * q_D q * q_D q) by (repeat apply Rmult_le_pos; try lra; apply PV, nth_In; lia).
  destruct (moment_pair x n k yy (q_sig q) (q_sig q') (nth i V 0 * q_D q * q_D q) g g' _ X8 PY ltac:(lra) ltac:(lra) NV ltac:(lra) H) as (y1 & p1 & y1' & p1' & Q & Q' & O). rewrite H in Q. rewrite H' in Q'.
  assert (y1 = nth i T [] /\ p1 = nth i M []) as [-> ->] by (split; [congruence|apply SoftenProofs.map_Some_inj; congruence]). assert (y1' = nth i T' [] /\ p1' = nth i M' []) as [-> ->] by (split; [congruence|apply SoftenProofs.map_Some_inj; congruence]). exact O.
Qed.
Print Assumptions C128_custom_sand_rows_partial.

(** ** Cases *)
Lemma given : forall c q, 0 < q_height q -> 0 <= q_depth q <= q_height q -> value (PNum c) q = Ok c.
Proof. intros c q H1 H2. unfold value, in_layer. cbn [top_bottom bind fst snd]. rewrite at_depth_between by lra. f_equal. unfold LateralSpec.between. ring. Qed.
Lemma at_most_num : forall a b q, 0 < q_height q -> 0 <= q_depth q <= q_height q -> a <= b -> at_most (PNum a) (PNum b) q.
Proof. intros a b q H1 H2 L v v' E E'. pose proof (value_custom _ _ _ (given a q H1 H2)). pose proof (value_custom _ _ _ (given b q H1 H2)). assert (v = a) by congruence. assert (v' = b) by congruence. lra. Qed.

(** Clays of 50 and 60 kPa *)
Example C128_api_clay_rows_case : let clay c := API_clay (PNum c) (PNum 0.01) Static 0.5 true (MNum 1) (MNum 1) in let idx := seq 0 (length (clay_backbone_z (fun _ => 0) 15)) in
  exists T M T' M', mt_spring_fct (clay 50) (fun _ => 0) idx case_place 0 15 = Ok (T, map (map Some) M) /\ mt_spring_fct (clay 60) (fun _ => 0) idx case_place 0 15 = Ok (T', map (map Some) M') /\
    length T = 15%nat /\ length M = 15%nat /\ length T' = 15%nat /\ length M' = 15%nat /\ forall i, (i < 15)%nat -> outdone (nth i T []) (nth i M []) (nth i T' []) (nth i M' []).
Proof.
  intros clay idx. apply (C128_api_clay_rows (clay 50) (clay 60) (PNum 50) (PNum 60)); try reflexivity; try (intros i; lra); try apply case_good; try (cbn; unfold pos; lra); try lia; try (apply argsort_id, clay_z_sorted).
  - unfold no_shallower. repeat split; lra.
  - apply at_most_num; cbn; lra.
Qed.

(** Sands of 30 and 35 degrees *)
Example C128_api_sand_rows_case : let sand c := API_sand (PNum c) Static None None true (MNum 1) (MNum 1) in let idx := seq 0 (length (sand_backbone_z (fun _ => 0) 15)) in
  exists T M T' M', mt_spring_fct (sand 30) (fun _ => 0) idx case_place 0 15 = Ok (T, map (map Some) M) /\ mt_spring_fct (sand 35) (fun _ => 0) idx case_place 0 15 = Ok (T', map (map Some) M') /\
    length T = 15%nat /\ length M = 15%nat /\ length T' = 15%nat /\ length M' = 15%nat /\ forall i, (i < 15)%nat -> outdone (nth i T []) (nth i M []) (nth i T' []) (nth i M' []).
Proof.
  intros sand idx. apply C128_api_sand_rows_partial; try (intros i; lra); try apply case_good; try (cbn; unfold within; lra); try lia; try (apply argsort_id, sand_z_sorted).
  all: match goal with
  | |- no_shallower _ _ => unfold no_shallower; repeat split; lra
  | |- at_most _ _ _ => apply at_most_num; cbn; lra
  end.
Qed.

(** Sand of 35 degrees under 300 and 1200 kPa *)
Example C128_api_sand_pressure_case : let q := mkPlace 300 6 10 4 4 16 true in let m := API_sand (PNum 35) Static None None true (MNum 1) (MNum 1) in
  good_place q /\ admissible m q 15 /\ value (PNum 35) q = Ok 35 /\ rinterp fs_table (35 - 5) <= 0.8 * q_sig q * tan ((35 - 5) * PI / 180) /\ 0.1 <= q_X q /\
  argsort (sand_backbone_z (fun _ => 0) 15) (seq 0 (length (sand_backbone_z (fun _ => 0) 15))).
Proof.
  intros q m. split; [constructor; cbn; lra|]. split; [cbn; unfold within; split; [lra|exact Logic.I]|]. split; [apply given; cbn; lra|]. split; [|split; [cbn; lra|apply argsort_id, sand_z_sorted]].
  assert (RS : rising fs_table) by (unfold fs_table; cbn; lra). assert (B : rinterp fs_table (35 - 5) <= 114.8) by apply (interp_bounds _ _ _ RS (35 - 5)).
  replace ((35 - 5) * PI / 180) with (PI / 6) by lra. rewrite tan_PI6. cbn [q q_sig]. assert (S3 : sqrt 3 <= 2) by (replace 2 with (sqrt (2 * 2)) by (apply sqrt_square; lra); apply sqrt_le_1; lra).
  assert (S0 : 0 < sqrt 3) by (apply sqrt_lt_R0; lra). assert (1 / 2 <= 1 / sqrt 3) by (unfold Rdiv; rewrite !Rmult_1_l; apply Rinv_le_contravar; lra). lra.
Qed.

(** Custom sands of 20 and 30 MPa *)
Example C128_custom_sand_rows_case : let sand g := Custom_pisa_sand (PNum g) case_four case_four case_four case_four case_mults in
  exists T M T' M', mt_spring_fct (sand 20000) (fun _ => 0) [] case_place 0 15 = Ok (T, map (map Some) M) /\ mt_spring_fct (sand 30000) (fun _ => 0) [] case_place 0 15 = Ok (T', map (map Some) M') /\
    length T = 15%nat /\ length M = 15%nat /\ length T' = 15%nat /\ length M' = 15%nat /\ forall i, (i < 15)%nat -> outdone (nth i T []) (nth i M []) (nth i T' []) (nth i M' []).
Proof.
  intros sand. destruct case_fields as [F RG].
  assert (AD : forall g, 0 < g -> moment_admissible (sand g) case_place 15) by (intros g HG; unfold moment_admissible, sand, admissible; cbn [q_X case_place]; assert (custom_values pos (PNum g) 6) by (cbn; unfold pos; lra); auto 10).
  apply C128_custom_sand_rows_partial; try (intros i; lra); try apply case_good; try (apply AD; lra); try (cbn; lra).
  - unfold sand. cbn [custom_firmer]. split; [reflexivity|]. split; [reflexivity|]. split; [apply at_most_num; cbn; lra|]. intros x E. cbn [f_X case_four] in E. unfold custom_value, at_current_depth, in_layer in E. cbn [top_bottom bind fst snd] in E. rewrite at_depth_between in E by (cbn; lra).
    assert (X : x = LateralSpec.between 100 120 (q_depth case_place / q_height case_place)) by congruence. unfold LateralSpec.between in X. cbn [q_depth q_height case_place] in X. lra.
  - unfold no_shallower. repeat split; lra.
Qed.
